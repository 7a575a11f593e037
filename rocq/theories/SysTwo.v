(** * Two threads in makeGroup at once (C54) *)
From Coq Require Import String List Arith Bool Lia Permutation.
From Verif Require Import Base LevelModel SysModel SysSpec SysBase SysSpread SysInv SysOps SysSteps SysProps SysFrame SysTwoSpec.
Import ListNotations.

(** The objects a construction uses are older than it. *)
Lemma object_older s n p k lv X : Inv s -> object s n p k lv = Some X -> forall q, g_parent X = Some q -> q < length (groups s).
Proof.
  intros I H q Hq. unfold object, construct in H. cbn zeta in H.
  destruct (g_construct n _ _ lv) as [Y|] eqn:Hc; [|discriminate]. cbn in H.
  rewrite nth_error_app2, Nat.sub_diag in H by lia. cbn in H. injection H as ->.
  unfold g_construct in Hc. destruct p as [p|].
  - destruct (find (gmap s) p) as [i|] eqn:F; [|discriminate]. destruct (nth_error (groups s) i) as [y|] eqn:N; [|discriminate].
    assert (i < length (groups s)) by (apply nth_error_Some; congruence).
    assert (g_parent X = Some i); [|congruence].
    revert Hc. unfold g_set_parent, g_set_sink, g_set_level. cbn.
    destruct k as [k|]; [destruct (find (smap s) k); [|discriminate]|]; cbn; destruct lv; cbn; intros Hc; injection Hc as <-; reflexivity.
  - exfalso. revert Hc. unfold g_set_sink, g_set_level. cbn.
    destruct k as [k|]; [destruct (find (smap s) k); [|discriminate]|]; cbn; destruct lv; cbn; intros Hc; try discriminate; injection Hc as <-; discriminate.
Qed.

(** What another construction leaves alone. *)
Lemma object_after s n p k lv n' X Y : p <> Some n' -> object s n p k lv = Some X ->
  object (register (extend s Y) (length (groups s)) n') n p k lv = Some X.
Proof.
  intros Np H. unfold object, construct in *. cbn zeta in *. unfold register, extend. cbn [smap gmap groups with_groups with_gmap].
  set (s' := match find (gmap s) "*" with None => _ | Some _ => _ end).
  assert (F : forall q i, p = Some q -> find (gmap s) q = Some i -> find (assign s' n' (length (groups s))) q = Some i).
  { intros q i -> Hq. rewrite find_assign_other by congruence. unfold s'.
    destruct (find (gmap s) "*") eqn:Hs; [exact Hq|]. rewrite find_assign_other; [exact Hq|]. intros ->. congruence. }
  destruct (g_construct n _ _ lv) as [Z|] eqn:Hc; [|discriminate]. cbn in H. rewrite nth_error_app2, Nat.sub_diag in H by lia. cbn in H. injection H as ->.
  match goal with |- context [g_construct n ?P ?K lv] => assert (G : g_construct n P K lv = Some X) end.
  { destruct p as [q|]; [|exact Hc]. destruct (find (gmap s) q) as [i|] eqn:Hq; [|discriminate].
    rewrite (F q i eq_refl Hq). destruct (nth_error (groups s) i) as [y|] eqn:N; [|discriminate].
    rewrite nth_ext by (apply nth_error_Some; congruence). rewrite N. exact Hc. }
  rewrite G. cbn. rewrite nth_error_app2, Nat.sub_diag by lia. reflexivity.
Qed.

Lemma reg_find s i n x : find (gmap (register s i n)) x =
  if String.eqb x n then Some i
  else if String.eqb x "*" then match find (gmap s) "*" with None => Some i | Some v => Some v end
  else find (gmap s) x.
Proof.
  unfold register. cbn [gmap with_gmap]. rewrite find_assign. destruct (String.eqb_spec x n); [reflexivity|].
  destruct (String.eqb_spec x "*") as [->|Nx].
  - destruct (find (gmap s) "*") eqn:H; [exact H|]. apply find_assign_same.
  - destruct (find (gmap s) "*"); [reflexivity|]. apply find_assign_other. exact Nx.
Qed.

Lemma extend_len s X : length (groups (extend s X)) = S (length (groups s)).
Proof. unfold extend. cbn [groups with_groups]. rewrite app_length. cbn [length]. lia. Qed.

Section Two.
Variable ord : list nat -> list nat.
Hypothesis Hord : rearranges ord.
Variable dbg : bool.

Lemma two_makers fuel s n p k lv n' p' k' lv' : reachable ord dbg usual s -> p <> Some n' ->
  object s n p k lv <> None -> object s n' p' k' lv' <> None ->
  let a := length (groups s) in
  exists s2 s3 s4, interleaved ord fuel dbg s n p k lv (MakeGroup n' p' k' lv') = Some (s2, a, RGroup (S a)) /\
    step ord fuel dbg s (MakeGroup n' p' k' lv') = (s3, RGroup a) /\
    step ord fuel dbg s3 (MakeGroup n p k lv) = (s4, RGroup (S a)) /\ exchanged a (S a) s2 s4.
Proof.
  intros R Np HX HY. cbv zeta. set (a := length (groups s)).
  pose proof (usual_inv ord Hord dbg _ R) as I.
  destruct (object s n p k lv) as [X|] eqn:EX; [|contradiction]. destruct (object s n' p' k' lv') as [Y|] eqn:EY; [|contradiction].
  clear HX HY.
  assert (EY' : object (extend s X) n' p' k' lv' = Some Y).
  { clear -EY. unfold object, construct in *. cbn zeta in *. unfold extend. cbn [smap gmap groups with_groups].
    destruct (g_construct n' _ _ lv') as [Z|] eqn:Hc; [|discriminate]. cbn in EY. rewrite nth_error_app2, Nat.sub_diag in EY by lia. cbn in EY. injection EY as ->.
    match goal with |- context [g_construct n' ?P ?K lv'] => assert (G : g_construct n' P K lv' = Some Y) end.
    { destruct p' as [q|]; [|exact Hc]. destruct (find (gmap s) q) as [i|] eqn:Hq; [|discriminate].
      destruct (nth_error (groups s) i) as [y|] eqn:N; [|discriminate].
      rewrite nth_ext by (apply nth_error_Some; congruence). rewrite N. exact Hc. }
    rewrite G. cbn. rewrite nth_error_app2, Nat.sub_diag by lia. reflexivity. }
  pose proof (object_after s n p k lv n' X Y Np EX) as EX'.
  change (length (groups s)) with a in EX'.
  exists (register (register (extend (extend s X) Y) (S a) n') a n), (register (extend s Y) a n'),
    (register (extend (register (extend s Y) a n') X) (S a) n).
  split; [|split; [|split]].
  - unfold interleaved. rewrite (object_construct _ _ _ _ _ _ EX). cbn [step]. rewrite (object_construct _ _ _ _ _ _ EY').
    rewrite extend_len. reflexivity.
  - cbn [step]. rewrite (object_construct _ _ _ _ _ _ EY). reflexivity.
  - cbn [step]. rewrite (object_construct _ _ _ _ _ _ EX').
    change (groups (register (extend s Y) a n')) with (groups (extend s Y)). rewrite extend_len. reflexivity.
  - assert (PX := object_older _ _ _ _ _ _ I EX). assert (PY := object_older _ _ _ _ _ _ I EY). fold a in PX, PY.
    do 5 (split; [reflexivity|]).
    change (groups (register (register (extend (extend s X) Y) (S a) n') a n)) with ((groups s ++ [X]) ++ [Y]).
    change (groups (register (extend (register (extend s Y) a n') X) (S a) n)) with ((groups s ++ [Y]) ++ [X]).
    split; [|split; [|split]].
    + intros g. rewrite <- !app_assoc. cbn [List.app]. unfold exchange.
      destruct (Nat.eqb_spec g a) as [->|N1]; [rewrite !nth_error_app2 by (fold a; lia); fold a; replace (S a - a) with 1 by lia; rewrite Nat.sub_diag; reflexivity|].
      destruct (Nat.eqb_spec g (S a)) as [->|N2]; [rewrite !nth_error_app2 by (fold a; lia); fold a; replace (S a - a) with 1 by lia; rewrite Nat.sub_diag; reflexivity|].
      destruct (Nat.lt_ge_cases g a) as [H|H]; [rewrite !nth_error_app1 by (fold a; lia); reflexivity|].
      rewrite !nth_error_app2 by (fold a; lia). fold a. destruct (g - a) as [|[|m]] eqn:D; [lia|lia|reflexivity].
    + intros x. rewrite !reg_find.
      change (gmap (extend (register (extend s Y) a n') X)) with (gmap (register (extend s Y) a n')). rewrite !reg_find.
      change (gmap (extend s Y)) with (gmap s). change (gmap (extend (extend s X) Y)) with (gmap s).
      assert (K1 : exchange a (S a) a = S a) by (unfold exchange; rewrite Nat.eqb_refl; reflexivity).
      assert (K2 : exchange a (S a) (S a) = a) by (unfold exchange; rewrite (proj2 (Nat.eqb_neq _ _) (Nat.neq_succ_diag_l a)), Nat.eqb_refl; reflexivity).
      assert (K3 : forall y v, find (gmap s) y = Some v -> exchange a (S a) v = v).
      { intros y v Hv. pose proof (V_gmap _ I _ _ (find_In _ _ _ Hv)) as Hl. fold a in Hl. unfold exchange.
        rewrite (proj2 (Nat.eqb_neq v a)), (proj2 (Nat.eqb_neq v (S a))) by lia. reflexivity. }
      assert (K4 : forall y, option_map (exchange a (S a)) (find (gmap s) y) = find (gmap s) y).
      { intros y. destruct (find (gmap s) y) eqn:Hy; cbn; [rewrite (K3 _ _ Hy)|]; reflexivity. }
      rewrite String.eqb_refl.
      destruct (String.eqb x n); [cbn; rewrite K1; reflexivity|].
      destruct (String.eqb x "*"); destruct (String.eqb "*" n'); destruct (String.eqb x n');
        destruct (find (gmap s) "*") eqn:Hs; cbn [option_map]; rewrite ?K1, ?K2, ?K4, ?(K3 _ _ Hs); reflexivity.
    + intros g Z. rewrite <- app_assoc. cbn [List.app]. intros H.
      destruct (Nat.lt_ge_cases g a) as [Hg|Hg].
      * rewrite nth_error_app1 in H by (fold a; lia). split; intros E; pose proof (V_par _ I _ _ _ H E) as Q; fold a in Q; lia.
      * rewrite nth_error_app2 in H by (fold a; lia). destruct (g - length (groups s)) as [|[|[|m]]]; cbn in H; try discriminate; injection H as <-;
          split; intros E; [pose proof (PX _ E)|pose proof (PX _ E)|pose proof (PY _ E)|pose proof (PY _ E)]; lia.
    + intros i L H. pose proof (V_lgrp _ I _ _ H) as Q. fold a in Q. lia.
Qed.
End Two.
