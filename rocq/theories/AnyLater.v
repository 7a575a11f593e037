(** * Proofs: a program makes sinks itself (C126) *)
From Coq Require Import Ascii String NArith ZArith List Arith Bool Lia.
From Verif Require Import Base LevelModel SysModel SysSpec YamlModel YamlSpec YamlActSpec DeployModel DeploySpec StackModel StackFairSpec AnySpec AnyDoc AnyWarn.
From Verif Require SysBase SysMore EventModel RecordModel SinkModel FullModel PoolModel.
Import ListNotations.

Section Step.
Variable ord : list nat -> list nat.
Variable dbg : bool.
(** Only makeSink() makes sinks. *)
Lemma step_sinks fuel s c : (forall nm, c <> MakeSink nm) -> sinks (fst (step ord fuel dbg s c)) = sinks s.
Proof.
  intros NM.
  assert (Hsp : forall o : option sys, (forall s', o = Some s' -> sinks s' = sinks s) -> sinks (fst (ret s o)) = sinks s).
  { intros [s'|] Ho; cbn; [rewrite (Ho _ eq_refl)|]; reflexivity. }
  assert (Hspread : forall ov up lup s1 g s', spread ord fuel ov up lup s1 g = Some s' -> sinks s1 = sinks s -> sinks s' = sinks s).
  { intros ov up lup s1 g s' Hs Hg. unfold spread in Hs. destruct (scan _ _ _ _ _ _ _) as [[passed st]|]; [|discriminate].
    destruct (spread_loggers _ _ _ _ _) as [ls lm]. injection Hs as <-. exact Hg. }
  assert (Hmod : forall s0 g f, sinks (mod_group s0 g f) = sinks s0) by (intros; unfold mod_group; destruct (nth_error _ _); reflexivity).
  assert (Hml : forall i f, sinks (mod_logger s i f) = sinks s) by (intros; unfold mod_logger; destruct (nth_error _ _); reflexivity).
  destruct c; cbn [step]; try reflexivity.
  - exfalso. exact (NM _ eq_refl).
  - unfold construct. destruct (g_construct _ _ _ _); reflexivity.
  - destruct (find (gmap s) g); reflexivity.
  - destruct (find (gmap s) g); [|reflexivity]. destruct (find (gmap s) p) as [pi|]; [|reflexivity].
    destruct (if oeqb _ _ then _ else _) as [[|]|]; try reflexivity. apply Hsp. intros s' Hs. unfold set_parent_of_group in Hs.
    eapply Hspread; [exact Hs|]. rewrite Hmod. destruct (nth_error (groups s) pi) as [y|]; [|reflexivity].
    destruct (oeqb _ _); [apply Hmod|reflexivity].
  - destruct (find (gmap s) g); [|reflexivity]. apply Hsp. intros s' Hs. unfold set_parent_of_group in Hs. eapply Hspread; [exact Hs|]. apply Hmod.
  - destruct (find (smap s) k); [|reflexivity]. destruct (find (gmap s) g); [|reflexivity]. apply Hsp. intros s' Hs. unfold set_sink_of_group in Hs. eapply Hspread; [exact Hs|]. apply Hmod.
  - destruct (find (gmap s) g); [|reflexivity]. apply Hsp. intros s' Hs. unfold set_sink_of_group in Hs. eapply Hspread; [exact Hs|]. apply Hmod.
  - destruct (find (gmap s) g); [|reflexivity]. apply Hsp. intros s' Hs. unfold set_level_of_group in Hs. eapply Hspread; [exact Hs|]. apply Hmod.
  - destruct (find (gmap s) g); [|reflexivity]. apply Hsp. intros s' Hs. unfold set_level_of_group in Hs. eapply Hspread; [exact Hs|]. apply Hmod.
  - destruct (find (gmap s) g); [|reflexivity]. destruct (live s x); [|reflexivity]. destruct (nth_error _ _); [cbn; rewrite Hml|]; reflexivity.
  - destruct (find (smap s) k); [|reflexivity]. destruct (live s x); cbn; [rewrite Hml|]; reflexivity.
  - destruct (live s x); [|reflexivity]. destruct (nth_error (loggers s) _) as [L|]; [|reflexivity]. destruct (nth_error (groups s) _); cbn; [rewrite Hml|]; reflexivity.
  - destruct (live s x); cbn; [rewrite Hml|]; reflexivity.
  - destruct (live s x); [|reflexivity]. destruct (nth_error (loggers s) _) as [L|]; [|reflexivity]. destruct (nth_error (groups s) _); cbn; [rewrite Hml|]; reflexivity.
  - unfold get_logger. assert (Cf : sinks s = sinks s) by reflexivity. destruct (configured s); [|reflexivity]. cbn [negb]. destruct (live s x); [exact Cf|].
    destruct (String.eqb g "*").
    + destruct dbg; [exact Cf|]. destruct (find (gmap s) "*"); [|exact Cf]. destruct (nth_error _ _); [|exact Cf]. destruct (true && _); [exact Cf|]. exact Cf.
    + destruct (find (gmap s) g).
      * destruct (nth_error _ _); [|exact Cf]. cbn. exact Cf.
      * destruct (find (gmap s) "*"); [|exact Cf]. destruct (nth_error _ _); [|exact Cf]. destruct (true && _); exact Cf.
  - cbn. rewrite Hml. reflexivity.
  - destruct (nth_error (loggers s) _) as [L|]; [|reflexivity]. destruct (nth_error (groups s) _); cbn; [rewrite Hml|]; reflexivity.
  - destruct (nth_error (groups s) _); cbn; [rewrite Hml|]; reflexivity.
  - destruct (Nat.ltb _ _); cbn; [rewrite Hml|]; reflexivity.
  - destruct (nth_error (loggers s) _) as [L|]; [|reflexivity]. destruct (nth_error (groups s) _); cbn; [rewrite Hml|]; reflexivity.
  - destruct (nth_error (groups s) _); cbn; [rewrite Hml|]; reflexivity.
  - destruct (nth_error (groups s) _); cbn; [rewrite Hml|]; reflexivity.
  - cbn. rewrite Hml. reflexivity.
Qed.

End Step.

Section Stack.
Variable lt : N -> RecordModel.tm.
Variable memory : EventModel.mem.
Variable address : N.
Variable fg_first : bool.
Variable ds : list sink_desc.
Variable op : nat -> bool.
Variable n : nat.
Variable ord : list nat -> list nat.
Variable dbg : bool.
Notation xexec := (xexec lt memory address fg_first ds n ord dbg).
Notation xstep := (xstep lt memory address fg_first ds n ord dbg).

(** The sinks of the system are the first of all. *)
Definition first_of (s : sys) : Prop :=
  sinks s = firstn (List.length (sinks s)) ("*"%string :: map d_name ds) /\ 1 <= List.length (sinks s).

Lemma first_step s c : first_of s -> silent ds dbg s c = true -> first_of (fst (step ord (enough s) dbg s c)) /\
  List.length (sinks s) <= List.length (sinks (fst (step ord (enough s) dbg s c))).
Proof.
  intros [F1 F2] S. destruct (match c with MakeSink _ => true | _ => false end) eqn:M.
  - destruct c; try discriminate. cbn [silent] in S. unfold next_made in S.
    destruct (nth_error ds (List.length (sinks s) - 1)) as [d|] eqn:Ed; [|discriminate]. apply String.eqb_eq in S. match type of S with _ = ?v => subst v end.
    cbn [step fst]. unfold first_of. cbn [sinks]. rewrite app_length. cbn [List.length]. split; [|lia]. split; [|lia].
    rewrite F1 at 1. set (k := List.length (sinks s)) in *. replace (k + 1) with (S k) by lia.
    assert (E : nth_error ("*"%string :: map d_name ds) k = Some (d_name d)).
    { destruct k as [|k]; [lia|]. cbn [nth_error]. rewrite nth_error_map. replace (S k - 1) with k in Ed by lia. rewrite Ed. reflexivity. }
    clear - E. generalize dependent ("*"%string :: map d_name ds). induction k as [|k IH]; intros l E; destruct l as [|a l]; try discriminate; cbn in *.
    + now inversion E.
    + f_equal. apply IH. exact E.
  - rewrite step_sinks by (intros nm ->; discriminate). unfold first_of. rewrite step_sinks by (intros nm ->; discriminate). auto.
Qed.
Lemma first_xstep x m x' l : xstep x m = Some (x', l) -> first_of (x_sys x) ->
  first_of (x_sys x') /\ List.length (sinks (x_sys x)) <= List.length (sinks (x_sys x')).
Proof.
  intros H F.
  assert (K : forall s m' s' ls, xin_pool lt memory address fg_first ds n s m' = Some (s', ls) -> x_sys s = x_sys x -> x_sys x' = x_sys s' ->
            first_of (x_sys x') /\ List.length (sinks (x_sys x)) <= List.length (sinks (x_sys x'))).
  { intros s m' s' ls Q A B. apply xin_pool_sys in Q. rewrite B, Q, A. auto. }
  destruct m as [c|t y g k lv e|t i e|t k|t k| |m]; cbn [StackModel.xstep] in H.
  - destruct (x_up x && silent ds dbg (x_sys x) c) eqn:Q; injection H as <- <-; [|auto]. apply andb_true_iff in Q. cbn [x_sys]. apply first_step; tauto.
  - destruct (warning dbg (x_sys x) y g) as [[[Lw G] text]|]; [|injection H as <- <-; auto].
    destruct (l_sink Lw); [|injection H as <- <-; auto]. destruct (x_up x); [|injection H as <- <-; auto].
    destruct (xin_pool _ _ _ _ _ _ _ _) as [[s' ls]|]; [|discriminate]. destruct ls; injection H as <- <-; [auto|].
    cbn [x_sys]. pose proof (step_sinks ord dbg (enough (x_sys x)) (x_sys x) (GetLogger y g k lv) ltac:(discriminate)) as E.
    cbn [step] in E. unfold first_of. rewrite E. split; [exact F|lia].
  - destruct (nth_error (loggers (x_sys x)) i) as [Lg|]; [|injection H as <- <-; auto].
    destruct (nth_error _ _); [|injection H as <- <-; auto]. destruct (l_sink Lg); [|injection H as <- <-; auto].
    destruct (_ && _); [|injection H as <- <-; auto].
    destruct (xin_pool _ _ _ _ _ _ _ _) as [[s' ls]|] eqn:Q; [|discriminate]. injection H as <- <-. eapply K; eauto.
  - destruct (x_up x && Nat.ltb k (List.length (sinks (x_sys x)))); [|injection H as <- <-; auto].
    destruct (xin_pool _ _ _ _ _ _ _ _) as [[s' ls]|] eqn:Q; [|discriminate]. injection H as <- <-. eapply K; eauto.
  - destruct (x_up x && Nat.ltb k (List.length (sinks (x_sys x)))); [|injection H as <- <-; auto].
    destruct (xin_pool _ _ _ _ _ _ _ _) as [[s' ls]|] eqn:Q; [|discriminate]. injection H as <- <-. eapply K; eauto.
  - injection H as <- <-; auto.
  - destruct (match m with PoolModel.XStart _ _ => false | PoolModel.XDestroy _ _ => negb (x_up x) | _ => true end); [|injection H as <- <-; auto].
    destruct (xin_pool _ _ _ _ _ _ _ _) as [[s' ls]|] eqn:Q; [|discriminate]. injection H as <- <-. eapply K; eauto.
Qed.
Lemma first_xexec ms : forall x x' tr, xexec x ms = Some (x', tr) -> first_of (x_sys x) ->
  first_of (x_sys x') /\ List.length (sinks (x_sys x)) <= List.length (sinks (x_sys x')).
Proof.
  induction ms as [|m ms IH]; intros x x' tr H F; cbn [StackModel.xexec] in H; [injection H as <- <-; auto|].
  destruct (xstep x m) as [[x1 l1]|] eqn:Q; [|discriminate]. destruct (xexec x1 ms) as [[x2 l2]|] eqn:Q2; [|discriminate].
  injection H as <- <-. destruct (first_xstep _ _ _ _ Q F) as [F1 L1]. destruct (IH _ _ _ Q2 F1) as [F2 L2]. split; [exact F2|lia].
Qed.
Lemma make_xstep x d : x_up x = true -> nth_error ds (List.length (sinks (x_sys x)) - 1) = Some d ->
  exists x', xstep x (DSys (MakeSink (d_name d))) = Some (x', []) /\ sinks (x_sys x') = sinks (x_sys x) ++ [d_name d] /\
    sink_named (x_sys x') (d_name d) (List.length (sinks (x_sys x))).
Proof.
  intros HU E. cbn [StackModel.xstep silent]. unfold next_made. rewrite HU, E, String.eqb_refl. cbn [andb].
  eexists. split; [reflexivity|]. cbn [x_sys]. destruct (SysMore.make_sink_makes ord dbg (x_sys x) (d_name d)) as (s' & S1 & S2 & _ & _ & _ & _ & _ & S3 & _).
  rewrite S1. auto.
Qed.
End Stack.

Theorem final_sinks lt memory address fg_first ds op n ord dbg L fuel busy c w' r :
  configures L ord fuel dbg c -> c (before_configure busy) = (w', r) -> all_sinks L w' ds ->
  forall ms x tr,
    xexec lt memory address fg_first ds n ord dbg (xstart lt memory address fg_first ds op n (w_sys w')) ms = Some (x, tr) ->
    sinks (x_sys x) = firstn (List.length (sinks (x_sys x))) ("*"%string :: map d_name ds) /\
    List.length (sinks_of (w_log w')) < List.length (sinks (x_sys x)) /\
    forall d, x_up x = true -> nth_error ds (List.length (sinks (x_sys x)) - 1) = Some d ->
      exists x', xstep lt memory address fg_first ds n ord dbg x (DSys (MakeSink (d_name d))) = Some (x', []) /\
        sinks (x_sys x') = sinks (x_sys x) ++ [d_name d] /\ sink_named (x_sys x') (d_name d) (List.length (sinks (x_sys x))).
Proof.
  intros C E (later & -> & _) ms x tr X. destruct (sinks_made L ord fuel dbg c busy w' r C E) as (S & _).
  assert (F : first_of (sinks_of (w_log w') ++ later) (w_sys w')).
  { unfold first_of. rewrite S. cbn [List.length firstn]. split; [|lia]. f_equal. rewrite map_app, firstn_app, Nat.sub_diag, firstn_all, firstn_O, app_nil_r. reflexivity. }
  pose proof X as X2; apply first_xexec in X2; [|exact op|exact F]; destruct X2 as [[F1 _] F2]. cbn [xstart x_sys] in F2. rewrite S in F2. cbn [List.length] in F2. rewrite map_length in F2.
  split; [exact F1|]. split; [lia|]. intros d HU Ed. exact (make_xstep lt memory address fg_first _ n ord dbg x d HU Ed).
Qed.
