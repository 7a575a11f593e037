From Coq Require Import Ascii String NArith List Arith Bool Lia.
From Verif Require Import Base LevelModel EventModel EventProofs TreeModel TreeSpec.
From Verif Require CircModel.
Import ListNotations.

Section T.
Context {E : Type}.
Implicit Types e : E.

Section tree_ind.
Variable P : tree -> Prop.
Hypothesis HL : forall id lv, P (Leaf id lv).
Hypothesis HN : forall id, P (Nowhere id).
Hypothesis HM : forall lv ms, Forall P ms -> P (Multi lv ms).
Fixpoint tree_ind' (t : tree) : P t :=
  match t with
  | Leaf id lv => HL id lv
  | Nowhere id => HN id
  | Multi lv ms => HM lv ms ((fix go ms : Forall P ms :=
      match ms with [] => Forall_nil _ | m :: ms' => Forall_cons _ (tree_ind' m) (go ms') end) ms)
  end.
End tree_ind.

Lemma passes_iff l lv : passes l lv <-> passes_b l lv = true.
Proof.
  unfold passes, passes_b. destruct l; cbn [lcode]; rewrite ?Nat.leb_le; intuition (try discriminate; try congruence).
Qed.

Lemma test_iff l lv : (llt lv l || leqb l OFF || leqb l IGNORE) = negb (passes_b l lv).
Proof. destruct l, lv; reflexivity. Qed.

Definition to_call l e (p : option nat) : list (call E) :=
  match p with Some id => [Put id l e] | None => [] end.

Fixpoint pushes (ms : list tree) l e : outcome E :=
  match ms with [] => Done [] | m :: ms' => andthen (push m l e) (pushes ms' l e) end.

Lemma push_multi lv m ms l e :
  push (Multi lv (m :: ms)) l e =
  if passes_b l lv then pushes (m :: ms) l e else Done [].
Proof.
  cbn [push tlevel]. rewrite test_iff. destruct (passes_b l lv); cbn [negb]; [|reflexivity].
  cbn [pushes]. f_equal. clear. induction ms as [|x ms IH]; [reflexivity|]. cbn [pushes]. rewrite <- IH. reflexivity.
Qed.

Lemma reached_multi l lv m ms :
  reached l (Multi lv (m :: ms)) = if passes_b l lv then flat_map (reached l) (m :: ms) else [].
Proof.
  unfold reached. cbn [paths]. generalize (m :: ms). clear m ms. intros ms.
  induction ms as [|x ms IH]; [destruct (passes_b l lv); reflexivity|].
  cbn [flat_map]. rewrite map_app, filter_app, map_app, IH.
  destruct (passes_b l lv) eqn:Hp.
  - f_equal. clear -Hp. induction (paths x) as [|p ps IH]; [reflexivity|]. cbn [map filter].
    replace (open_path l (lv :: fst p, snd p)) with (open_path l p)
      by (unfold open_path; cbn [fst forallb]; rewrite Hp; reflexivity).
    destruct (open_path l p); cbn [map snd]; [f_equal|]; exact IH.
  - rewrite app_nil_r. clear -Hp. induction (paths x) as [|p ps IH]; [reflexivity|]. cbn [map filter].
    unfold open_path at 1. cbn [fst forallb]. rewrite Hp. cbn [andb]. exact IH.
Qed.

(** ** C32, C34 *)
Definition result l e (r : list (option nat)) : outcome E :=
  if existsb (fun p => match p with None => true | _ => false end) r
  then UB else Done (flat_map (to_call l e) r).

Lemma result_app l e a b : result l e (a ++ b) = andthen (result l e a) (result l e b).
Proof.
  unfold result. rewrite existsb_app, flat_map_app.
  destruct (existsb _ a), (existsb _ b); reflexivity.
Qed.

Lemma push_result t l e : push t l e = result l e (reached l t).
Proof.
  induction t as [id lv|id|lv ms IH] using tree_ind'.
  - cbn [push tlevel]. rewrite test_iff. unfold result, reached. cbn [paths filter]. unfold open_path. cbn [fst forallb].
    destruct (passes_b l lv); reflexivity.
  - cbn [push tlevel]. rewrite test_iff. unfold result, reached. cbn [paths filter]. unfold open_path. cbn [fst forallb].
    destruct (passes_b l OFF); reflexivity.
  - destruct ms as [|m ms].
    + cbn [push tlevel]. rewrite test_iff. unfold result, reached. cbn [paths filter]. unfold open_path. cbn [fst forallb].
      destruct (passes_b l lv); reflexivity.
    + rewrite push_multi, reached_multi. destruct (passes_b l lv); [|reflexivity].
      revert IH. generalize (m :: ms). clear m ms. intros ms IH.
      induction IH as [|m ms H IH IH2]; [reflexivity|]. cbn [pushes flat_map].
      rewrite result_app, H, IH2. reflexivity.
Qed.

Lemma push_exact t l e : ~ In None (reached l t) ->
  push t l e = Done (flat_map (fun p => match p with Some id => [Put id l e] | None => [] end) (reached l t)).
Proof.
  intros H. rewrite push_result. unfold result.
  destruct (existsb _ _) eqn:Hx; [|reflexivity]. apply existsb_exists in Hx.
  destruct Hx as ([x|] & H1 & H2); [discriminate|contradiction].
Qed.

Lemma push_ub t l e : In None (reached l t) -> push t l e = UB.
Proof.
  intros H. rewrite push_result. unfold result.
  replace (existsb _ _) with true; [reflexivity|]. symmetry. apply existsb_exists. exists None. auto.
Qed.

Lemma populated_paths t : populated t = true -> Forall (fun p => snd p <> None) (paths t).
Proof.
  induction t as [id lv|id|lv ms IH] using tree_ind'; intros H.
  - repeat constructor. discriminate.
  - repeat constructor. discriminate.
  - destruct ms as [|m ms]; [discriminate|]. cbn [populated] in H. cbn [paths].
    apply Forall_map. cbn [snd]. revert H IH. generalize (m :: ms). intros l Hl IH.
    induction IH as [|x l Hx IH IH2]; [constructor|]. cbn in Hl. apply andb_true_iff in Hl. destruct Hl as [H1 H2].
    cbn [flat_map]. apply Forall_app. auto.
Qed.

Lemma populated_reached t l : populated t = true -> ~ In None (reached l t).
Proof.
  intros H. pose proof (populated_paths t H) as F. unfold reached. rewrite in_map_iff.
  intros (p & Hp & Hin). apply filter_In in Hin. rewrite Forall_forall in F. apply (F p); tauto.
Qed.

(** ** C33 *)
Lemma flushed_app (a b : list (call E)) : flushed (a ++ b) = flushed a ++ flushed b.
Proof. apply flat_map_app. Qed.

Lemma async_flushed ms : flushed (flat_map (@async_flush E) ms) = [] /\
  putted (flat_map (@async_flush E) ms) = [] /\ rotated (flat_map (@async_flush E) ms) = [].
Proof.
  induction ms as [|m ms (IH1 & IH2 & IH3)]; [auto|]. cbn [flat_map]. unfold flushed, putted, rotated in *.
  rewrite !flat_map_app, IH1, IH2, IH3. destruct m; auto.
Qed.

Lemma flush_leaves t : flushed (@flush E t) = leaves t /\ putted (@flush E t) = [] /\ rotated (@flush E t) = [].
Proof.
  induction t as [id lv|id|lv ms IH] using tree_ind'; [auto|auto|].
  cbn [flush leaves]. destruct (async_flushed ms) as (A1 & A2 & A3).
  unfold flushed, putted, rotated in *. rewrite !flat_map_app, A1, A2, A3. clear A1 A2 A3. cbn [app].
  induction IH as [|m ms (H1 & H2 & H3) IH (I1 & I2 & I3)]; [auto|]. cbn [flat_map]. rewrite !flat_map_app.
  rewrite H1, H2, H3, I1, I2, I3. auto.
Qed.

Lemma rotate_leaves t : @rotate E t = map Rotate (leaves t).
Proof.
  induction t as [id lv|id|lv ms IH] using tree_ind'; [reflexivity|reflexivity|].
  cbn [rotate leaves]. induction IH as [|m ms H IH IH2]; [reflexivity|].
  cbn [flat_map]. rewrite map_app, H, IH2. reflexivity.
Qed.

(** ** C34 *)
Lemma empty_push lv l e : push (Multi lv []) l e = if passes_b l lv then UB else Done [].
Proof. cbn [push tlevel]. rewrite test_iff. destruct (passes_b l lv); reflexivity. Qed.

(** ** C35 *)
Lemma nowhere_rejects l e : push (Nowhere 0) l e = Done [].
Proof. destruct l; reflexivity. Qed.

Lemma nowhere_empty ops : fold_left nstep ops (Some []) = Some (@nil E).
Proof.
  induction ops as [|o ops IH]; [reflexivity|]. cbn [fold_left].
  replace (nstep (Some []) o) with (Some (@nil E)); [exact IH|].
  destruct o as [l e| | |]; [destruct l|..]; reflexivity.
Qed.

Lemma nowhere_flush_ends (s : nowhere E) fuel : length s <= fuel -> nowhere_flush fuel s = Some [].
Proof.
  revert fuel. induction s as [|x s IH]; intros fuel H; [destruct fuel; reflexivity|].
  destruct fuel as [|f]; cbn [length] in H; [lia|]. cbn. apply IH. lia.
Qed.

(** ** C37 *)
Lemma logger_rejects lv t l e : passes_b l lv = false -> logger_push lv t l e = Done [].
Proof.
  unfold logger_push. destruct (lle l lv) eqn:H1; [|reflexivity].
  intros H. destruct (negb (leqb l OFF) && negb (leqb l IGNORE)) eqn:H2; [|reflexivity].
  destruct l; try discriminate; unfold passes_b in H; unfold lle in H1; congruence.
Qed.

Lemma logger_passes lv t l e : passes_b l lv = true ->
  logger_push lv t l e = andthen (push t l e) (Done (flush t)).
Proof.
  unfold logger_push. intros H.
  replace (lle l lv) with true by (destruct l; try discriminate; symmetry; exact H).
  replace (negb (leqb l OFF) && negb (leqb l IGNORE)) with true by (destruct l; try discriminate; reflexivity).
  replace (lle CRITICAL lv) with true; [reflexivity|]. destruct l, lv; try discriminate; reflexivity.
Qed.

(** ** C39 *)
Lemma macro_is_method wt wd df m lv t e :
  (m = MTrace -> wt = false) -> (m = MDebug -> wd = false) ->
  sl_named wt wd df m lv t e = (Nat.leb (lcode (named_level m)) (lcode lv), method lv t m e).
Proof.
  intros H1 H2. assert (HM : forall l, sl_log_if_level lv t l e = (Nat.leb (lcode l) (lcode lv), logger_push lv t l e)).
  { intros l. unfold sl_log_if_level, lle, log. destruct (Nat.leb (lcode l) (lcode lv)) eqn:H; [reflexivity|].
    f_equal. unfold logger_push, lle. rewrite H. reflexivity. }
  unfold sl_named, method. destruct m; cbn [named_level]; rewrite ?HM; try reflexivity.
  - rewrite H1 by reflexivity. reflexivity.
  - rewrite H2 by reflexivity. cbn. reflexivity.
Qed.

Lemma sl_log_is_log df lv t l e :
  sl_log df lv t l e = (Nat.leb (lcode l) (lcode lv), log lv t l e).
Proof.
  unfold sl_log, sl_log_if_level, lle, log. destruct (Nat.leb (lcode l) (lcode lv)) eqn:H; [reflexivity|].
  f_equal. unfold logger_push, lle. rewrite H. reflexivity.
Qed.

(** ** C40 *)
Lemma options wt wd df m lv t e :
  sl_named wt wd df m lv t e =
  (if (match m with MTrace => wt | MDebug => wd && wt | _ => false end) then (false, Done [])
   else (Nat.leb (lcode (named_level m)) (lcode lv), method lv t m e)).
Proof.
  destruct m; try (rewrite (macro_is_method wt wd df); [reflexivity|discriminate|discriminate]).
  - destruct wt; [reflexivity|]. apply macro_is_method; [reflexivity|discriminate].
  - destruct wd, wt; [reflexivity| | |];
    apply (macro_is_method false false df MDebug lv t e); (discriminate || reflexivity).
Qed.
End T.

(** ** C38 *)
Lemma shown_level m p name ti lvl max now tname tnum fr ft lv :
  length tname = 16 -> (now < 2 ^ 64)%N -> (tnum < 2 ^ 64)%N ->
  (p + sizeof_Event < 2 ^ 64)%N -> (N.of_nat max < 2 ^ 64)%N ->
  passes lvl lv -> (exists text, fr = FmtOk text) \/ lcode ERROR <= lcode lv ->
  (e_level_code (view (construct m p name ti lvl max now tname tnum fr ft) p) <= N.of_nat (lcode lv))%N.
Proof.
  intros H1 H2 H3 H4 H5 (_ & _ & Hp) Hf. destruct fr as [text|partial what].
  - destruct (exact_event m p name ti lvl max now tname tnum text ft H1 H2 H3 H4 H5) as (_ & _ & -> & _). lia.
  - destruct (format_error_event m p name ti lvl max now tname tnum partial what ft H1 H2 H3 H4 H5) as (_ & -> & _).
    destruct Hf as [(t & Ht)|Hf]; [discriminate|]. lia.
Qed.

Lemma shown_level_refuted m p name ti max now tname tnum partial what ft :
  length tname = 16 -> (now < 2 ^ 64)%N -> (tnum < 2 ^ 64)%N ->
  (p + sizeof_Event < 2 ^ 64)%N -> (N.of_nat max < 2 ^ 64)%N ->
  passes CRITICAL CRITICAL /\
  (N.of_nat (lcode CRITICAL) <
     e_level_code (view (construct m p name ti CRITICAL max now tname tnum (FmtThrow partial what) ft) p))%N.
Proof.
  intros H1 H2 H3 H4 H5. split; [repeat split; (discriminate || apply le_n)|].
  destruct (format_error_event m p name ti CRITICAL max now tname tnum partial what ft H1 H2 H3 H4 H5) as (_ & -> & _).
  reflexivity.
Qed.

(** ** C34: what "undefined" is *)
Lemma zero_capacity_put (A : Type) (a : A) :
  CircModel.exec 0 (@CircModel.init A) [(0, CircModel.CPut a); (0, CircModel.CGet); (0, CircModel.CGet); (0, CircModel.CGet)] =
  CircModel.Bad CircModel.OutOfBounds.
Proof. reflexivity. Qed.
