(** * Proofs for C116: flushing and rotating composites reaches their members *)
From Coq Require Import List Arith NArith Bool Lia.
From Verif Require Import Base LevelModel SinkModel SinkSpec TreeSpec TreeProofs PoolModel PoolSpec PoolCallSpec.
From Verif Require Import SinkProofs SinkLabels SinkLife SinkProps SinkProgress SinkReturn SinkFair PoolProofs.
From Verif Require TreeModel.
Import ListNotations.

Section PoolCall.
Context {E : Type}.
Variable K : nat.
Variable cf : nat -> cfg E.
Variable op : nat -> bool.
Variable n : nat.

Notation pstep := (pstep K cf n).
Notation pexec := (pexec K cf n).
Notation preach := (preach K cf op n).
Notation call := (TreeModel.call E).
Notation PInv := (PInv K cf op n).
Notation entries := (entries K cf n).
Notation entered := (@entered E).

(** What the call enters of leaf sink [id]. *)
Definition makes (f : func) (id : nat) (c : call) : nat :=
  match f, c with
  | FnFlush, TreeModel.Flush i | FnAsync, TreeModel.Async i => if Nat.eqb i id then 1 else 0
  | FnRotate, TreeModel.Rotate i => if Nat.eqb i id then match c_kind (cf id) with KFile => 1 | _ => 0 end else 0
  | _, _ => 0
  end.
Definition make_all f id (cs : list call) : nat := list_sum (map (makes f id) cs).

Lemma make_app f id a b : make_all f id (a ++ b) = make_all f id a + make_all f id b.
Proof. unfold make_all. rewrite map_app. apply list_sum_app. Qed.

Lemma list_sum_zero {A} (g : A -> nat) l : (forall x, In x l -> g x = 0) -> list_sum (map g l) = 0.
Proof. induction l as [|x l IH]; intros H; [reflexivity|]. cbn [map list_sum fold_right]. rewrite (H x (or_introl eq_refl)). apply IH. intros y Hy. apply H. right. exact Hy. Qed.

Lemma count_app (l l' : list nat) x : count_occ Nat.eq_dec (l ++ l') x = count_occ Nat.eq_dec l x + count_occ Nat.eq_dec l' x.
Proof. apply count_occ_app. Qed.

(** Induction over trees. *)
Lemma tree_rect' (P : TreeModel.tree -> Prop) :
  (forall i lv, P (TreeModel.Leaf i lv)) -> (forall i, P (TreeModel.Nowhere i)) ->
  (forall lv ms, Forall P ms -> P (TreeModel.Multi lv ms)) -> forall d, P d.
Proof.
  intros H1 H2 H3. fix IH 1. intros [i lv|i|lv ms]; [apply H1|apply H2|]. apply H3.
  induction ms as [|m ms IHm]; constructor; [apply IH|exact IHm].
Qed.

Lemma async_all f id ms : make_all f id (flat_map TreeModel.async_flush ms) =
  match f with
  | FnAsync => list_sum (map (fun m => match m with TreeModel.Leaf i _ | TreeModel.Nowhere i => if Nat.eqb i id then 1 else 0 | _ => 0 end) ms)
  | _ => 0 end.
Proof.
  induction ms as [|m ms IH]; [destruct f; reflexivity|]. cbn [flat_map map list_sum fold_right]. rewrite make_app, IH.
  destruct f, m; cbn; try lia; unfold list_sum; lia.
Qed.

Lemma flush_all f id d : make_all f id (TreeModel.flush d) =
  match f with FnFlush => places id d | FnAsync => member_places id d | FnRotate => 0 end.
Proof.
  induction d as [i lv|i|lv ms IH] using tree_rect'.
  - destruct f; cbn; unfold places; cbn; try reflexivity. destruct (Nat.eq_dec i id), (Nat.eqb_spec i id); try congruence; reflexivity.
  - destruct f; cbn; unfold places; cbn; try reflexivity. destruct (Nat.eq_dec i id), (Nat.eqb_spec i id); try congruence; reflexivity.
  - cbn [TreeModel.flush]. rewrite make_app, async_all.
    assert (G : make_all f id (flat_map TreeModel.flush ms) =
      list_sum (map (fun d => match f with FnFlush => places id d | FnAsync => member_places id d | FnRotate => 0 end) ms)).
    { induction IH as [|m ms Hm _ IHm]; [reflexivity|]. cbn [flat_map map list_sum fold_right]. rewrite make_app, Hm, IHm. reflexivity. }
    rewrite G. clear G IH. destruct f.
    + cbn [Nat.add]. unfold places. cbn [leaves]. induction ms as [|m ms IHm]; [reflexivity|]. cbn [map list_sum fold_right flat_map]. rewrite count_app, <- IHm. reflexivity.
    + cbn [member_places]. induction ms as [|m ms IHm]; [reflexivity|]. cbn [map list_sum fold_right]. unfold list_sum in *. rewrite <- IHm. destruct m; cbn [member_places]; lia.
    + cbn [Nat.add]. apply list_sum_zero. auto.
Qed.

Lemma rotate_all f id d : make_all f id (TreeModel.rotate d) =
  match f with FnRotate => match c_kind (cf id) with KFile => places id d | _ => 0 end | _ => 0 end.
Proof.
  induction d as [i lv|i|lv ms IH] using tree_rect'.
  - destruct f; cbn; unfold places; cbn; try reflexivity. destruct (Nat.eq_dec i id), (Nat.eqb_spec i id); try congruence; destruct (c_kind (cf id)); reflexivity.
  - destruct f; cbn; unfold places; cbn; try reflexivity. destruct (Nat.eq_dec i id), (Nat.eqb_spec i id); try congruence; destruct (c_kind (cf id)); reflexivity.
  - cbn [TreeModel.rotate].
    assert (G : make_all f id (flat_map TreeModel.rotate ms) =
      list_sum (map (fun d => match f with FnRotate => match c_kind (cf id) with KFile => places id d | _ => 0 end | _ => 0 end) ms)).
    { induction IH as [|m ms Hm _ IHm]; [reflexivity|]. cbn [flat_map map list_sum fold_right]. rewrite make_app, Hm, IHm. reflexivity. }
    rewrite G. clear G IH. destruct f; try (apply list_sum_zero; auto; fail).
    destruct (c_kind (cf id)); try (apply list_sum_zero; auto; fail).
    unfold places. cbn [leaves]. induction ms as [|m ms IHm]; [reflexivity|]. cbn [map list_sum fold_right flat_map]. rewrite count_app, <- IHm. reflexivity.
Qed.

Lemma plan_all f id o cs : plan o = TreeModel.Done cs -> make_all f id cs = wanted cf f id o.
Proof.
  intros H. destruct o as [lv d l e|d|d]; unfold wanted; cbn [flushes rotates sink_of].
  - apply log_plan in H. subst cs. destruct (passes_b l lv); [|destruct f; reflexivity]. rewrite make_app, flush_all.
    assert (Z : make_all f id (flat_map (fun p => match p with Some i => [TreeModel.Put i l e] | None => [] end) (reached l d)) = 0).
    { unfold make_all. apply list_sum_zero. intros c Hc. apply in_flat_map in Hc. destruct Hc as ([i|] & _ & Hc); [|destruct Hc].
      destruct Hc as [<-|[]]. destruct f; reflexivity. }
    rewrite Z. destruct f; reflexivity.
  - injection H as <-. rewrite flush_all. destruct f; reflexivity.
  - injection H as <-. rewrite rotate_all. destruct f; reflexivity.
Qed.

(** ** One step *)
Lemma entered_same p : entered p p = [].
Proof. destruct p as [[ |e|x e|x e| | | |k|k|k e|k oe|k|k|k|k|k|k| | | | | | | | | ]|]; reflexivity. Qed.

Definition now (id t : nat) (s : pstate E) (m : pmove E) : list func :=
  entered (nth_error (thr (leaf s id)) t) (nth_error (thr (leaf (fst (pstep s m)) id)) t).

Lemma not_begun C (x : state E) m u : begins m = false ->
  entered (nth_error (thr x) u) (nth_error (thr (fst (step C x m))) u) = [].
Proof.
  intros Hb. destruct m as [t c|k]; [|apply entered_same]. rewrite begins_calls in Hb. destruct (Nat.eq_dec u t) as [->|Hn].
  - destruct (nth_error (thr x) t) as [p|] eqn:Hp; [|reflexivity]. destruct p; try reflexivity.
    rewrite (free_stays C x t c Hb) by (unfold free_in; rewrite Hp; reflexivity). rewrite Hp. reflexivity.
  - rewrite other_place by exact Hn. apply entered_same.
Qed.

Lemma begun C (x : state E) t (c : call) id : 1 <= t -> nth_error (thr x) t = Some Idle -> alive x = true ->
  C = cf id -> target c = id ->
  forall f, times f (entered (nth_error (thr x) t) (nth_error (thr (fst (step C x (MThread t (begin_call c))))) t)) = makes f id c.
Proof.
  intros Ht Hp Ha -> <- f. rewrite Hp. cbn [step]. rewrite Hp.
  assert (Hl : t < length (thr x)) by (apply nth_error_Some; congruence).
  assert (Hz : Nat.eqb t 0 = false) by (apply Nat.eqb_neq; lia).
  destruct c as [id l e|id|id|id]; cbn [begin_call step_thread target]; rewrite Ha, Hz; cbn [negb andb].
  - destruct (admits _ _); cbn [fst thr s_thr]; [rewrite nth_error_upd by exact Hl|rewrite Hp]; destruct f; reflexivity.
  - cbn [fst thr s_thr]. rewrite nth_error_upd by exact Hl. destruct f; cbn; rewrite ?Nat.eqb_refl; reflexivity.
  - cbn [fst thr s_thr]. rewrite nth_error_upd by exact Hl. destruct f; cbn; rewrite ?Nat.eqb_refl; reflexivity.
  - unfold makes. destruct (c_kind (cf id)); cbn [fst thr s_thr]; rewrite ?nth_error_upd by exact Hl; rewrite ?Hp; destruct f; cbn; rewrite ?Nat.eqb_refl; reflexivity.
Qed.

(** What thread [t] has begun, has entered and has still to enter. *)
Lemma step_balance s tr m f id t : PInv s tr -> id < K -> 1 <= t <= n ->
  let s' := fst (pstep s m) in
  make_all f id (flat_map ordered (started t (snd (pstep s m)))) + make_all f id (todo s t) =
  times f (now id t s m) + make_all f id (todo s' t).
Proof.
  intros HV Hid Ht. unfold now. cbv zeta.
  assert (STAY : make_all f id (flat_map ordered (started t (@nil (plabel E)))) + make_all f id (todo s t) =
    times f (entered (nth_error (thr (leaf s id)) t) (nth_error (thr (leaf s id)) t)) + make_all f id (todo s t)).
  { rewrite entered_same. reflexivity. }
  destruct m as [u o|u|i m|i u]; cbn [PoolModel.pstep].
  - destruct (is_thread n u && is_nil (todo s u) && free K s u && usable K cf s (sink_of o)) eqn:G; [|exact STAY].
    apply andb_prop in G as [G _]. apply andb_prop in G as [G _]. apply andb_prop in G as [_ Gn].
    destruct (plan o) as [cs|] eqn:Po; [|exact STAY]. cbn [fst snd set_todo leaf todo]. rewrite entered_same.
    assert (Td : todo s u = []) by (destruct (todo s u); [reflexivity|discriminate]).
    cbn [started flat_map]. rewrite Nat.eqb_sym. destruct (Nat.eqb_spec t u) as [<-|Hn]; cbn [app flat_map].
    + rewrite Td, !app_nil_r. unfold ordered. rewrite Po. cbn. lia.
    + cbn. lia.
  - destruct (todo s u) as [|c cs] eqn:Td; [exact STAY|]. destruct (free K s u) eqn:Gf; [|exact STAY].
    assert (Hu : 1 <= u <= n).
    { destruct (le_dec 1 u); [destruct (le_dec u n)|]; [lia| |]; rewrite (V_who _ _ _ _ s tr HV u) in Td by lia; discriminate. }
    destruct (Nat.ltb_spec (target c) K) as [Hk|Hk].
    + assert (Ha : alive (leaf s (target c)) = true) by (apply (V_alive _ _ _ _ s tr HV u); [rewrite Td; left; reflexivity|exact Hk]).
      pose proof (free_in_reach _ _ _ _ s tr (target c) u HV Hk (proj1 (free_all K s u) Gf _ Hk) Ha (proj1 Hu)) as Hp.
      rewrite in_leaf_eq. cbn [fst snd]. rewrite started_map. cbn [flat_map]. change (make_all f id []) with 0.
      change (leaf (set_todo s u cs)) with (leaf s). cbn [todo set_leaf set_todo leaf].
      destruct (Nat.eq_dec t u) as [->|Hn].
      * rewrite Nat.eqb_refl, Td. unfold make_all at 1. cbn [map list_sum fold_right]. change (fold_right Nat.add 0 (map (makes f id) cs)) with (make_all f id cs).
        destruct (Nat.eqb_spec id (target c)) as [->|Hi].
        -- rewrite (begun _ (leaf s (target c)) u c (target c) (proj1 Hu) Hp Ha eq_refl eq_refl f). lia.
        -- rewrite entered_same. assert (Z : makes f id c = 0); [|rewrite Z; reflexivity].
           destruct f, c; cbn [makes target] in *; try reflexivity; (destruct (Nat.eqb_spec id0 id); [congruence|reflexivity]).
      * rewrite (proj2 (Nat.eqb_neq t u) Hn).
        assert (Z : entered (nth_error (thr (leaf s id)) t) (nth_error (thr (if Nat.eqb id (target c) then fst (step (cf (target c)) (leaf s (target c)) (MThread u (begin_call c))) else leaf s id)) t) = []).
        { destruct (Nat.eqb_spec id (target c)) as [->|]; [rewrite other_place by exact Hn|]; apply entered_same. }
        rewrite Z. reflexivity.
    + cbn [fst snd set_todo leaf todo]. rewrite entered_same. destruct (Nat.eqb_spec t u) as [->|]; [|reflexivity]. rewrite Td.
      unfold make_all at 2. cbn [map list_sum fold_right]. assert (Z : makes f id c = 0); [|rewrite Z; reflexivity].
      destruct f, c; cbn [makes target] in *; try reflexivity; (destruct (Nat.eqb_spec id0 id); [lia|reflexivity]).
  - destruct (Nat.ltb_spec i K) as [Hi|]; [|exact STAY]. destruct (begins m) eqn:Hb; [exact STAY|]. cbn [negb andb].
    rewrite in_leaf_eq. cbn [fst snd]. rewrite started_map. cbn [flat_map todo set_leaf leaf]. change (make_all f id []) with 0.
    assert (Z : entered (nth_error (thr (leaf s id)) t) (nth_error (thr (if Nat.eqb id i then fst (step (cf i) (leaf s i) m) else leaf s id)) t) = []).
    { destruct (Nat.eqb_spec id i) as [->|]; [apply not_begun; exact Hb|apply entered_same]. }
    rewrite Z. reflexivity.
  - destruct (is_thread n u && is_nil (todo s u) && free K s u && (i <? K) && unused n s i) eqn:G; [|exact STAY].
    rewrite in_leaf_eq. cbn [fst snd]. rewrite started_map. cbn [flat_map todo set_leaf leaf]. change (make_all f id []) with 0.
    assert (Z : entered (nth_error (thr (leaf s id)) t) (nth_error (thr (if Nat.eqb id i then fst (step (cf i) (leaf s i) (MThread u CDestroy)) else leaf s id)) t) = []).
    { destruct (Nat.eqb_spec id i) as [->|]; [|apply entered_same].
      destruct (Nat.eq_dec t u) as [<-|Hn]; [|rewrite other_place by exact Hn; apply entered_same].
      destruct (nth_error (thr (leaf s i)) t) as [p|] eqn:Hp; [|reflexivity]. destruct p; try reflexivity.
      cbn [step]. rewrite Hp. cbn [step_thread]. destruct (clients_idle _ && _); cbn [fst]; [|rewrite Hp; reflexivity].
      cbn [thr s_thr]. rewrite nth_error_upd by (apply nth_error_Some; congruence). destruct (c_lat0 (cf i)); reflexivity. }
    rewrite Z. reflexivity.
Qed.

Lemma exec_balance f id t : id < K -> 1 <= t <= n -> forall ms s tr, PInv s tr ->
  make_all f id (flat_map ordered (started t (snd (pexec s ms)))) + make_all f id (todo s t) =
  times f (entries id t s ms) + make_all f id (todo (fst (pexec s ms)) t).
Proof.
  intros Hid Ht. induction ms as [|m ms IH]; intros s tr HV; [reflexivity|].
  pose proof (step_balance s tr m f id t HV Hid Ht) as B. cbv zeta in B. pose proof (step_pinv K cf op n s tr m HV) as HV1.
  specialize (IH _ _ HV1). cbn [PoolModel.pexec PoolCallSpec.entries]. unfold now in B.
  destruct (pstep s m) as [s1 l1]. cbn [fst snd] in *. destruct (pexec s1 ms) as [s2 l2]. cbn [fst snd] in *.
  rewrite started_app, flat_map_app, make_app. unfold times in *. rewrite count_occ_app. lia.
Qed.

Lemma ordered_all f id t (tr : list (plabel E)) :
  (forall o, In o (started t tr) -> exists cs, plan o = TreeModel.Done cs) ->
  make_all f id (flat_map ordered (started t tr)) = list_sum (map (wanted cf f id) (started t tr)).
Proof.
  induction (started t tr) as [|o l IH]; intros H; [reflexivity|]. cbn [flat_map map list_sum fold_right]. rewrite make_app, IH by (intros; apply H; right; assumption).
  destruct (H o (or_introl eq_refl)) as (cs & Hc). unfold ordered. rewrite Hc, (plan_all f id o cs Hc). reflexivity.
Qed.

Lemma reaches_members f id t ms s tr : id < K -> 1 <= t <= n -> pexec (pinit cf op n) ms = (s, tr) ->
  times f (entries id t (pinit cf op n) ms) <= list_sum (map (wanted cf f id) (started t tr)) /\
  (resting K s t -> times f (entries id t (pinit cf op n) ms) = list_sum (map (wanted cf f id) (started t tr))).
Proof.
  intros Hid Ht H. pose proof (exec_balance f id t Hid Ht ms _ _ (init_pinv K cf op n)) as B. rewrite H in B. cbn [fst snd pinit todo] in B.
  rewrite ordered_all in B.
  - change (make_all f id []) with 0 in B. split; [lia|]. intros [R _]. rewrite R in B. change (make_all f id []) with 0 in B. lia.
  - intros o Ho. apply (start_plans K cf n (pinit cf op n) ms t o). rewrite H. exact Ho.
Qed.
End PoolCall.
