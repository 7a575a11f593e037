(** * Proofs about the circular buffer model *)

From Coq Require Import List Arith Bool Lia.
From Verif Require Import CircSpec CircModel.
Import ListNotations.

Set Implicit Arguments.

Section Proofs.
Context {A : Type}.
Notation state := (state A).
Notation pc := (pc A).
Notation choice := (choice A).
Notation sstate := (sstate A).

(** ** Invariant *)

Definition inCS (p : pc) : bool :=
  match p with
  | PCheck _ | PFullClear | PTake _ | PBusyClear _ | PAdv _ _ | PInc _ _ | PUnlock _ _
  | GCheck | GEmptyClear | GTake | GBusyClear | GAdv _ | GDec _ | GUnlock _
  | QRead _ | QClear _ _ => true
  | _ => false
  end.

Definition mid (p : pc) : bool :=
  match p with PInc _ _ | GDec _ => true | _ => false end.

Definition pcslot (p : pc) : option nat :=
  match p with
  | PAdv _ i | PInc _ i | PUnlock _ i | PBuild _ i | PBuilt _ i
  | GAdv i | GDec i | GUnlock i => Some i
  | _ => None
  end.

Definition PC (s : state) t := t_pc (thr s t).
Definition REFS (s : state) t := t_refs (thr s t).

Definition holds (s : state) t i := pcslot (PC s t) = Some i \/ In i (REFS s t).

Definition slot (cap pop k : nat) := (pop + k) mod cap.

Definition phase_ok (s : state) (p : pc) (ph : phase A) : Prop :=
  match p with
  | Idle => ph = PhNone
  | PSpin a | PCheck a | PTake a | PBusyClear a | PAdv a _ => ph = PhCalled (OPut a)
  | PFullClear | GEmptyClear => ph = PhRefused
  | PInc a _ | PUnlock a _ | PBuild a _ | PBuilt a _ => exists n, ph = PhPut n a
  | GSpin | GCheck | GTake | GBusyClear | GAdv _ => ph = PhCalled OGet
  | GDec i | GUnlock i => exists n v, ph = PhGot n v /\ n_cell (nodes s i) = Full v
  | QSpin q | QRead q => ph = PhCalled (OQuery q)
  | QClear _ r => ph = PhNum r
  end.

Record InvLock (s : state) : Prop := {
  il_busy : forall t, inCS (PC s t) = true -> g_busy s = true;
  il_uniq : forall t t', inCS (PC s t) = true -> inCS (PC s t') = true -> t = t';
  il_ex : g_busy s = true -> exists t, inCS (PC s t) = true
}.

Record InvIdx (cap : nat) (s : state) (len : nat) : Prop := {
  ii_cap : 0 < cap;
  ii_push : g_push s < cap;
  ii_pop : g_pop s < cap;
  ii_len : len <= cap;
  ii_rel : g_push s = slot cap (g_pop s) len;
  ii_size0 : (forall t, mid (PC s t) = false) -> g_size s = len;
  ii_pinc : forall t a i, PC s t = PInc a i -> S (g_size s) = len;
  ii_gdec : forall t i, PC s t = GDec i -> g_size s = S len;
  ii_ptake : forall t a, PC s t = PTake a -> len < cap;
  ii_padv : forall t a i, PC s t = PAdv a i -> len < cap /\ i = g_push s;
  ii_gtake : forall t, PC s t = GTake -> 0 < len;
  ii_gadv : forall t i, PC s t = GAdv i -> 0 < len /\ i = g_pop s;
  ii_qclear : True
}.

Record InvHold (cap : nat) (s : state) : Prop := {
  ih_lt : forall t i, holds s t i -> i < cap;
  ih_busy : forall t i, holds s t i -> n_busy (nodes s i) = true;
  ih_held : forall i, n_busy (nodes s i) = true -> exists t, holds s t i;
  ih_uniq : forall t t' i, holds s t i -> holds s t' i -> t = t';
  ih_nodup : forall t, NoDup (REFS s t);
  ih_pcref : forall t i, pcslot (PC s t) = Some i -> ~ In i (REFS s t)
}.

Definition builds (p : pc) (i : nat) (a : A) : Prop :=
  p = PInc a i \/ p = PUnlock a i \/ p = PBuild a i \/ p = PBuilt a i.

Record InvCell (cap : nat) (s : state) (ss : sstate) : Prop := {
  (* a queued item is under construction by its producer, or built *)
  ic_win : forall k n a, nth_error (s_items ss) k = Some (n, a) ->
      (exists t, builds (PC s t) (slot cap (g_pop s) k) a)
      \/ n_cell (nodes s (slot cap (g_pop s) k)) = Full a;
  (* a producer works on the slot of its own queued item *)
  ic_builder : forall t i a n, builds (PC s t) i a -> s_phase ss t = PhPut n a ->
      exists k, nth_error (s_items ss) k = Some (n, a) /\ i = slot cap (g_pop s) k;
  ic_phput : forall t n a, s_phase ss t = PhPut n a -> exists i, builds (PC s t) i a
}.

Record InvLive (cap : nat) (s : state) (ss : sstate) : Prop := {
  iv_refs : forall t i, In i (REFS s t) ->
      exists n a, In (mkRef t i n a) (s_live ss) /\ n_cell (nodes s i) = Full a;
  iv_live : forall r, In r (s_live ss) ->
      In (r_slot r) (REFS s (r_thr r)) /\ n_cell (nodes s (r_slot r)) = Full (r_val r);
  iv_nodup : NoDup (map (@r_slot A) (s_live ss));
  iv_num : forall r k n a, In r (s_live ss) ->
      nth_error (s_items ss) k = Some (n, a) -> r_num r = n ->
      r_slot r = slot cap (g_pop s) k
}.

Record InvSeq (ss : sstate) : Prop := {
  is_lt : forall n a, In (n, a) (s_items ss) -> n < s_next ss;
  is_nodup : NoDup (map fst (s_items ss));
  is_ph : forall t n a, (s_phase ss t = PhPut n a \/ s_phase ss t = PhGot n a) -> n < s_next ss;
  is_live : forall r, In r (s_live ss) -> r_num r < s_next ss;
  is_got : forall t n a k b, s_phase ss t = PhGot n a ->
      nth_error (s_items ss) k = Some (n, b) -> False
}.

Record Inv (cap : nat) (s : state) (ss : sstate) : Prop := {
  inv_lock : InvLock s;
  inv_idx : InvIdx cap s (length (s_items ss));
  inv_hold : InvHold cap s;
  inv_cell : InvCell cap s ss;
  inv_live : InvLive cap s ss;
  inv_seq : InvSeq ss;
  inv_phase : forall t, phase_ok s (PC s t) (s_phase ss t)
}.

(** ** Basic facts *)

Lemma upd_same X (f : nat -> X) k x : upd f k x k = x.
Proof. unfold upd. rewrite Nat.eqb_refl. reflexivity. Qed.

Lemma upd_other X (f : nat -> X) k x k' : k' <> k -> upd f k x k' = f k'.
Proof. unfold upd. intros H. destruct (Nat.eqb_spec k' k); congruence. Qed.

Lemma slot_lt cap pop k : 0 < cap -> slot cap pop k < cap.
Proof. intros H. unfold slot. apply Nat.mod_upper_bound. lia. Qed.

Lemma slot_inj cap pop k k' :
  0 < cap -> pop < cap -> k < cap -> k' < cap ->
  slot cap pop k = slot cap pop k' -> k = k'.
Proof.
  unfold slot. intros H0 Hp Hk Hk' E.
  assert (X : forall j, j < cap ->
     (pop + j) mod cap = if pop + j <? cap then pop + j else pop + j - cap).
  { intros j Hj. destruct (Nat.ltb_spec (pop + j) cap).
    - apply Nat.mod_small; lia.
    - symmetry. apply (Nat.mod_unique (pop + j) cap 1); lia. }
  rewrite (X k Hk), (X k' Hk') in E.
  destruct (Nat.ltb_spec (pop + k) cap), (Nat.ltb_spec (pop + k') cap); lia.
Qed.

Lemma slot_0 cap pop : pop < cap -> slot cap pop 0 = pop.
Proof. intros. unfold slot. rewrite Nat.add_0_r. apply Nat.mod_small. lia. Qed.

Lemma slot_next cap pop k :
  0 < cap -> slot cap ((pop + 1) mod cap) k = slot cap pop (S k).
Proof.
  intros. unfold slot.
  rewrite Nat.add_mod_idemp_l by lia. f_equal. lia.
Qed.

Lemma slot_succ cap pop k :
  0 < cap -> (slot cap pop k + 1) mod cap = slot cap pop (S k).
Proof.
  intros. unfold slot. rewrite Nat.add_mod_idemp_l by lia. f_equal. lia.
Qed.

Lemma slot_eq_pop cap pop len :
  0 < cap -> pop < cap -> len <= cap -> slot cap pop len = pop -> len = 0 \/ len = cap.
Proof.
  intros H0 Hp Hl E. destruct (Nat.eq_dec len cap); [auto|left].
  apply (@slot_inj cap pop); try lia. rewrite E, slot_0; auto.
Qed.

Lemma NoDup_app_snoc_nat (l : list nat) x : NoDup l -> ~ In x l -> NoDup (l ++ [x]).
Proof.
  induction 1 as [|y l N ND IH]; simpl; intros Hx.
  - constructor; [simpl; tauto|constructor].
  - constructor; [|apply IH; tauto].
    intros C. apply in_app_or in C. destruct C as [C|[C|[]]]; [tauto|]. subst. tauto.
Qed.

Ltac uu := unfold PC, REFS, set_pc, set_thr, set_lock, set_node, set_idx in *; simpl in *.

Lemma thr_upd (f : nat -> thread A) t x t' :
  upd f t x t' = if Nat.eqb t' t then x else f t'.
Proof. reflexivity. Qed.

(** Initial state. *)
Lemma inv_init cap : 0 < cap -> Inv cap (init (A:=A)) s_init.
Proof.
  intros Hc. split.
  - split; uu; intros; congruence.
  - split; uu; intros; try congruence; try lia.
    unfold slot. rewrite Nat.mod_small; lia.
  - split; unfold holds; uu; intros; try (destruct H; [congruence|tauto]); try congruence.
    constructor.
  - split; uu; intros.
    + destruct k; discriminate.
    + unfold builds in H; intuition congruence.
    + discriminate.
  - split; uu; intros; try tauto. constructor.
  - split; simpl; intros; try tauto; try constructor.
    + destruct H; discriminate.
    + discriminate.
  - intros t. uu. reflexivity.
Qed.


(** ** Preservation, piece by piece *)

Lemma lock_keep s s' t :
  InvLock s -> g_busy s' = g_busy s ->
  (forall t', t' <> t -> PC s' t' = PC s t') ->
  inCS (PC s' t) = inCS (PC s t) -> InvLock s'.
Proof.
  intros [Hb Hu He] Eb Eo Et.
  assert (X : forall t', inCS (PC s' t') = inCS (PC s t')).
  { intros t'. destruct (Nat.eq_dec t' t) as [->|N]; [exact Et|rewrite Eo; auto]. }
  split; intros *; rewrite ?X, ?Eb; eauto.
  intros H. destruct (He H) as [t0 H0]. exists t0. rewrite X. exact H0.
Qed.

Lemma lock_acquire s s' t :
  InvLock s -> g_busy s = false -> g_busy s' = true ->
  (forall t', t' <> t -> PC s' t' = PC s t') ->
  inCS (PC s' t) = true -> InvLock s'.
Proof.
  intros [Hb Hu He] Eb Eb' Eo Et.
  assert (X : forall t', inCS (PC s' t') = true -> t' = t).
  { intros t' H. destruct (Nat.eq_dec t' t) as [->|N]; [reflexivity|].
    rewrite Eo in H by auto. apply Hb in H. congruence. }
  split; intros; auto.
  - rewrite (X t0), (X t'); auto.
  - eauto.
Qed.

Lemma lock_release s s' t :
  InvLock s -> inCS (PC s t) = true -> g_busy s' = false ->
  (forall t', t' <> t -> PC s' t' = PC s t') ->
  inCS (PC s' t) = false -> InvLock s'.
Proof.
  intros [Hb Hu He] Hin Eb' Eo Et.
  assert (X : forall t', inCS (PC s' t') = false).
  { intros t'. destruct (Nat.eq_dec t' t) as [->|N]; [exact Et|].
    rewrite Eo by auto. destruct (inCS (PC s t')) eqn:E; auto.
    exfalso. apply N. apply Hu; auto. }
  split; intros *; rewrite ?X; congruence.
Qed.

Lemma hold_keep cap s s' t :
  InvHold cap s ->
  (forall i, n_busy (nodes s' i) = n_busy (nodes s i)) ->
  (forall t', t' <> t -> PC s' t' = PC s t') ->
  (forall t', REFS s' t' = REFS s t') ->
  pcslot (PC s' t) = pcslot (PC s t) -> InvHold cap s'.
Proof.
  intros [H1 H2 H3 H4 H5 H6] Eb Eo Er Et.
  assert (Xp : forall t', pcslot (PC s' t') = pcslot (PC s t')).
  { intros t'. destruct (Nat.eq_dec t' t) as [->|N]; [exact Et|rewrite Eo; auto]. }
  assert (X : forall t' i, holds s' t' i <-> holds s t' i).
  { intros. unfold holds. rewrite Xp, Er. tauto. }
  split; intros *; rewrite ?X, ?Eb, ?Er, ?Xp; eauto.
  intros H. destruct (H3 _ H) as [t0 H0]. exists t0. apply X. exact H0.
Qed.

Lemma hold_take cap s s' t i :
  InvHold cap s -> i < cap -> n_busy (nodes s i) = false ->
  n_busy (nodes s' i) = true ->
  (forall j, j <> i -> n_busy (nodes s' j) = n_busy (nodes s j)) ->
  (forall t', t' <> t -> PC s' t' = PC s t') ->
  (forall t', REFS s' t' = REFS s t') ->
  pcslot (PC s t) = None -> pcslot (PC s' t) = Some i -> InvHold cap s'.
Proof.
  intros [H1 H2 H3 H4 H5 H6] Hi Ef Eb Ebo Eo Er Ep Ep'.
  assert (X : forall t' j, holds s' t' j <-> (holds s t' j \/ (t' = t /\ j = i))).
  { intros t' j. unfold holds. rewrite Er.
    destruct (Nat.eq_dec t' t) as [->|N].
    - rewrite Ep', Ep. split.
      + intros [E|E]; [injection E as ->; auto|auto].
      + intros [[E|E]|[_ ->]]; auto. discriminate.
    - rewrite Eo by auto. intuition congruence. }
  assert (Y : forall t', ~ holds s t' i).
  { intros t' H. apply H2 in H. congruence. }
  split.
  - intros t' j H. apply X in H. destruct H as [H|[_ ->]]; eauto.
  - intros t' j H. apply X in H. destruct H as [H|[_ ->]]; auto.
    destruct (Nat.eq_dec j i) as [->|N]; [auto|rewrite Ebo; eauto].
  - intros j H. destruct (Nat.eq_dec j i) as [->|N].
    + exists t. apply X. auto.
    + rewrite Ebo in H by auto. destruct (H3 _ H) as [t0 H0].
      exists t0. apply X. auto.
  - intros t1 t2 j Ha Hb. apply X in Ha. apply X in Hb.
    destruct Ha as [Ha|[-> ->]], Hb as [Hb|[-> ?]]; subst; eauto;
      exfalso; eapply Y; eauto.
  - intros t'. rewrite Er. auto.
  - intros t' j H. rewrite Er. destruct (Nat.eq_dec t' t) as [->|N].
    + rewrite Ep' in H. injection H as <-. intros C. apply (Y t). right. exact C.
    + rewrite Eo in H by auto. auto.
Qed.

Lemma hold_ret cap s s' t i :
  InvHold cap s -> pcslot (PC s t) = Some i ->
  (forall j, n_busy (nodes s' j) = n_busy (nodes s j)) ->
  (forall t', t' <> t -> PC s' t' = PC s t') ->
  (forall t', t' <> t -> REFS s' t' = REFS s t') ->
  pcslot (PC s' t) = None -> REFS s' t = i :: REFS s t -> InvHold cap s'.
Proof.
  intros [H1 H2 H3 H4 H5 H6] Ep Eb Eo Eor Ep' Er.
  assert (X : forall t' j, holds s' t' j <-> holds s t' j).
  { intros t' j. unfold holds. destruct (Nat.eq_dec t' t) as [->|N].
    - rewrite Ep, Ep', Er. simpl. intuition congruence.
    - rewrite Eo, Eor by auto. tauto. }
  split; intros *; rewrite ?X, ?Eb; eauto.
  - intros H. destruct (H3 _ H) as [t0 H0]. exists t0. apply X. exact H0.
  - destruct (Nat.eq_dec t0 t) as [->|N].
    + rewrite Er. constructor; auto.
    + rewrite Eor; auto.
  - destruct (Nat.eq_dec t0 t) as [->|N].
    + rewrite Ep'. discriminate.
    + rewrite Eo, Eor; auto.
Qed.

Lemma NoDup_remove_list (l : list nat) x : NoDup l -> NoDup (remove Nat.eq_dec x l).
Proof.
  induction 1 as [|y l N ND IH]; simpl; [constructor|].
  destruct (Nat.eq_dec x y); auto.
  constructor; auto. intros C. apply in_remove in C. tauto.
Qed.

Lemma hold_rel cap s s' t i :
  InvHold cap s -> In i (REFS s t) -> pcslot (PC s t) = None ->
  n_busy (nodes s' i) = false ->
  (forall j, j <> i -> n_busy (nodes s' j) = n_busy (nodes s j)) ->
  (forall t', PC s' t' = PC s t') ->
  (forall t', t' <> t -> REFS s' t' = REFS s t') ->
  REFS s' t = remove Nat.eq_dec i (REFS s t) -> InvHold cap s'.
Proof.
  intros [H1 H2 H3 H4 H5 H6] Hin Ep Eb Ebo Eo Eor Er.
  assert (X : forall t' j, holds s' t' j <-> (holds s t' j /\ j <> i)).
  { intros t' j. unfold holds. rewrite Eo. destruct (Nat.eq_dec t' t) as [->|N].
    - rewrite Ep, Er. split.
      + intros [E|E]; [discriminate|]. apply in_remove in E. tauto.
      + intros [[E|E] Hn]; [discriminate|]. right. apply in_in_remove; auto.
    - rewrite Eor by auto. split; [|tauto].
      intros H. split; auto. intros ->. apply N. apply (H4 t' t i); auto.
      right; auto. }
  split.
  - intros t' j H. apply X in H. destruct H; eauto.
  - intros t' j H. apply X in H. destruct H. rewrite Ebo; eauto.
  - intros j H. destruct (Nat.eq_dec j i) as [->|N]; [congruence|].
    rewrite Ebo in H by auto. destruct (H3 _ H) as [t0 H0]. exists t0. apply X. auto.
  - intros t1 t2 j Ha Hb. apply X in Ha. apply X in Hb. destruct Ha, Hb. eauto.
  - intros t'. destruct (Nat.eq_dec t' t) as [->|N].
    + rewrite Er. apply NoDup_remove_list. auto.
    + rewrite Eor; auto.
  - intros t' j H. rewrite Eo in H. destruct (Nat.eq_dec t' t) as [->|N].
    + congruence.
    + rewrite Eor; auto.
Qed.

(** Congruence: steps that touch neither items, indices nor cells. *)
Lemma cell_keep cap s s' ss ss' :
  InvCell cap s ss ->
  s_items ss' = s_items ss -> g_pop s' = g_pop s ->
  (forall i, n_cell (nodes s' i) = n_cell (nodes s i)) ->
  (forall t i a, builds (PC s' t) i a <-> builds (PC s t) i a) ->
  (forall t n a, s_phase ss' t = PhPut n a <-> s_phase ss t = PhPut n a) ->
  InvCell cap s' ss'.
Proof.
  intros [H1 H2 H3] Ei Ep Ec Eb Eph. split; intros *; rewrite ?Ei, ?Ep, ?Ec, ?Eph, ?Eb.
  - intros H. destruct (H1 _ _ _ H) as [[t Ht]|Hc]; [left; exists t; apply Eb|right]; auto.
  - eauto.
  - intros H. destruct (H3 _ _ _ H) as [i Hi]. exists i. apply Eb. exact Hi.
Qed.

Lemma live_keep cap s s' ss ss' :
  InvLive cap s ss ->
  s_items ss' = s_items ss -> g_pop s' = g_pop s ->
  (forall i, n_cell (nodes s' i) = n_cell (nodes s i)) ->
  (forall t, REFS s' t = REFS s t) ->
  s_live ss' = s_live ss ->
  InvLive cap s' ss'.
Proof.
  intros [H1 H2 H3 H4] Ei Ep Ec Er El.
  split; intros *; rewrite ?Ei, ?Ep, ?Ec, ?Er, ?El; eauto.
Qed.

Lemma seq_keep ss ss' :
  InvSeq ss -> s_items ss' = s_items ss -> s_next ss' = s_next ss ->
  s_live ss' = s_live ss ->
  (forall t n a, s_phase ss' t = PhPut n a <-> s_phase ss t = PhPut n a) ->
  (forall t n a, s_phase ss' t = PhGot n a <-> s_phase ss t = PhGot n a) ->
  InvSeq ss'.
Proof.
  intros [H1 H2 H3 H4 H5] Ei En El Ep Eg.
  split; intros *; rewrite ?Ei, ?En, ?El, ?Ep, ?Eg; eauto.
Qed.

(** Phases of the threads that did not move. *)
Lemma phase_keep s s' ss ss' t :
  (forall t', phase_ok s (PC s t') (s_phase ss t')) ->
  (forall t', t' <> t -> PC s' t' = PC s t') ->
  (forall t', t' <> t -> s_phase ss' t' = s_phase ss t') ->
  (forall t' i, t' <> t -> pcslot (PC s t') = Some i ->
      n_cell (nodes s' i) = n_cell (nodes s i)) ->
  phase_ok s' (PC s' t) (s_phase ss' t) ->
  forall t', phase_ok s' (PC s' t') (s_phase ss' t').
Proof.
  intros H Eo Ep Ec Ht t'. destruct (Nat.eq_dec t' t) as [->|N]; [exact Ht|].
  rewrite Eo, Ep by auto. specialize (H t').
  specialize (Ec t').
  destruct (PC s t') eqn:E; simpl in *; auto;
    destruct H as (n & v & Hp & Hc); exists n, v; split; auto;
    rewrite Ec; auto.
Qed.

(** Index invariant: the moving thread neither comes from nor goes to a point
    the index invariant speaks about, and nothing it speaks about changes. *)
Definition idx_free (p : pc) : Prop :=
  match p with
  | PTake _ | PAdv _ _ | PInc _ _ | GTake | GAdv _ | GDec _ => False
  | _ => True
  end.

Lemma idx_keep cap s s' len t :
  InvIdx cap s len ->
  g_size s' = g_size s -> g_push s' = g_push s -> g_pop s' = g_pop s ->
  (forall t', t' <> t -> PC s' t' = PC s t') ->
  mid (PC s t) = false -> idx_free (PC s' t) -> InvIdx cap s' len.
Proof.
  intros [Q0 Q1 Q2 Q3 Q4 Q5 Q6 Q7 Q8 Q9 Q10 Q11 Q12] Es Eu Ep Eo Hm Hf.
  assert (X : forall t' p, PC s' t' = p -> ~ idx_free p -> PC s t' = p /\ t' <> t).
  { intros t' p E Hn. destruct (Nat.eq_dec t' t) as [->|N].
    - subst p. contradiction.
    - rewrite Eo in E; auto. }
  split; rewrite ?Es, ?Eu, ?Ep; auto; intros;
    try (apply X in H as [H ?]; [eauto|simpl; tauto]).
  apply Q5. intros t'. destruct (Nat.eq_dec t' t) as [->|N]; auto.
  specialize (H t'). rewrite Eo in H; auto.
Qed.


Lemma quiet cap s s' ss ss' t :
  Inv cap s ss ->
  InvLock s' -> InvIdx cap s' (length (s_items ss)) -> InvHold cap s' ->
  g_pop s' = g_pop s ->
  (forall i, n_cell (nodes s' i) = n_cell (nodes s i)) ->
  (forall t', REFS s' t' = REFS s t') ->
  (forall t', t' <> t -> PC s' t' = PC s t') ->
  (forall i a, builds (PC s' t) i a <-> builds (PC s t) i a) ->
  s_items ss' = s_items ss -> s_next ss' = s_next ss -> s_live ss' = s_live ss ->
  (forall t', t' <> t -> s_phase ss' t' = s_phase ss t') ->
  (forall n a, s_phase ss' t = PhPut n a <-> s_phase ss t = PhPut n a) ->
  (forall n a, s_phase ss' t = PhGot n a <-> s_phase ss t = PhGot n a) ->
  phase_ok s' (PC s' t) (s_phase ss' t) ->
  Inv cap s' ss'.
Proof.
  intros HI HL HX HH Epop Ec Er Eo Eb Ei En El Epo Epp Epg Hph.
  assert (Ap : forall t' n a, s_phase ss' t' = PhPut n a <-> s_phase ss t' = PhPut n a).
  { intros t' n a. destruct (Nat.eq_dec t' t) as [->|N]; [auto|rewrite Epo; tauto]. }
  assert (Ag : forall t' n a, s_phase ss' t' = PhGot n a <-> s_phase ss t' = PhGot n a).
  { intros t' n a. destruct (Nat.eq_dec t' t) as [->|N]; [auto|rewrite Epo; tauto]. }
  assert (Ab : forall t' i a, builds (PC s' t') i a <-> builds (PC s t') i a).
  { intros t' i a. destruct (Nat.eq_dec t' t) as [->|N]; [auto|rewrite Eo; tauto]. }
  destruct HI as [H1 H2 H3 H4 H5 H6 H7].
  split; auto.
  - rewrite Ei. exact HX.
  - eapply cell_keep; eauto.
  - eapply live_keep; eauto.
  - eapply seq_keep; eauto.
  - eapply phase_keep; eauto.
Qed.

(** Solvers for the side conditions. *)
Ltac t_other := intros ? ?; uu; rewrite ?upd_other by assumption; reflexivity.
Ltac t_refs := let t' := fresh in intros t'; uu; unfold upd;
  match goal with |- context [Nat.eqb t' ?t] => destruct (Nat.eqb_spec t' t) as [->|] end;
  reflexivity.
Ltac t_pc := uu; rewrite ?upd_same; simpl.
Ltac t_cell := let i := fresh "i" in intros i; uu; unfold upd;
  repeat match goal with |- context [Nat.eqb i ?t] => destruct (Nat.eqb_spec i t) as [->|] end;
  reflexivity.
Ltac t_phase_other := let t' := fresh in let N := fresh in
  intros t' N; simpl; match goal with |- context [Nat.eqb t' ?t] => destruct (Nat.eqb_spec t' t) as [?|?] end; [contradiction|reflexivity].

Lemma builds_none (p q : pc) :
  (forall i a, ~ builds p i a) -> (forall i a, ~ builds q i a) ->
  forall i a, builds p i a <-> builds q i a.
Proof. intros Hp Hq i a. split; intros H; exfalso; [eapply Hp|eapply Hq]; eauto. Qed.

Ltac t_nb := intros ? ? HB; unfold builds in HB; uu; rewrite ?upd_same in HB; simpl in HB;
  intuition congruence.

Ltac t_builds E := intros ? ?; uu; rewrite ?upd_same; simpl; rewrite ?E; unfold builds;
  intuition congruence.

Ltac t_ph E := intros ? ?; simpl; rewrite ?Nat.eqb_refl; rewrite ?E; intuition congruence.

(** [ss] unchanged: everything about phases is trivial. *)
Ltac t_triv := first [reflexivity | (intros; reflexivity) | (intros; tauto)].

Definition simulates cap s ss t c :=
  exists s' tr ss', step cap s t c = Ok s' tr /\ sruns cap ss tr ss' /\ Inv cap s' ss'.

Lemma runs1 cap (s : sstate) l s' : sstep cap s l s' -> sruns cap s [l] s'.
Proof. intros H. econstructor; [exact H|constructor]. Qed.

Section Cases.
Variables (cap : nat) (s : state) (ss : sstate) (t : nat).
Hypothesis HI : Inv cap s ss.

Local Lemma HL : InvLock s. Proof. exact (inv_lock HI). Qed.
Local Lemma HX : InvIdx cap s (length (s_items ss)). Proof. exact (inv_idx HI). Qed.
Local Lemma HH : InvHold cap s. Proof. exact (inv_hold HI). Qed.
Local Lemma HP : phase_ok s (PC s t) (s_phase ss t). Proof. exact (inv_phase HI t). Qed.

(** Calls: idle thread enters a spin loop. *)
Lemma case_call o p :
  PC s t = Idle -> inCS p = false -> pcslot p = None -> idx_free p -> mid p = false ->
  (forall i a, ~ builds p i a) ->
  (forall s', phase_ok s' p (PhCalled o)) ->
  Inv cap (set_pc s t p) (set_phase ss t (PhCalled o)) /\ s_phase ss t = PhNone.
Proof.
  intros E Hc Hs Hf Hm Hb Hph. pose proof HP as P0. rewrite E in P0. simpl in P0.
  split; [|exact P0].
  apply quiet with (s := s) (ss := ss) (t := t); auto; try t_triv.
  - eapply lock_keep with (t := t); [exact HL|reflexivity|t_other|]. rewrite E.
    t_pc. exact Hc.
  - eapply idx_keep with (t := t); [exact HX|..]; try reflexivity; [t_other|rewrite E; reflexivity|].
    t_pc. exact Hf.
  - eapply hold_keep with (t := t); [exact HH|..]; [t_cell|t_other|t_refs|].
    rewrite E. t_pc. exact Hs.
  - t_refs.
  - t_other.
  - apply builds_none; [|rewrite E; t_nb]. t_pc. exact Hb.
  - t_phase_other.
  - t_ph P0.
  - t_ph P0.
  - t_pc. rewrite Nat.eqb_refl. apply Hph.
Qed.

(** Spinning: busy lock, nothing changes. *)
Lemma case_stay : forall s', s' = s -> Inv cap s' ss.
Proof. intros ? ->. exact HI. Qed.

(** Lock acquired. *)
Lemma case_acquire p :
  g_busy s = false -> inCS (PC s t) = false -> inCS p = true ->
  pcslot p = None -> pcslot (PC s t) = None -> idx_free p -> mid (PC s t) = false ->
  (forall i a, ~ builds p i a) -> (forall i a, ~ builds (PC s t) i a) ->
  (forall s', phase_ok s (PC s t) (s_phase ss t) -> phase_ok s' p (s_phase ss t)) ->
  Inv cap (set_pc (set_lock s true) t p) ss.
Proof.
  intros Eb Hin Hc Hs Hs' Hf Hm Hb Hb' Hph.
  apply quiet with (s := s) (ss := ss) (t := t); auto; try t_triv.
  - eapply lock_acquire with (t := t); [exact HL|exact Eb|reflexivity|t_other|].
    t_pc. exact Hc.
  - eapply idx_keep with (t := t); [exact HX|..]; try reflexivity; [t_other|exact Hm|].
    t_pc. exact Hf.
  - eapply hold_keep with (t := t); [exact HH|..]; [t_cell|t_other|t_refs|].
    rewrite Hs'. t_pc. exact Hs.
  - t_refs.
  - t_other.
  - apply builds_none; auto. t_pc. exact Hb.
  - t_pc. apply Hph. exact HP.
Qed.

(** Lock released without effect on indices. *)
Lemma case_release p ss' :
  inCS (PC s t) = true -> inCS p = false ->
  pcslot p = pcslot (PC s t) -> idx_free p -> mid (PC s t) = false ->
  (forall i a, builds p i a <-> builds (PC s t) i a) ->
  s_items ss' = s_items ss -> s_next ss' = s_next ss -> s_live ss' = s_live ss ->
  (forall t', t' <> t -> s_phase ss' t' = s_phase ss t') ->
  (forall n a, s_phase ss' t = PhPut n a <-> s_phase ss t = PhPut n a) ->
  (forall n a, s_phase ss' t = PhGot n a <-> s_phase ss t = PhGot n a) ->
  phase_ok (set_pc (set_lock s false) t p) p (s_phase ss' t) ->
  Inv cap (set_pc (set_lock s false) t p) ss'.
Proof.
  intros Hin Hc Hs Hf Hm Hb Ei En El Epo Epp Epg Hph.
  apply quiet with (s := s) (ss := ss) (t := t); auto; try t_triv.
  - eapply lock_release with (t := t); [exact HL|exact Hin|reflexivity|t_other|].
    t_pc. exact Hc.
  - eapply idx_keep with (t := t); [exact HX|..]; try reflexivity; [t_other|exact Hm|].
    t_pc. exact Hf.
  - eapply hold_keep with (t := t); [exact HH|..]; [t_cell|t_other|t_refs|].
    t_pc. exact Hs.
  - t_refs.
  - t_other.
  - t_pc. exact Hb.
  - t_pc. exact Hph.
Qed.

(** Step inside the critical section changing only the thread's own point. *)
Lemma case_cs p ss' :
  inCS (PC s t) = true -> inCS p = true ->
  pcslot p = None -> pcslot (PC s t) = None ->
  InvIdx cap (set_pc s t p) (length (s_items ss)) ->
  (forall i a, ~ builds p i a) -> (forall i a, ~ builds (PC s t) i a) ->
  s_items ss' = s_items ss -> s_next ss' = s_next ss -> s_live ss' = s_live ss ->
  (forall t', t' <> t -> s_phase ss' t' = s_phase ss t') ->
  (forall n a, s_phase ss' t = PhPut n a <-> s_phase ss t = PhPut n a) ->
  (forall n a, s_phase ss' t = PhGot n a <-> s_phase ss t = PhGot n a) ->
  phase_ok (set_pc s t p) p (s_phase ss' t) ->
  Inv cap (set_pc s t p) ss'.
Proof.
  intros Hin Hc Hs Hs' HX' Hb Hb' Ei En El Epo Epp Epg Hph.
  apply quiet with (s := s) (ss := ss) (t := t); auto; try t_triv.
  - eapply lock_keep with (t := t); [exact HL|reflexivity|t_other|].
    rewrite Hin. t_pc. exact Hc.
  - eapply hold_keep with (t := t); [exact HH|..]; [t_cell|t_other|t_refs|].
    rewrite Hs'. t_pc. exact Hs.
  - t_refs.
  - t_other.
  - apply builds_none; auto. t_pc. exact Hb.
  - t_pc. exact Hph.
Qed.

(** Index facts when the holder of the lock moves between plain points. *)
Lemma idx_cs p :
  mid (PC s t) = false -> idx_free p -> InvIdx cap (set_pc s t p) (length (s_items ss)).
Proof.
  intros Hm Hf. eapply idx_keep with (t := t); [exact HX|..]; try reflexivity; [t_other|exact Hm|].
  t_pc. exact Hf.
Qed.

Lemma nomid_other : inCS (PC s t) = true -> forall t', t' <> t -> mid (PC s t') = false.
Proof.
  intros Hin t' N. destruct (mid (PC s t')) eqn:E; auto. exfalso. apply N.
  apply (il_uniq HL); auto. destruct (PC s t'); simpl in *; congruence.
Qed.

Lemma size_len : inCS (PC s t) = true -> mid (PC s t) = false ->
  g_size s = length (s_items ss).
Proof.
  intros Hin Hm. apply (ii_size0 HX). intros t'.
  destruct (Nat.eq_dec t' t) as [->|N]; auto. apply nomid_other; auto.
Qed.


(** Generic index lemma: the moving thread holds the lock and all index facts
    about the others are vacuous (nobody else is inside). *)
Lemma idx_cs_gen s' p len' :
  inCS (PC s t) = true ->
  (forall t', t' <> t -> PC s' t' = PC s t') -> PC s' t = p ->
  g_push s' < cap -> g_pop s' < cap -> len' <= cap ->
  g_push s' = slot cap (g_pop s') len' ->
  (mid p = false -> g_size s' = len') ->
  (forall a i, p = PInc a i -> S (g_size s') = len') ->
  (forall i, p = GDec i -> g_size s' = S len') ->
  (forall a, p = PTake a -> len' < cap) ->
  (forall a i, p = PAdv a i -> len' < cap /\ i = g_push s') ->
  (p = GTake -> 0 < len') ->
  (forall i, p = GAdv i -> 0 < len' /\ i = g_pop s') ->
  InvIdx cap s' len'.
Proof.
  intros Hin Eo Et H1 H2 H3 H4 H5 H6 H7 H8 H9 H10 H11.
  assert (X : forall t' q, PC s' t' = q -> inCS q = true -> p = q).
  { intros t' q E Hq. destruct (Nat.eq_dec t' t) as [->|N]; [congruence|].
    exfalso. apply N. rewrite Eo in E by auto. apply (il_uniq HL); auto. congruence. }
  split; auto; intros;
    try (apply X in H; [subst p; eauto|reflexivity]).
  - exact (ii_cap HX).
  - apply H5. rewrite <- Et. apply H.
Qed.

Lemma case_ptake_ok a :
  PC s t = PTake a -> n_busy (nodes s (g_push s)) = false ->
  Inv cap (set_pc (set_node s (g_push s)
             {| n_busy := true; n_cell := n_cell (nodes s (g_push s)) |}) t (PAdv a (g_push s))) ss.
Proof.
  intros E Hb. pose proof HP as P0. rewrite E in P0. simpl in P0.
  apply quiet with (s := s) (ss := ss) (t := t); auto; try t_triv.
  - eapply lock_keep with (t := t); [exact HL|reflexivity|t_other|].
    rewrite E. t_pc. reflexivity.
  - apply idx_cs_gen with (p := PAdv a (g_push s)); try (rewrite E; reflexivity);
      try (intros; discriminate).
    + t_other.
    + t_pc. reflexivity.
    + exact (ii_push HX).
    + exact (ii_pop HX).
    + exact (ii_len HX).
    + exact (ii_rel HX).
    + intros _. apply size_len; rewrite E; reflexivity.
    + intros a0 i Ei. injection Ei as _ <-. split; [exact (ii_ptake HX _ E)|reflexivity].
  - eapply hold_take with (t := t) (i := g_push s);
      [exact HH|exact (ii_push HX)|exact Hb|..].
    + uu. rewrite upd_same. reflexivity.
    + t_other.
    + t_other.
    + t_refs.
    + rewrite E. reflexivity.
    + t_pc. reflexivity.
  - t_cell.
  - t_refs.
  - t_other.
  - rewrite E. t_builds E.
  - t_pc. exact P0.
Qed.

Lemma case_gtake_ok :
  PC s t = GTake -> n_busy (nodes s (g_pop s)) = false ->
  Inv cap (set_pc (set_node s (g_pop s)
             {| n_busy := true; n_cell := n_cell (nodes s (g_pop s)) |}) t (GAdv (g_pop s))) ss.
Proof.
  intros E Hb. pose proof HP as P0. rewrite E in P0. simpl in P0.
  apply quiet with (s := s) (ss := ss) (t := t); auto; try t_triv.
  - eapply lock_keep with (t := t); [exact HL|reflexivity|t_other|].
    rewrite E. t_pc. reflexivity.
  - apply idx_cs_gen with (p := GAdv (g_pop s)); try (rewrite E; reflexivity);
      try (intros; discriminate).
    + t_other.
    + t_pc. reflexivity.
    + exact (ii_push HX).
    + exact (ii_pop HX).
    + exact (ii_len HX).
    + exact (ii_rel HX).
    + intros _. apply size_len; rewrite E; reflexivity.
    + intros i Ei. injection Ei as <-. split; [exact (ii_gtake HX _ E)|reflexivity].
  - eapply hold_take with (t := t) (i := g_pop s);
      [exact HH|exact (ii_pop HX)|exact Hb|..].
    + uu. rewrite upd_same. reflexivity.
    + t_other.
    + t_other.
    + t_refs.
    + rewrite E. reflexivity.
    + t_pc. reflexivity.
  - t_cell.
  - t_refs.
  - t_other.
  - rewrite E. t_builds E.
  - t_pc. exact P0.
Qed.

(** Size update steps. *)
Lemma case_pinc a i :
  PC s t = PInc a i ->
  Nat.ltb (g_size s) cap = true /\
  Inv cap (set_pc (set_idx s (S (g_size s)) (g_push s) (g_pop s)) t (PUnlock a i)) ss.
Proof.
  intros E. pose proof HP as P0. rewrite E in P0. simpl in P0.
  assert (Hs : S (g_size s) = length (s_items ss)) by exact (ii_pinc HX _ E).
  split.
  { apply Nat.ltb_lt. pose proof (ii_len HX). lia. }
  apply quiet with (s := s) (ss := ss) (t := t); auto; try t_triv.
  - eapply lock_keep with (t := t); [exact HL|reflexivity|t_other|].
    rewrite E. t_pc. reflexivity.
  - apply idx_cs_gen with (p := PUnlock a i); try (rewrite E; reflexivity);
      try (intros; discriminate).
    + t_other.
    + t_pc. reflexivity.
    + exact (ii_push HX).
    + exact (ii_pop HX).
    + exact (ii_len HX).
    + exact (ii_rel HX).
    + intros _. simpl. exact Hs.
  - eapply hold_keep with (t := t); [exact HH|..]; [t_cell|t_other|t_refs|].
    rewrite E. t_pc. reflexivity.
  - t_refs.
  - t_other.
  - rewrite E. t_pc. intros j b. unfold builds. split; intros HB.
    + left. intuition congruence.
    + right; left. intuition congruence.
  - t_pc. exact P0.
Qed.

Lemma case_gdec i :
  PC s t = GDec i ->
  Nat.ltb 0 (g_size s) = true /\
  Inv cap (set_pc (set_idx s (g_size s - 1) (g_push s) (g_pop s)) t (GUnlock i)) ss.
Proof.
  intros E. pose proof HP as P0. rewrite E in P0. simpl in P0.
  assert (Hs : g_size s = S (length (s_items ss))) by exact (ii_gdec HX _ E).
  split.
  { apply Nat.ltb_lt. lia. }
  apply quiet with (s := s) (ss := ss) (t := t); auto; try t_triv.
  - eapply lock_keep with (t := t); [exact HL|reflexivity|t_other|].
    rewrite E. t_pc. reflexivity.
  - apply idx_cs_gen with (p := GUnlock i); try (rewrite E; reflexivity);
      try (intros; discriminate).
    + t_other.
    + t_pc. reflexivity.
    + exact (ii_push HX).
    + exact (ii_pop HX).
    + exact (ii_len HX).
    + exact (ii_rel HX).
    + intros _. simpl. lia.
  - eapply hold_keep with (t := t); [exact HH|..]; [t_cell|t_other|t_refs|].
    rewrite E. t_pc. reflexivity.
  - t_refs.
  - t_other.
  - rewrite E. t_builds E.
  - t_pc. exact P0.
Qed.

(** push_index_ advances: the item enters the queue. *)
Lemma case_padv a i :
  PC s t = PAdv a i ->
  Nat.eqb cap 0 = false /\
  exists ss', sruns cap ss [LLin t] ss' /\
  Inv cap (set_pc (set_idx s (g_size s) ((g_push s + 1) mod cap) (g_pop s)) t (PInc a i)) ss'.
Proof.
  intros E. pose proof HP as P0. rewrite E in P0. simpl in P0.
  destruct (ii_padv HX _ E) as [Hlt Ei].
  pose proof (ii_cap HX) as Hcap.
  split. { apply Nat.eqb_neq. lia. }
  set (ss1 := {| s_items := s_items ss ++ [(s_next ss, a)]; s_next := S (s_next ss);
                 s_phase := s_phase ss; s_live := s_live ss |}).
  exists (set_phase ss1 t (PhPut (s_next ss) a)).
  split. { apply runs1. apply S_put_ok; auto. }
  set (s' := set_pc _ t _).
  assert (Eo : forall t', t' <> t -> PC s' t' = PC s t') by t_other.
  assert (Et : PC s' t = PInc a i) by (t_pc; reflexivity).
  assert (Er : forall t', REFS s' t' = REFS s t') by t_refs.
  assert (Ec : forall j, nodes s' j = nodes s j) by (intros; reflexivity).
  assert (Epo : forall t', t' <> t -> s_phase (set_phase ss1 t (PhPut (s_next ss) a)) t'
                                      = s_phase ss t').
  { intros t' N. simpl. destruct (Nat.eqb_spec t' t); congruence. }
  assert (Ept : s_phase (set_phase ss1 t (PhPut (s_next ss) a)) t = PhPut (s_next ss) a).
  { simpl. rewrite Nat.eqb_refl. reflexivity. }
  destruct HI as [L1 X1 H1 C1 V1 Q1 F1].
  assert (Hslot : i = slot cap (g_pop s) (length (s_items ss))).
  { rewrite Ei. exact (ii_rel HX). }
  split.
  - eapply lock_keep with (t := t); [exact HL|reflexivity|exact Eo|].
    rewrite E, Et. reflexivity.
  - simpl. rewrite app_length. simpl.
    apply idx_cs_gen with (p := PInc a i); auto; try (rewrite E; reflexivity);
      try (intros; discriminate).
    + simpl. apply Nat.mod_upper_bound. lia.
    + exact (ii_pop HX).
    + lia.
    + simpl. rewrite (ii_rel HX). rewrite slot_succ by lia. f_equal. lia.
    + intros a0 i0 _. simpl.
      rewrite size_len by (rewrite E; reflexivity). lia.
  - eapply hold_keep with (t := t); [exact HH|intros; reflexivity|exact Eo|exact Er|].
    rewrite E, Et. reflexivity.
  - split.
    + simpl. intros k n b Hk.
      destruct (Nat.lt_ge_cases k (length (s_items ss))) as [Hl|Hl].
      * rewrite nth_error_app1 in Hk by exact Hl.
        destruct (ic_win C1 _ Hk) as [[t0 Hb]|Hf]; [left|right; exact Hf].
        exists t0. rewrite Eo; [exact Hb|]. intros ->. rewrite E in Hb.
        unfold builds in Hb. intuition congruence.
      * rewrite nth_error_app2 in Hk by exact Hl.
        destruct (k - length (s_items ss)) as [|m] eqn:Ek; [|destruct m; discriminate].
        simpl in Hk. injection Hk as <- <-.
        left. exists t. rewrite Et. left. rewrite Hslot. do 2 f_equal. lia.
    + intros t0 j b n Hb Hp. destruct (Nat.eq_dec t0 t) as [->|N].
      * rewrite Ept in Hp. injection Hp as <- <-.
        rewrite Et in Hb. assert (j = i) as -> by (unfold builds in Hb; intuition congruence).
        exists (length (s_items ss)). split; [|exact Hslot].
        simpl. rewrite nth_error_app2 by lia. rewrite Nat.sub_diag. reflexivity.
      * rewrite Eo in Hb by auto. rewrite Epo in Hp by auto.
        edestruct (ic_builder C1) as [k [Hk Hj]]; [exact Hb|exact Hp|].
        exists k. split; [|exact Hj]. simpl.
        rewrite nth_error_app1; auto. apply nth_error_Some. congruence.
    + intros t0 n b Hp. destruct (Nat.eq_dec t0 t) as [->|N].
      * rewrite Ept in Hp. injection Hp as _ <-. exists i. rewrite Et. left. reflexivity.
      * rewrite Epo in Hp by auto. rewrite Eo by auto. exact (ic_phput C1 _ Hp).
  - split.
    + intros t0 j Hj. rewrite Er in Hj. exact (iv_refs V1 _ _ Hj).
    + intros r Hr. rewrite Er. exact (iv_live V1 _ Hr).
    + exact (iv_nodup V1).
    + simpl. intros r k n b Hr Hk Hn.
      destruct (Nat.lt_ge_cases k (length (s_items ss))) as [Hl|Hl].
      * rewrite nth_error_app1 in Hk by exact Hl. exact (iv_num V1 _ _ Hr Hk Hn).
      * rewrite nth_error_app2 in Hk by exact Hl.
        destruct (k - length (s_items ss)) as [|m] eqn:Ek; [|destruct m; discriminate].
        simpl in Hk. injection Hk as E1 _.
        pose proof (is_live Q1 _ Hr). lia.
  - split; simpl.
    + intros n b Hin. apply in_app_or in Hin. destruct Hin as [Hin|[Hin|[]]].
      * pose proof (is_lt Q1 _ _ Hin). lia.
      * injection Hin as <- _. lia.
    + rewrite map_app. simpl. apply NoDup_app_snoc_nat.
      * exact (is_nodup Q1).
      * intros Hin. apply in_map_iff in Hin. destruct Hin as [[n b] [En Hin]].
        simpl in En. pose proof (is_lt Q1 _ _ Hin). lia.
    + intros t0 n b Hp. destruct (Nat.eqb_spec t0 t) as [->|N].
      * destruct Hp as [Hp|Hp]; [injection Hp as <- _; lia|discriminate].
      * pose proof (is_ph Q1 _ Hp). lia.
    + intros r Hr. pose proof (is_live Q1 _ Hr). lia.
    + intros t0 n b k d Hp Hk. destruct (Nat.eqb_spec t0 t) as [->|N]; [discriminate|].
      destruct (Nat.lt_ge_cases k (length (s_items ss))) as [Hl|Hl].
      * rewrite nth_error_app1 in Hk by exact Hl. exact (is_got Q1 _ _ Hp Hk).
      * rewrite nth_error_app2 in Hk by exact Hl.
        destruct (k - length (s_items ss)) as [|m] eqn:Ek; [|destruct m; discriminate].
        simpl in Hk. injection Hk as E1 _.
        assert (n < s_next ss) by (apply (is_ph Q1 t0 (n := n) (a := b)); auto). lia.
  - eapply phase_keep with (t := t) (s := s) (ss := ss); auto.
    rewrite Et, Ept. simpl. eauto.
Qed.


Lemma holds_not_ref i t' :
  pcslot (PC s t) = Some i -> ~ In i (REFS s t').
Proof.
  intros Hp Hin. assert (t' = t) as ->.
  { apply (ih_uniq HH) with (i := i); [right; exact Hin|left; exact Hp]. }
  exact (ih_pcref HH _ Hp Hin).
Qed.

Lemma holds_not_pc i t' :
  pcslot (PC s t) = Some i -> t' <> t -> pcslot (PC s t') <> Some i.
Proof.
  intros Hp N Hp'. apply N. apply (ih_uniq HH) with (i := i); left; assumption.
Qed.

Lemma builds_pcslot (p : pc) i a : builds p i a -> pcslot p = Some i.
Proof. unfold builds. intros H. intuition (subst; reflexivity). Qed.

Lemma items_inj k k' n a b :
  nth_error (s_items ss) k = Some (n, a) -> nth_error (s_items ss) k' = Some (n, b) -> k = k'.
Proof.
  intros H1 H2. pose proof (is_nodup (inv_seq HI)) as ND.
  rewrite NoDup_nth_error in ND. apply ND.
  - rewrite map_length. apply nth_error_Some. congruence.
  - rewrite !nth_error_map, H1, H2. reflexivity.
Qed.

Lemma items_lt k x : nth_error (s_items ss) k = Some x -> k < cap.
Proof.
  intros H. assert (k < length (s_items ss)) by (apply nth_error_Some; congruence).
  pose proof (ii_len HX). lia.
Qed.

Lemma case_pbuild a i :
  PC s t = PBuild a i ->
  Inv cap (set_pc (set_node s i {| n_busy := n_busy (nodes s i); n_cell := Building |})
                  t (PBuilt a i)) ss.
Proof.
  intros E. pose proof HP as P0. rewrite E in P0. simpl in P0.
  assert (Hpc : pcslot (PC s t) = Some i) by (rewrite E; reflexivity).
  set (s' := set_pc _ t _).
  assert (Eo : forall t', t' <> t -> PC s' t' = PC s t') by t_other.
  assert (Et : PC s' t = PBuilt a i) by (t_pc; reflexivity).
  assert (Er : forall t', REFS s' t' = REFS s t') by t_refs.
  assert (Ec : forall j, j <> i -> n_cell (nodes s' j) = n_cell (nodes s j)) by t_other.
  assert (Ab : forall t' j b, builds (PC s' t') j b <-> builds (PC s t') j b).
  { intros t' j b. destruct (Nat.eq_dec t' t) as [->|N]; [|rewrite Eo; tauto].
    rewrite Et, E. unfold builds. intuition congruence. }
  pose proof (inv_cell HI) as C1. pose proof (inv_live HI) as V1.
  split.
  - eapply lock_keep with (t := t); [exact HL|reflexivity|exact Eo|].
    rewrite E, Et. reflexivity.
  - eapply idx_keep with (t := t); [exact HX|..]; try reflexivity; [exact Eo|rewrite E; reflexivity|].
    rewrite Et. exact I.
  - eapply hold_keep with (t := t); [exact HH|t_cell|exact Eo|exact Er|].
    rewrite E, Et. reflexivity.
  - split.
    + intros k n b Hk. destruct (ic_win C1 _ Hk) as [[t0 Hb]|Hf].
      * left. exists t0. apply Ab. exact Hb.
      * destruct (Nat.eq_dec (slot cap (g_pop s) k) i) as [Ek|Nk].
        -- left. exists t. apply Ab. rewrite E.
           destruct P0 as [m Pm].
           edestruct (ic_builder C1) as [k' [Hk' Hj]];
             [rewrite E; right; right; left; reflexivity|exact Pm|].
           assert (k = k') as <-.
           { apply (@slot_inj cap (g_pop s)); try (eapply items_lt; eassumption).
             - exact (ii_cap HX).
             - exact (ii_pop HX).
             - rewrite Ek. exact Hj. }
           rewrite Hk in Hk'. injection Hk' as -> ->. simpl. rewrite Ek.
           right; right; left; reflexivity.
        -- right. simpl g_pop. rewrite Ec by exact Nk. exact Hf.
    + intros t0 j b n Hb Hp. apply Ab in Hb. exact (ic_builder C1 t0 Hb Hp).
    + intros t0 n b Hp. destruct (ic_phput C1 _ Hp) as [j Hj]. exists j. apply Ab. exact Hj.
  - split.
    + intros t0 j Hj. rewrite Er in Hj. rewrite Ec; [exact (iv_refs V1 _ _ Hj)|].
      intros ->. exact (holds_not_ref _ Hpc Hj).
    + intros r Hr. rewrite Er. destruct (iv_live V1 _ Hr) as [Hin Hcell].
      split; [exact Hin|]. rewrite Ec; [exact Hcell|].
      intros Hi. rewrite Hi in Hin. exact (holds_not_ref _ Hpc Hin).
    + exact (iv_nodup V1).
    + exact (iv_num V1).
  - exact (inv_seq HI).
  - eapply phase_keep with (t := t) (s := s) (ss := ss); auto.
    + exact (inv_phase HI).
    + intros t' j N Hj. apply Ec. intros ->. exact (holds_not_pc Hpc N Hj).
    + rewrite Et. exact P0.
Qed.

Lemma case_pbuilt a i :
  PC s t = PBuilt a i ->
  exists ss', sruns cap ss [LRet t (RRef i)] ss' /\
  Inv cap (set_thr (set_node s i {| n_busy := n_busy (nodes s i); n_cell := Full a |})
                  t Idle (i :: REFS s t)) ss'.
Proof.
  intros E. pose proof HP as P0. rewrite E in P0. simpl in P0. destruct P0 as [n Pn].
  assert (Hpc : pcslot (PC s t) = Some i) by (rewrite E; reflexivity).
  pose proof (inv_cell HI) as C1. pose proof (inv_live HI) as V1. pose proof (inv_seq HI) as Q1.
  assert (Hfresh : forall r, In r (s_live ss) -> r_slot r <> i).
  { intros r Hr Hi. destruct (iv_live V1 _ Hr) as [Hin _]. rewrite Hi in Hin.
    exact (holds_not_ref _ Hpc Hin). }
  set (ss1 := {| s_items := s_items ss; s_next := s_next ss;
                 s_phase := s_phase ss; s_live := mkRef t i n a :: s_live ss |}).
  exists (set_phase ss1 t PhNone). split.
  { apply runs1. apply S_ret_ref; auto. }
  set (s' := set_thr _ t _ _).
  assert (Eo : forall t', t' <> t -> PC s' t' = PC s t') by t_other.
  assert (Et : PC s' t = Idle) by (t_pc; reflexivity).
  assert (Ero : forall t', t' <> t -> REFS s' t' = REFS s t') by t_other.
  assert (Ert : REFS s' t = i :: REFS s t) by (t_pc; reflexivity).
  assert (Ec : forall j, j <> i -> n_cell (nodes s' j) = n_cell (nodes s j)) by t_other.
  assert (Eci : n_cell (nodes s' i) = Full a) by (uu; rewrite upd_same; reflexivity).
  assert (Epo : forall t', t' <> t -> s_phase (set_phase ss1 t PhNone) t' = s_phase ss t').
  { intros t' N. simpl. destruct (Nat.eqb_spec t' t); congruence. }
  assert (Ept : s_phase (set_phase ss1 t PhNone) t = PhNone).
  { simpl. rewrite Nat.eqb_refl. reflexivity. }
  edestruct (ic_builder C1) as [k0 [Hk0 Hj0]];
    [rewrite E; right; right; right; reflexivity|exact Pn|].
  split.
  - eapply lock_keep with (t := t); [exact HL|reflexivity|exact Eo|].
    rewrite E, Et. reflexivity.
  - simpl. eapply idx_keep with (t := t); [exact HX|..]; try reflexivity;
      [exact Eo|rewrite E; reflexivity|].
    rewrite Et. exact I.
  - eapply hold_ret with (t := t) (i := i); [exact HH|exact Hpc|t_cell|exact Eo|exact Ero| |exact Ert].
    rewrite Et. reflexivity.
  - split.
    + intros k m b Hk. change (g_pop s') with (g_pop s). simpl s_items in Hk.
      destruct (Nat.eq_dec (slot cap (g_pop s) k) i) as [Ek|Nk].
      * right. rewrite Ek, Eci.
        assert (k = k0) as ->.
        { apply (@slot_inj cap (g_pop s)); try (eapply items_lt; eassumption).
          - exact (ii_cap HX).
          - exact (ii_pop HX).
          - rewrite Ek. exact Hj0. }
        rewrite Hk in Hk0. injection Hk0 as -> ->. reflexivity.
      * destruct (ic_win C1 _ Hk) as [[t0 Hb]|Hf].
        -- left. exists t0. rewrite Eo; [exact Hb|]. intros ->.
           apply builds_pcslot in Hb. congruence.
        -- right. rewrite Ec by exact Nk. exact Hf.
    + intros t0 j b m Hb Hp. destruct (Nat.eq_dec t0 t) as [->|N]; [congruence|].
      rewrite Eo in Hb by auto. rewrite Epo in Hp by auto.
      exact (ic_builder C1 t0 Hb Hp).
    + intros t0 m b Hp. destruct (Nat.eq_dec t0 t) as [->|N]; [congruence|].
      rewrite Epo in Hp by auto. rewrite Eo by auto. exact (ic_phput C1 _ Hp).
  - split.
    + intros t0 j Hj. destruct (Nat.eq_dec t0 t) as [->|N].
      * rewrite Ert in Hj. destruct Hj as [<-|Hj].
        -- exists n, a. split; [left; reflexivity|exact Eci].
        -- destruct (iv_refs V1 _ _ Hj) as (m & b & Hl & Hc).
           exists m, b. split; [right; exact Hl|]. rewrite Ec; [exact Hc|].
           intros ->. exact (holds_not_ref _ Hpc Hj).
      * rewrite Ero in Hj by auto.
        destruct (iv_refs V1 _ _ Hj) as (m & b & Hl & Hc).
        exists m, b. split; [right; exact Hl|]. rewrite Ec; [exact Hc|].
        intros ->. exact (holds_not_ref _ Hpc Hj).
    + intros r [<-|Hr].
      * split; [simpl r_thr; rewrite Ert; left; reflexivity|exact Eci].
      * destruct (iv_live V1 _ Hr) as [Hin Hc]. split.
        -- destruct (Nat.eq_dec (r_thr r) t) as [Et'|N].
           ++ rewrite Et', Ert. right. rewrite <- Et'. exact Hin.
           ++ rewrite Ero by auto. exact Hin.
        -- rewrite Ec; [exact Hc|]. exact (Hfresh _ Hr).
    + simpl. constructor; [|exact (iv_nodup V1)].
      intros Hin. apply in_map_iff in Hin. destruct Hin as [r [Hi Hr]].
      exact (Hfresh _ Hr Hi).
    + simpl. intros r k m b [<-|Hr] Hk Hm; simpl in *.
      * subst m. rewrite (items_inj _ _ Hk Hk0). exact Hj0.
      * exact (iv_num V1 _ _ Hr Hk Hm).
  - split; simpl.
    + exact (is_lt Q1).
    + exact (is_nodup Q1).
    + intros t0 m b Hp. destruct (Nat.eqb_spec t0 t) as [->|N].
      * destruct Hp; discriminate.
      * exact (is_ph Q1 _ Hp).
    + intros r [<-|Hr]; simpl; [|exact (is_live Q1 _ Hr)].
      apply (is_ph Q1 t (n := n) (a := a)). auto.
    + intros t0 m b k d Hp Hk. destruct (Nat.eqb_spec t0 t) as [->|N]; [discriminate|].
      exact (is_got Q1 _ _ Hp Hk).
  - eapply phase_keep with (t := t) (s := s) (ss := ss); auto.
    + exact (inv_phase HI).
    + intros t' j N Hj. apply Ec. intros ->. exact (holds_not_pc Hpc N Hj).
    + rewrite Et. exact Ept.
Qed.

Lemma case_gadv i :
  PC s t = GAdv i ->
  Nat.eqb cap 0 = false /\
  exists ss', sruns cap ss [LLin t] ss' /\
  Inv cap (set_pc (set_idx s (g_size s) (g_push s) ((g_pop s + 1) mod cap)) t (GDec i)) ss'.
Proof.
  intros E. pose proof HP as P0. rewrite E in P0. simpl in P0.
  destruct (ii_gadv HX _ E) as [Hlt Ei].
  pose proof (ii_cap HX) as Hcap. pose proof (ii_pop HX) as Hpop.
  assert (Hpc : pcslot (PC s t) = Some i) by (rewrite E; reflexivity).
  pose proof (inv_cell HI) as C1. pose proof (inv_live HI) as V1. pose proof (inv_seq HI) as Q1.
  split. { apply Nat.eqb_neq. lia. }
  destruct (s_items ss) as [|[n v] rest] eqn:Eit; [simpl in Hlt; lia|].
  assert (H0 : nth_error (s_items ss) 0 = Some (n, v)) by (rewrite Eit; reflexivity).
  assert (Hs0 : slot cap (g_pop s) 0 = i) by (rewrite slot_0; auto).
  assert (Hnob : forall t' b, ~ builds (PC s t') i b).
  { intros t' b Hb. destruct (Nat.eq_dec t' t) as [->|N].
    - rewrite E in Hb. unfold builds in Hb. intuition congruence.
    - apply builds_pcslot in Hb. exact (holds_not_pc Hpc N Hb). }
  assert (Hcell : n_cell (nodes s i) = Full v).
  { destruct (ic_win C1 _ H0) as [[t0 Hb]|Hf].
    - rewrite Hs0 in Hb. exfalso. exact (Hnob _ _ Hb).
    - rewrite Hs0 in Hf. exact Hf. }
  set (ss1 := {| s_items := rest; s_next := s_next ss;
                 s_phase := s_phase ss; s_live := s_live ss |}).
  exists (set_phase ss1 t (PhGot n v)). split.
  { apply runs1. apply S_get_ok; auto.
    - intros t' b Hp. destruct (ic_phput C1 _ Hp) as [j Hb].
      edestruct (ic_builder C1) as [k [Hk Hj]]; [exact Hb|exact Hp|].
      pose proof (items_inj _ _ H0 Hk) as <-. rewrite Hs0 in Hj. subst j.
      exact (Hnob _ _ Hb).
    - intros r Hr Hn. pose proof (iv_num V1 _ _ Hr H0 Hn) as Hsl. rewrite Hs0 in Hsl.
      destruct (iv_live V1 _ Hr) as [Hin _]. rewrite Hsl in Hin.
      exact (holds_not_ref _ Hpc Hin). }
  set (s' := set_pc _ t _).
  assert (Eo : forall t', t' <> t -> PC s' t' = PC s t') by t_other.
  assert (Et : PC s' t = GDec i) by (t_pc; reflexivity).
  assert (Er : forall t', REFS s' t' = REFS s t') by t_refs.
  assert (Epo : forall t', t' <> t -> s_phase (set_phase ss1 t (PhGot n v)) t' = s_phase ss t').
  { intros t' N. simpl. destruct (Nat.eqb_spec t' t); congruence. }
  assert (Ept : s_phase (set_phase ss1 t (PhGot n v)) t = PhGot n v).
  { simpl. rewrite Nat.eqb_refl. reflexivity. }
  assert (Hsl : forall k, slot cap (g_pop s') k = slot cap (g_pop s) (S k)).
  { intros k. simpl. apply slot_next. lia. }
  assert (Hnth : forall k, nth_error (s_items ss) (S k) = nth_error rest k).
  { intros k. rewrite Eit. reflexivity. }
  assert (Hlen : length (s_items ss) = S (length rest)) by (rewrite Eit; reflexivity).
  pose proof (ii_len HX) as Hle. pose proof (ii_rel HX) as Hrel.
  split.
  - eapply lock_keep with (t := t); [exact HL|reflexivity|exact Eo|].
    rewrite E, Et. reflexivity.
  - simpl. apply idx_cs_gen with (p := GDec i); auto; try (rewrite E; reflexivity);
      try (intros; discriminate).
    + exact (ii_push HX).
    + simpl. apply Nat.mod_upper_bound. lia.
    + lia.
    + rewrite Hsl. simpl g_push. rewrite Hrel, Hlen. reflexivity.
    + intros i0 _. simpl.
      rewrite size_len by (rewrite E; reflexivity). exact Hlen.
  - eapply hold_keep with (t := t); [exact HH|t_cell|exact Eo|exact Er|].
    rewrite E, Et. reflexivity.
  - split.
    + intros k m b Hk. rewrite Hsl. simpl s_items in Hk. rewrite <- Hnth in Hk.
      destruct (ic_win C1 _ Hk) as [[t0 Hb]|Hf]; [left|right; exact Hf].
      exists t0. rewrite Eo; [exact Hb|]. intros ->. rewrite E in Hb.
      unfold builds in Hb. intuition congruence.
    + intros t0 j b m Hb Hp. destruct (Nat.eq_dec t0 t) as [->|N]; [congruence|].
      rewrite Eo in Hb by auto. rewrite Epo in Hp by auto.
      edestruct (ic_builder C1) as [k [Hk Hj]]; [exact Hb|exact Hp|].
      destruct k as [|k].
      * exfalso. rewrite Hs0 in Hj. subst j. exact (Hnob _ _ Hb).
      * exists k. rewrite Hsl. simpl. rewrite <- Hnth. auto.
    + intros t0 m b Hp. destruct (Nat.eq_dec t0 t) as [->|N]; [congruence|].
      rewrite Epo in Hp by auto. rewrite Eo by auto. exact (ic_phput C1 _ Hp).
  - split.
    + intros t0 j Hj. rewrite Er in Hj. exact (iv_refs V1 _ _ Hj).
    + intros r Hr. rewrite Er. exact (iv_live V1 _ Hr).
    + exact (iv_nodup V1).
    + intros r k m b Hr Hk Hm. rewrite Hsl. simpl s_items in Hk. rewrite <- Hnth in Hk.
      exact (iv_num V1 _ _ Hr Hk Hm).
  - pose proof (is_nodup Q1) as ND. rewrite Eit in ND. simpl in ND.
    apply NoDup_cons_iff in ND. destruct ND as [Nn ND].
    split; simpl.
    + intros m b Hin. apply (is_lt Q1 m b). rewrite Eit. right. exact Hin.
    + exact ND.
    + intros t0 m b Hp. destruct (Nat.eqb_spec t0 t) as [->|N].
      * destruct Hp as [Hp|Hp]; [discriminate|]. injection Hp as <- <-.
        apply (is_lt Q1 n v). rewrite Eit. left. reflexivity.
      * exact (is_ph Q1 _ Hp).
    + exact (is_live Q1).
    + intros t0 m b k d Hp Hk. destruct (Nat.eqb_spec t0 t) as [->|N].
      * injection Hp as <- <-. apply Nn. apply in_map_iff. exists (n, d).
        split; auto. eapply nth_error_In; eauto.
      * rewrite <- Hnth in Hk. exact (is_got Q1 _ _ Hp Hk).
  - eapply phase_keep with (t := t) (s := s) (ss := ss); auto.
    + exact (inv_phase HI).
    + rewrite Et, Ept. simpl. exists n, v. auto.
Qed.

Lemma case_gunlock i :
  PC s t = GUnlock i ->
  exists ss', sruns cap ss [LRet t (RRef i)] ss' /\
  Inv cap (set_thr (set_lock s false) t Idle (i :: REFS s t)) ss'.
Proof.
  intros E. pose proof HP as P0. rewrite E in P0. simpl in P0.
  destruct P0 as (n & v & Pn & Hcell).
  assert (Hpc : pcslot (PC s t) = Some i) by (rewrite E; reflexivity).
  pose proof (inv_cell HI) as C1. pose proof (inv_live HI) as V1. pose proof (inv_seq HI) as Q1.
  assert (Hfresh : forall r, In r (s_live ss) -> r_slot r <> i).
  { intros r Hr Hi. destruct (iv_live V1 _ Hr) as [Hin _]. rewrite Hi in Hin.
    exact (holds_not_ref _ Hpc Hin). }
  set (ss1 := {| s_items := s_items ss; s_next := s_next ss;
                 s_phase := s_phase ss; s_live := mkRef t i n v :: s_live ss |}).
  exists (set_phase ss1 t PhNone). split.
  { apply runs1. apply S_ret_ref; auto. }
  set (s' := set_thr _ t _ _).
  assert (Eo : forall t', t' <> t -> PC s' t' = PC s t') by t_other.
  assert (Et : PC s' t = Idle) by (t_pc; reflexivity).
  assert (Ero : forall t', t' <> t -> REFS s' t' = REFS s t') by t_other.
  assert (Ert : REFS s' t = i :: REFS s t) by (t_pc; reflexivity).
  assert (Epo : forall t', t' <> t -> s_phase (set_phase ss1 t PhNone) t' = s_phase ss t').
  { intros t' N. simpl. destruct (Nat.eqb_spec t' t); congruence. }
  assert (Ept : s_phase (set_phase ss1 t PhNone) t = PhNone).
  { simpl. rewrite Nat.eqb_refl. reflexivity. }
  split.
  - eapply lock_release with (t := t); [exact HL|rewrite E; reflexivity|reflexivity|exact Eo|].
    rewrite Et. reflexivity.
  - simpl. eapply idx_keep with (t := t); [exact HX|..]; try reflexivity;
      [exact Eo|rewrite E; reflexivity|].
    rewrite Et. exact I.
  - eapply hold_ret with (t := t) (i := i); [exact HH|exact Hpc|t_cell|exact Eo|exact Ero| |exact Ert].
    rewrite Et. reflexivity.
  - split.
    + simpl. intros k m b Hk. destruct (ic_win C1 _ Hk) as [[t0 Hb]|Hf]; [left|right; exact Hf].
      exists t0. rewrite Eo; [exact Hb|]. intros ->. rewrite E in Hb.
      unfold builds in Hb. intuition congruence.
    + intros t0 j b m Hb Hp. destruct (Nat.eq_dec t0 t) as [->|N]; [congruence|].
      rewrite Eo in Hb by auto. rewrite Epo in Hp by auto.
      exact (ic_builder C1 t0 Hb Hp).
    + intros t0 m b Hp. destruct (Nat.eq_dec t0 t) as [->|N]; [congruence|].
      rewrite Epo in Hp by auto. rewrite Eo by auto. exact (ic_phput C1 _ Hp).
  - split.
    + intros t0 j Hj. destruct (Nat.eq_dec t0 t) as [->|N].
      * rewrite Ert in Hj. destruct Hj as [<-|Hj].
        -- exists n, v. split; [left; reflexivity|exact Hcell].
        -- destruct (iv_refs V1 _ _ Hj) as (m & b & Hl & Hc).
           exists m, b. split; [right; exact Hl|exact Hc].
      * rewrite Ero in Hj by auto.
        destruct (iv_refs V1 _ _ Hj) as (m & b & Hl & Hc).
        exists m, b. split; [right; exact Hl|exact Hc].
    + intros r [<-|Hr]; simpl.
      * split; [rewrite Ert; left; reflexivity|exact Hcell].
      * destruct (iv_live V1 _ Hr) as [Hin Hc]. split; [|exact Hc].
        destruct (Nat.eq_dec (r_thr r) t) as [Et'|N].
        -- rewrite Et', Ert. right. rewrite <- Et'. exact Hin.
        -- rewrite Ero by auto. exact Hin.
    + simpl. constructor; [|exact (iv_nodup V1)].
      intros Hin. apply in_map_iff in Hin. destruct Hin as [r [Hi Hr]].
      exact (Hfresh _ Hr Hi).
    + simpl. intros r k m b [<-|Hr] Hk Hm; simpl in *.
      * subst m. exfalso. exact (is_got Q1 _ _ Pn Hk).
      * exact (iv_num V1 _ _ Hr Hk Hm).
  - split; simpl.
    + exact (is_lt Q1).
    + exact (is_nodup Q1).
    + intros t0 m b Hp. destruct (Nat.eqb_spec t0 t) as [->|N].
      * destruct Hp; discriminate.
      * exact (is_ph Q1 _ Hp).
    + intros r [<-|Hr]; simpl; [|exact (is_live Q1 _ Hr)].
      apply (is_ph Q1 t (n := n) (a := v)). auto.
    + intros t0 m b k d Hp Hk. destruct (Nat.eqb_spec t0 t) as [->|N]; [discriminate|].
      exact (is_got Q1 _ _ Hp Hk).
  - eapply phase_keep with (t := t) (s := s) (ss := ss); auto.
    + exact (inv_phase HI).
    + rewrite Et. exact Ept.
Qed.

Lemma case_read i :
  PC s t = Idle -> In i (REFS s t) ->
  exists a, n_cell (nodes s i) = Full a /\ sruns cap ss [LRead t i a] ss.
Proof.
  intros E Hin. destruct (iv_refs (inv_live HI) _ _ Hin) as (n & a & Hl & Hc).
  exists a. split; [exact Hc|]. apply runs1. econstructor. exact Hl.
Qed.

Lemma case_rel i :
  PC s t = Idle -> In i (REFS s t) ->
  exists ss', sruns cap ss [LRel t i] ss' /\
  Inv cap (set_thr (set_node s i {| n_busy := false; n_cell := n_cell (nodes s i) |})
                   t Idle (remove Nat.eq_dec i (REFS s t))) ss'.
Proof.
  intros E Hin.
  pose proof (inv_cell HI) as C1. pose proof (inv_live HI) as V1. pose proof (inv_seq HI) as Q1.
  destruct (iv_refs V1 _ _ Hin) as (n & a & Hl & Hc).
  apply in_split in Hl. destruct Hl as (l1 & l2 & El).
  set (ss' := {| s_items := s_items ss; s_next := s_next ss; s_phase := s_phase ss;
                 s_live := l1 ++ l2 |}).
  exists ss'. split. { apply runs1. econstructor. exact El. }
  set (s' := set_thr _ t _ _).
  assert (Eo : forall t', PC s' t' = PC s t').
  { intros t'. uu. unfold upd. destruct (Nat.eqb_spec t' t) as [->|]; auto. }
  assert (Ero : forall t', t' <> t -> REFS s' t' = REFS s t') by t_other.
  assert (Ert : REFS s' t = remove Nat.eq_dec i (REFS s t)) by (t_pc; reflexivity).
  assert (Ec : forall j, n_cell (nodes s' j) = n_cell (nodes s j)) by t_cell.
  assert (Hsub : forall r, In r (l1 ++ l2) -> In r (s_live ss)).
  { intros r Hr. rewrite El. apply in_app_or in Hr. apply in_or_app. simpl. tauto. }
  pose proof (iv_nodup V1) as ND. rewrite El, map_app in ND. simpl in ND.
  assert (Hni : forall r, In r (l1 ++ l2) -> r_slot r <> i).
  { intros r Hr Hi. apply NoDup_remove_2 in ND. apply ND.
    rewrite <- map_app. apply in_map_iff. exists r. auto. }
  split.
  - eapply lock_keep with (t := t); [exact HL|reflexivity|intros; apply Eo|].
    rewrite Eo. reflexivity.
  - simpl. eapply idx_keep with (t := t); [exact HX|..]; try reflexivity;
      [intros; apply Eo|rewrite E; reflexivity|].
    rewrite Eo, E. exact I.
  - eapply hold_rel with (t := t) (i := i); [exact HH|exact Hin|rewrite E; reflexivity|..].
    + uu. rewrite upd_same. reflexivity.
    + t_other.
    + exact Eo.
    + exact Ero.
    + exact Ert.
  - eapply cell_keep; [exact C1|reflexivity|reflexivity|exact Ec|..].
    + intros. rewrite Eo. tauto.
    + intros. reflexivity.
  - split.
    + intros t0 j Hj.
      assert (Hj' : In j (REFS s t0) /\ j <> i).
      { destruct (Nat.eq_dec t0 t) as [->|N].
        - rewrite Ert in Hj. apply in_remove in Hj. tauto.
        - rewrite Ero in Hj by auto. split; auto. intros ->. apply N.
          apply (ih_uniq HH) with (i := i); right; assumption. }
      destruct Hj' as [Hj' Nj].
      destruct (iv_refs V1 _ _ Hj') as (m & b & Hl & Hcb).
      exists m, b. rewrite Ec. split; [|exact Hcb]. simpl.
      rewrite El in Hl. apply in_app_or in Hl. apply in_or_app. simpl in Hl.
      destruct Hl as [Hl|[Hl|Hl]]; auto. injection Hl as _ E2 _ _. congruence.
    + intros r Hr. simpl in Hr. rewrite Ec.
      destruct (iv_live V1 _ (Hsub _ Hr)) as [Hrin Hrc]. split; [|exact Hrc].
      destruct (Nat.eq_dec (r_thr r) t) as [Et'|N].
      * rewrite Et', Ert. apply in_in_remove; [exact (Hni _ Hr)|]. rewrite <- Et'. exact Hrin.
      * rewrite Ero by auto. exact Hrin.
    + simpl. rewrite map_app. eapply NoDup_remove_1; eauto.
    + simpl. intros r k m b Hr. apply (iv_num V1). apply Hsub. exact Hr.
  - split; simpl.
    + exact (is_lt Q1).
    + exact (is_nodup Q1).
    + exact (is_ph Q1).
    + intros r Hr. apply (is_live Q1). apply Hsub. exact Hr.
    + exact (is_got Q1).
  - intros t'. rewrite Eo. pose proof (inv_phase HI t') as Ht'.
    destruct (PC s t') eqn:Ep; simpl in *; auto;
      destruct Ht' as (m & b & Hp & Hcb); exists m, b; split; auto; rewrite Ec; auto.
Qed.


Ltac sim_ok s' tr ss' := exists s', tr, ss'; split; [|split].
Ltac start E := unfold simulates, step; change (t_pc (thr s t)) with (PC s t); rewrite E.
Ltac fin E := try (rewrite E; reflexivity); try reflexivity; try exact I;
  try (intros ? ? ?HB; unfold builds in HB; try rewrite E in HB; intuition congruence).

Lemma sim_call o p (c : choice) :
  PC s t = Idle -> inCS p = false -> pcslot p = None -> idx_free p -> mid p = false ->
  (forall i a, ~ builds p i a) ->
  (forall s', phase_ok s' p (PhCalled o)) ->
  step cap s t c = Ok (set_pc s t p) [LInv t o] -> simulates cap s ss t c.
Proof.
  intros E Hc Hs Hf Hm Hb Hph Hst. destruct (@case_call o p E Hc Hs Hf Hm Hb Hph) as [HI' Hn].
  sim_ok (set_pc s t p) [LInv t o] (set_phase ss t (PhCalled o)); auto.
  apply runs1. constructor. exact Hn.
Qed.

Lemma sim_spin p (c : choice) :
  inCS (PC s t) = false -> inCS p = true ->
  pcslot p = None -> pcslot (PC s t) = None -> idx_free p -> mid (PC s t) = false ->
  (forall i a, ~ builds p i a) -> (forall i a, ~ builds (PC s t) i a) ->
  (forall s', phase_ok s (PC s t) (s_phase ss t) -> phase_ok s' p (s_phase ss t)) ->
  step cap s t c = (if g_busy s then Ok s [] else Ok (set_pc (set_lock s true) t p) []) ->
  simulates cap s ss t c.
Proof.
  intros H1 H2 H3 H4 H5 H6 H7 H8 H9 Hst. destruct (g_busy s) eqn:Eb.
  - sim_ok s (@nil (label A)) ss; auto. constructor.
  - sim_ok (set_pc (set_lock s true) t p) (@nil (label A)) ss; auto; [constructor|].
    apply case_acquire; auto.
Qed.

(** The lock holder leaves with an answer or goes back to spinning. *)
Lemma sim_leave p l ss' (c : choice) :
  inCS (PC s t) = true -> inCS p = false ->
  pcslot p = pcslot (PC s t) -> idx_free p -> mid (PC s t) = false ->
  (forall i a, builds p i a <-> builds (PC s t) i a) ->
  s_items ss' = s_items ss -> s_next ss' = s_next ss -> s_live ss' = s_live ss ->
  (forall t', t' <> t -> s_phase ss' t' = s_phase ss t') ->
  (forall n a, s_phase ss' t = PhPut n a <-> s_phase ss t = PhPut n a) ->
  (forall n a, s_phase ss' t = PhGot n a <-> s_phase ss t = PhGot n a) ->
  phase_ok (set_pc (set_lock s false) t p) p (s_phase ss' t) ->
  sruns cap ss l ss' ->
  step cap s t c = Ok (set_pc (set_lock s false) t p) l -> simulates cap s ss t c.
Proof.
  intros H1 H2 H3 H4 H5 H6 H7 H8 H9 H10 H11 H12 H13 Hr Hst.
  sim_ok (set_pc (set_lock s false) t p) l ss'; auto.
  apply case_release; auto.
Qed.

Lemma full_iff : inCS (PC s t) = true -> mid (PC s t) = false ->
  (Nat.eqb (g_pop s) (g_push s) && negb (Nat.eqb (g_size s) 0) = true <->
   length (s_items ss) = cap).
Proof.
  intros Hin Hm. rewrite (size_len Hin Hm).
  pose proof (ii_cap HX) as H0. pose proof (ii_pop HX) as H1.
  pose proof (ii_rel HX) as H2. pose proof (ii_len HX) as H3.
  rewrite andb_true_iff, negb_true_iff, Nat.eqb_eq, Nat.eqb_neq, H2. split.
  - intros [Ha Hb]. destruct (@slot_eq_pop cap (g_pop s) (length (s_items ss))); auto. lia.
  - intros ->. split; [|lia]. unfold slot.
    rewrite <- (Nat.mul_1_l cap) at 1. rewrite Nat.mod_add by lia.
    symmetry. apply Nat.mod_small. exact H1.
Qed.

Lemma empty_iff : inCS (PC s t) = true -> mid (PC s t) = false ->
  (Nat.eqb (g_push s) (g_pop s) && Nat.eqb (g_size s) 0 = true <-> s_items ss = []).
Proof.
  intros Hin Hm. rewrite (size_len Hin Hm).
  pose proof (ii_pop HX) as H1. pose proof (ii_rel HX) as H2.
  rewrite andb_true_iff, !Nat.eqb_eq, H2. split.
  - intros [_ Hb]. destruct (s_items ss); [reflexivity|discriminate].
  - intros ->. split; [|reflexivity]. apply slot_0. exact H1.
Qed.

Lemma step_sim (c : choice) : simulates cap s ss t c.
Proof.
  pose proof HP as P0. destruct (PC s t) as [] eqn:E; simpl in P0.
  - (* Idle *)
    destruct c as [a| |q|i|i].
    + apply sim_call with (o := OPut a) (p := PSpin a); fin E;
        start E; reflexivity.
    + apply sim_call with (o := OGet) (p := GSpin); fin E; start E; reflexivity.
    + apply sim_call with (o := OQuery q) (p := QSpin q); fin E; start E; reflexivity.
    + start E. change (t_refs (thr s t)) with (REFS s t).
      destruct (in_dec Nat.eq_dec i (REFS s t)) as [Hin|Hn].
      * destruct (case_read _ E Hin) as (a & Ea & Hr). rewrite Ea.
        sim_ok s [LRead t i a] ss; auto.
      * sim_ok s (@nil (label A)) ss; auto. constructor.
    + start E. change (t_refs (thr s t)) with (REFS s t).
      destruct (in_dec Nat.eq_dec i (REFS s t)) as [Hin|Hn].
      * destruct (case_rel _ E Hin) as (ss' & Hr & HI').
        eexists _, _, ss'. split; [reflexivity|]. split; [exact Hr|exact HI'].
      * sim_ok s (@nil (label A)) ss; auto. constructor.
  - (* PSpin *)
    apply sim_spin with (p := PCheck a); fin E.
    + intros s'. rewrite E. simpl. auto.
    + start E. reflexivity.
  - (* PCheck *)
    assert (Hin : inCS (PC s t) = true) by (rewrite E; reflexivity).
    assert (Hm : mid (PC s t) = false) by (rewrite E; reflexivity).
    pose proof (full_iff Hin Hm) as Hf. start E.
    destruct (Nat.eqb (g_pop s) (g_push s) && negb (Nat.eqb (g_size s) 0)) eqn:Eb.
    + sim_ok (set_pc s t PFullClear) [@LLin A t] (set_phase ss t PhRefused); [reflexivity| |].
      * apply runs1. eapply S_put_full; [exact P0|]. apply Hf. reflexivity.
      * apply case_cs; fin E.
        -- apply idx_cs; fin E.
        -- t_phase_other.
        -- t_ph P0.
        -- t_ph P0.
        -- simpl. rewrite Nat.eqb_refl. reflexivity.
    + assert (Hlt : length (s_items ss) < cap).
      { pose proof (ii_len HX). destruct (Nat.eq_dec (length (s_items ss)) cap) as [C|C]; [|lia].
        apply Hf in C. discriminate. }
      sim_ok (set_pc s t (PTake a)) (@nil (label A)) ss; [reflexivity|constructor|].
      apply case_cs; fin E; try tauto; try exact P0.
      * apply idx_cs_gen with (p := PTake a); fin E; try (intros; discriminate); try lia.
        -- t_other.
        -- t_pc. reflexivity.
        -- exact (ii_push HX).
        -- exact (ii_pop HX).
        -- exact (ii_rel HX).
        -- intros _. exact (size_len Hin Hm).
  - (* PFullClear *)
    apply sim_leave with (p := Idle) (l := [@LRet A t RNone]) (ss' := set_phase ss t PhNone); fin E.
    + intros. rewrite E. unfold builds. intuition congruence.
    + t_phase_other.
    + t_ph P0.
    + t_ph P0.
    + simpl. rewrite Nat.eqb_refl. reflexivity.
    + apply runs1. constructor. exact P0.
    + start E. reflexivity.
  - (* PTake *)
    pose proof (ii_push HX) as Hlt. pose proof (proj2 (Nat.ltb_lt _ _) Hlt) as Hltb.
    start E. rewrite Hltb. destruct (n_busy (nodes s (g_push s))) eqn:Eb.
    + sim_ok (set_pc s t (PBusyClear a)) (@nil (label A)) ss; [reflexivity|constructor|].
      apply case_cs; fin E; try tauto; try exact P0.
      * apply idx_cs; fin E.
    + eexists _, _, ss. split; [reflexivity|]. split; [constructor|].
      apply case_ptake_ok; auto.
  - (* PBusyClear *)
    apply sim_leave with (p := PSpin a) (l := []) (ss' := ss); fin E; try tauto; try exact P0.
    + intros. rewrite E. unfold builds. intuition congruence.
    + constructor.
    + start E. reflexivity.
  - (* PAdv *)
    destruct (case_padv E) as (H0 & ss' & Hr & HI'). start E. rewrite H0.
    eexists _, _, ss'. split; [reflexivity|]. split; [exact Hr|exact HI'].
  - (* PInc *)
    destruct (case_pinc E) as (H0 & HI'). start E. rewrite H0.
    eexists _, _, ss. split; [reflexivity|]. split; [constructor|exact HI'].
  - (* PUnlock *)
    apply sim_leave with (p := PBuild a i) (l := []) (ss' := ss); fin E; try tauto; try exact P0.
    + intros. rewrite E. unfold builds. intuition congruence.
    + constructor.
    + start E. reflexivity.
  - (* PBuild *)
    start E. eexists _, _, ss. split; [reflexivity|]. split; [constructor|].
    apply case_pbuild. exact E.
  - (* PBuilt *)
    destruct (case_pbuilt E) as (ss' & Hr & HI'). start E.
    eexists _, _, ss'. split; [reflexivity|]. split; [exact Hr|exact HI'].
  - (* GSpin *)
    apply sim_spin with (p := GCheck); fin E.
    + intros s'. rewrite E. simpl. auto.
    + start E. reflexivity.
  - (* GCheck *)
    assert (Hin : inCS (PC s t) = true) by (rewrite E; reflexivity).
    assert (Hm : mid (PC s t) = false) by (rewrite E; reflexivity).
    pose proof (empty_iff Hin Hm) as Hf. start E.
    destruct (Nat.eqb (g_push s) (g_pop s) && Nat.eqb (g_size s) 0) eqn:Eb.
    + sim_ok (set_pc s t GEmptyClear) [@LLin A t] (set_phase ss t PhRefused); [reflexivity| |].
      * apply runs1. eapply S_get_empty; [exact P0|]. apply Hf. reflexivity.
      * apply case_cs; fin E.
        -- apply idx_cs; fin E.
        -- t_phase_other.
        -- t_ph P0.
        -- t_ph P0.
        -- simpl. rewrite Nat.eqb_refl. reflexivity.
    + assert (Hlt : 0 < length (s_items ss)).
      { destruct (s_items ss) eqn:C; [|simpl; lia]. assert (X : false = true) by (apply Hf; reflexivity).
        discriminate. }
      sim_ok (set_pc s t GTake) (@nil (label A)) ss; [reflexivity|constructor|].
      apply case_cs; fin E; try tauto; try exact P0.
      * apply idx_cs_gen with (p := GTake); fin E; try (intros; discriminate); try lia.
        -- t_other.
        -- t_pc. reflexivity.
        -- exact (ii_push HX).
        -- exact (ii_pop HX).
        -- exact (ii_len HX).
        -- exact (ii_rel HX).
        -- intros _. exact (size_len Hin Hm).
  - (* GEmptyClear *)
    apply sim_leave with (p := Idle) (l := [@LRet A t RNone]) (ss' := set_phase ss t PhNone); fin E.
    + intros. rewrite E. unfold builds. intuition congruence.
    + t_phase_other.
    + t_ph P0.
    + t_ph P0.
    + simpl. rewrite Nat.eqb_refl. reflexivity.
    + apply runs1. constructor. exact P0.
    + start E. reflexivity.
  - (* GTake *)
    pose proof (ii_pop HX) as Hlt. pose proof (proj2 (Nat.ltb_lt _ _) Hlt) as Hltb.
    start E. rewrite Hltb. destruct (n_busy (nodes s (g_pop s))) eqn:Eb.
    + sim_ok (set_pc s t (GBusyClear)) (@nil (label A)) ss; [reflexivity|constructor|].
      apply case_cs; fin E; try tauto; try exact P0.
      * apply idx_cs; fin E.
    + eexists _, _, ss. split; [reflexivity|]. split; [constructor|].
      apply case_gtake_ok; auto.
  - (* GBusyClear *)
    apply sim_leave with (p := GSpin) (l := []) (ss' := ss); fin E; try tauto; try exact P0.
    + intros. rewrite E. unfold builds. intuition congruence.
    + constructor.
    + start E. reflexivity.
  - (* GAdv *)
    destruct (case_gadv E) as (H0 & ss' & Hr & HI'). start E. rewrite H0.
    eexists _, _, ss'. split; [reflexivity|]. split; [exact Hr|exact HI'].
  - (* GDec *)
    destruct (case_gdec E) as (H0 & HI'). start E. rewrite H0.
    eexists _, _, ss. split; [reflexivity|]. split; [constructor|exact HI'].
  - (* GUnlock *)
    destruct (case_gunlock E) as (ss' & Hr & HI'). start E.
    eexists _, _, ss'. split; [reflexivity|]. split; [exact Hr|exact HI'].
  - (* QSpin *)
    apply sim_spin with (p := QRead q); fin E.
    + intros s'. rewrite E. simpl. auto.
    + start E. reflexivity.
  - (* QRead *)
    assert (Hin : inCS (PC s t) = true) by (rewrite E; reflexivity).
    assert (Hm : mid (PC s t) = false) by (rewrite E; reflexivity).
    pose proof (size_len Hin Hm) as Hs. start E. cbv zeta.
    set (r := match q with QSize => _ | QAvail => _ | QCapacity => _ end).
    assert (Er : r = query_answer cap (length (s_items ss)) q).
    { unfold r. rewrite Hs. destruct q; reflexivity. }
    sim_ok (set_pc s t (QClear q r)) [@LLin A t] (set_phase ss t (PhNum r)); [reflexivity| |].
    + apply runs1. rewrite Er. apply S_query. exact P0.
    + apply case_cs; fin E.
      * apply idx_cs; fin E.
      * t_phase_other.
      * t_ph P0.
      * t_ph P0.
      * simpl. rewrite Nat.eqb_refl. reflexivity.
  - (* QClear *)
    apply sim_leave with (p := Idle) (l := [@LRet A t (RNum r)]) (ss' := set_phase ss t PhNone); fin E.
    + intros. rewrite E. unfold builds. intuition congruence.
    + t_phase_other.
    + t_ph P0.
    + t_ph P0.
    + simpl. rewrite Nat.eqb_refl. reflexivity.
    + apply runs1. constructor. exact P0.
    + start E. reflexivity.
Qed.

End Cases.

(** ** Executions *)

Lemma sruns_app cap (a b c : sstate) l1 l2 :
  sruns cap a l1 b -> sruns cap b l2 c -> sruns cap a (l1 ++ l2) c.
Proof. induction 1; simpl; intros; [assumption|]. econstructor; eauto. Qed.

Lemma exec_sim cap sched : forall s ss, Inv cap s ss ->
  exists s' tr ss', exec cap s sched = Ok s' tr /\ sruns cap ss tr ss' /\ Inv cap s' ss'.
Proof.
  induction sched as [|[t c] rest IH]; intros s ss HI.
  - exists s, [], ss. split; [reflexivity|]. split; [constructor|exact HI].
  - destruct (step_sim t HI c) as (s1 & tr1 & ss1 & E1 & R1 & I1).
    destruct (IH _ _ I1) as (s2 & tr2 & ss2 & E2 & R2 & I2).
    exists s2, (tr1 ++ tr2), ss2. simpl. rewrite E1, E2.
    split; [reflexivity|]. split; [eapply sruns_app; eauto|exact I2].
Qed.

Lemma exec_init cap sched : 0 < cap ->
  exists s tr ss, exec cap init sched = Ok s tr /\ sruns cap s_init tr ss /\ Inv cap s ss.
Proof. intros H. apply exec_sim. apply inv_init. exact H. Qed.

End Proofs.
