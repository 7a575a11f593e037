(** * Calls of the logging system do not interleave *)

From Coq Require Import List Arith Bool Lia.
From Verif Require Import RaceModel RaceSpec RaceProofs RaceRun.
Import ListNotations.

(** Between its first and its last item the program keeps the lock. *)
Fixpoint keeps (d : nat) (l : list item) : bool :=
  match l with
  | [] => true
  | Lock :: l => keeps (S d) l
  | Unlock :: l => match l with [] => true | _ => Nat.ltb 1 d && keeps (pred d) l end
  | _ :: l => Nat.ltb 0 d && keeps d l
  end.

Lemma section_keeps a : one_section a -> keeps 0 (prog a) = true.
Proof.
  destruct a; simpl; try contradiction; try reflexivity;
    try (destruct parent; try contradiction; destruct sink; try contradiction; reflexivity).
Qed.

Lemma keeps_at p : forall d l, keeps d (p ++ l) = true -> p <> [] -> l <> [] -> 0 < dpt d p.
Proof.
  induction p as [|i p IH]; intros d l H Np Nl; [congruence|].
  destruct p as [|j p].
  - simpl in *. destruct i; simpl in *; try lia.
    + destruct l; [congruence|]. apply andb_true_iff in H as [H _]. apply Nat.ltb_lt in H. lia.
    + apply andb_true_iff in H as [H _]. apply Nat.ltb_lt in H. exact H.
    + apply andb_true_iff in H as [H _]. apply Nat.ltb_lt in H. exact H.
  - assert (N : j :: p <> []) by discriminate.
    change ((i :: j :: p) ++ l) with (i :: (j :: p) ++ l) in H.
    destruct i; cbn [keeps dpt] in *.
    + exact (IH _ _ H N Nl).
    + simpl ((j :: p) ++ l) in H. cbv iota in H. apply andb_true_iff in H as [_ H].
      exact (IH _ _ H N Nl).
    + apply andb_true_iff in H as [_ H]. exact (IH _ _ H N Nl).
    + apply andb_true_iff in H as [_ H]. exact (IH _ _ H N Nl).
Qed.

(** Thread [t] is inside its call, past its first item. *)
Definition inside (s : state) (t : nat) : Prop :=
  exists a p l, nth_error (ths s) t = Some (mkTh a l) /\ prog a = p ++ l /\ p <> [].

Lemma inside_step s m t : inside s t -> (forall a, m <> MStart t a) -> rinv s -> inside (step s m) t \/
  exists a, nth_error (ths (step s m)) t = Some (mkTh a []).
Proof.
  intros (a & p & l & H & E & N) S I.
  destruct m as [u b|u|u k x|u]; cbn [step].
  - destruct (nth_error (ths s) u) as [th|] eqn:Hu; [|left; exists a, p, l; auto].
    destruct (th_todo th) eqn:Ht; [|left; exists a, p, l; auto]. cbn [ths].
    destruct (Nat.eq_dec u t) as [->|Ne]; [destruct (S b); reflexivity|].
    left. exists a, p, l. cbn [ths]. rewrite set_th_other by auto. auto.
  - destruct (nth_error (ths s) u) as [th|] eqn:Hu; [|left; exists a, p, l; auto].
    destruct (Nat.eq_dec u t) as [->|Ne].
    + rewrite H in Hu. injection Hu as <-. cbn [th_todo th_api].
      assert (L : t < length (ths s)) by (apply nth_error_Some; congruence).
      destruct l as [|i l]; [left; exists a, p, []; auto|].
      assert (G : forall o, inside (mkSt o (set_th (ths s) t (mkTh a l))) t).
      { intros o. exists a, (p ++ [i]), l. cbn [ths]. rewrite set_th_same by exact L.
        rewrite <- app_assoc. split; [auto|]. split; [exact E|]. destruct p; discriminate. }
      destruct i; try (left; apply G). destruct (can_lock s t); left; [apply G|].
      exists a, p, (Lock :: l). auto.
    + left. exists a, p, l. destruct (th_todo th) as [|[] ?]; auto; try (destruct (can_lock s u); auto);
        cbn [ths]; rewrite set_th_other by auto; auto.
  - left. exists a, p, l. auto.
  - destruct (nth_error (ths s) u) as [th|] eqn:Hu; [|left; exists a, p, l; auto]. cbn [ths].
    destruct (Nat.eq_dec u t) as [->|Ne].
    + right. exists (th_api th). rewrite set_th_same; [reflexivity|apply nth_error_Some; congruence].
    + left. exists a, p, l. cbn [ths]. rewrite set_th_other by auto. auto.
Qed.

Lemma done_step s m t a : nth_error (ths s) t = Some (mkTh a []) -> (forall a, m <> MStart t a) ->
  exists b, nth_error (ths (step s m)) t = Some (mkTh b []).
Proof.
  intros H S. destruct m as [u b|u|u k x|u]; cbn [step]; eauto.
  - destruct (nth_error (ths s) u) as [th|] eqn:Hu; eauto. destruct (th_todo th); eauto. cbn [ths].
    destruct (Nat.eq_dec u t) as [->|Ne]; [destruct (S b); reflexivity|]. rewrite set_th_other by auto. eauto.
  - destruct (nth_error (ths s) u) as [th|] eqn:Hu; eauto.
    destruct (Nat.eq_dec u t) as [->|Ne].
    + rewrite H in Hu. injection Hu as <-. cbn [th_todo]. eauto.
    + destruct (th_todo th) as [|[] ?]; eauto; try (destruct (can_lock s u); eauto); cbn [ths]; rewrite set_th_other by auto; eauto.
  - destruct (nth_error (ths s) u) as [th|] eqn:Hu; eauto. cbn [ths].
    destruct (Nat.eq_dec u t) as [->|Ne].
    + rewrite H in Hu. injection Hu as <-. rewrite set_th_same; [eauto|apply nth_error_Some; congruence].
    + rewrite set_th_other by auto. eauto.
Qed.

Lemma inside_exec ms : forall s t, rinv s ->
  inside s t \/ (exists a, nth_error (ths s) t = Some (mkTh a [])) ->
  Forall (fun m => forall a, m <> MStart t a) ms ->
  (inside (exec s ms) t \/ (exists a, nth_error (ths (exec s ms)) t = Some (mkTh a []))) /\ rinv (exec s ms).
Proof.
  induction ms as [|m ms IH]; intros s t I H F; [auto|]. inversion F; subst. simpl.
  apply IH; auto; [apply step_rinv, I|].
  destruct H as [H|[a H]]; [apply inside_step; auto|right; eapply done_step; eauto].
Qed.

Lemma access_inside n (ok : nat -> api -> Prop) s t k x : (forall t a, ok t a -> one_section a) -> reaches n ok s -> about_to s t k x -> inside s t.
Proof.
  intros O R (a & i & l & H & D). destruct (reach_inv n ok s R) as [[I _] Cs].
  destruct (th_ok_next s t _ i l (I t _ H) eq_refl) as (p & E & Hh & _). cbn [th_api] in E.
  exists a, p, (i :: l). split; [exact H|]. split; [exact E|]. intros ->. cbn in E.
  assert (Cok : ok t a) by (apply (proj2 Cs t a _ H); discriminate).
  pose proof (section_keeps a (O t a Cok)) as K. rewrite E in K.
  destruct i; simpl in D; try discriminate; simpl in K; discriminate.
Qed.

Lemma inside_owns n (ok : nat -> api -> Prop) s t i : (forall t a, ok t a -> one_section a) -> reaches n ok s -> inside s t ->
  (exists a l, nth_error (ths s) t = Some (mkTh a (i :: l))) -> 0 < held s t.
Proof.
  intros O R (a & p & l & H & E & N) (a' & l' & H'). rewrite H in H'. injection H' as <- ->.
  destruct (reach_inv n ok s R) as [[I _] Cs].
  destruct (th_ok_next s t _ i l' (I t _ H) eq_refl) as (p' & E' & Hh & _). cbn [th_api] in E'.
  rewrite E in E'. apply app_inv_tail in E'. subst p'. rewrite Hh.
  assert (Cok : ok t a) by (apply (proj2 Cs t a _ H); discriminate).
  apply (keeps_at p 0 (i :: l')); [|exact N|discriminate]. rewrite <- E. apply section_keeps. exact (O t a Cok).
Qed.

Lemma reach_exec n ok s ms : reaches n ok s -> Forall (starts_ok ok) ms -> reaches n ok (exec s ms).
Proof. intros (l & F & <-) G. exists (l ++ ms). split; [apply Forall_app; auto|]. apply exec_app. Qed.

Lemma access_about s m t : accesses s m t -> exists k x, about_to s t k x.
Proof. destruct m; simpl; try contradiction; intros [-> H]; eauto. Qed.

Lemma one_at_a_time n (ok : nat -> api -> Prop) s m ms m' ms' m'' t u :
  (forall t a, ok t a -> one_section a) -> reaches n ok s -> Forall (starts_ok ok) (m :: ms ++ m' :: ms') ->
  Forall (fun m => forall a, m <> MStart t a) (ms ++ m' :: ms') ->
  accesses s m t -> accesses (exec s (m :: ms)) m' u -> accesses (exec s (m :: ms ++ m' :: ms')) m'' t -> u = t.
Proof.
  intros O R F NS A1 A2 A3.
  destruct (access_about _ _ _ A1) as (k1 & x1 & B1). destruct (access_about _ _ _ A2) as (k2 & x2 & B2).
  destruct (access_about _ _ _ A3) as (k3 & x3 & B3).
  pose proof (access_inside n ok s t k1 x1 O R B1) as I1.
  destruct (reach_inv n ok s R) as [RI _].
  assert (N1 : Forall (fun m => forall a, m <> MStart t a) (m :: ms)).
  { constructor; [|apply Forall_app in NS; apply NS]. intros a ->. exact A1. }
  destruct (inside_exec (m :: ms) s t RI (or_introl I1) N1) as [I2 RI2].
  assert (F2 : Forall (starts_ok ok) (m :: ms)).
  { inversion F; subst. constructor; auto. apply Forall_app in H2. apply H2. }
  pose proof (reach_exec n ok s _ R F2) as R2.
  assert (L : forall a, nth_error (ths (exec s (m :: ms))) t <> Some (mkTh a [])).
  { intros a H. change (m :: ms ++ m' :: ms') with ((m :: ms) ++ m' :: ms') in B3. rewrite exec_app in B3.
    apply Forall_app in NS as [_ NS].
    assert (G : forall ms s a, nth_error (ths s) t = Some (mkTh a []) -> Forall (fun m => forall a, m <> MStart t a) ms ->
                exists b, nth_error (ths (exec s ms)) t = Some (mkTh b [])).
    { clear. induction ms as [|m ms IH]; intros s a H F; [exists a; exact H|]. inversion F; subst.
      destruct (done_step s m t a H H2) as [b Hb]. exact (IH _ b Hb H3). }
    destruct (G _ _ a H NS) as [b Hb]. destruct B3 as (a3 & i3 & l3 & H3 & _). congruence. }
  destruct I2 as [I2|[a I2]]; [|destruct (L a I2)].
  assert (exists i a l, nth_error (ths (exec s (m :: ms))) t = Some (mkTh a (i :: l))) as (i & a & l & Hi).
  { destruct I2 as (a & p & l & H & _). destruct l as [|i l]; [destruct (L a H)|eauto]. }
  pose proof (inside_owns n ok _ t i O R2 I2 (ex_intro _ a (ex_intro _ l Hi))) as Ht.
  destruct B2 as (b & j & lu & Hu & D).
  pose proof (access_inside n ok _ u k2 x2 O R2 (ex_intro _ b (ex_intro _ j (ex_intro _ lu (conj Hu D))))) as Iu.
  pose proof (inside_owns n ok _ u j O R2 Iu (ex_intro _ b (ex_intro _ lu Hu))) as Hh.
  destruct (Nat.eq_dec u t) as [->|Ne]; [reflexivity|].
  destruct (held_le (exec s (m :: ms)) u t Ne); lia.
Qed.
