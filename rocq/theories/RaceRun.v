(** * Proofs for C87: threads *)

From Coq Require Import List Arith Bool Lia.
From Verif Require Import RaceModel RaceSpec RaceProofs.
Import ListNotations.

Lemma access_acc a k x : may_access a k x <-> acc_at false 0 (prog a) k x = true.
Proof. destruct k; [apply read_acc | apply write_acc]. Qed.

Lemma access_split a k x :
  may_access a k x <-> exists p i q, prog a = p ++ i :: q /\ does i k x = true.
Proof.
  rewrite access_acc, acc_at_spec. split; intros (p & i & q & H).
  - exists p, i, q. tauto.
  - exists p, i, q. repeat split; try apply H. discriminate.
Qed.

Lemma unguarded_split a k x :
  In (k, x) (unguarded a) <-> exists p i q, prog a = p ++ i :: q /\ does i k x = true /\ dpt 0 p = 0.
Proof.
  rewrite unguarded_acc, acc_at_spec. split; intros (p & i & q & H); exists p, i, q; tauto.
Qed.

(** ** Updating a thread *)

Lemma set_th_len l i x : length (set_th l i x) = length l.
Proof. revert i. induction l; intros [|i]; simpl; auto. Qed.
Lemma set_th_same l i x : i < length l -> nth_error (set_th l i x) i = Some x.
Proof. revert i. induction l; intros [|i]; simpl; intros; try lia; auto. apply IHl. lia. Qed.
Lemma set_th_other l i j x : i <> j -> nth_error (set_th l i x) j = nth_error l j.
Proof. revert i j. induction l; intros [|i] [|j]; simpl; intros; try congruence; auto. Qed.

(** ** The invariant *)

Definition held (s : state) (t : nat) : nat :=
  match owner s with Some (u, d) => if Nat.eqb u t then d else 0 | None => 0 end.

Definition th_ok (s : state) (t : nat) (th : thread) : Prop :=
  (exists p, prog (th_api th) = p ++ th_todo th /\ held s t = dpt 0 p) \/
  (th_todo th = [] /\ held s t = 0).

Definition rinv (s : state) : Prop :=
  (forall t th, nth_error (ths s) t = Some th -> th_ok s t th) /\
  (forall u d, owner s = Some (u, d) -> 0 < d /\ u < length (ths s)).

Lemma rinv_init n : rinv (init n).
Proof.
  split; [|discriminate]. intros t th H. right.
  apply nth_error_In, repeat_spec in H. subst. auto.
Qed.

Lemma wl_dpt d l : wl d l = true -> dpt d l = 0.
Proof.
  revert d. induction l as [|[] l IH]; intros d H; simpl in *; auto.
  - apply Nat.eqb_eq, H.
  - apply andb_true_iff in H. apply IH, H.
Qed.

Lemma th_ok_idle s t th : th_ok s t th -> th_todo th = [] -> held s t = 0.
Proof.
  intros [(p & E & D)|[_ D]] N; auto. rewrite N, app_nil_r in E.
  rewrite D, <- E. apply wl_dpt, prog_wl.
Qed.

Lemma th_ok_next s t th i l :
  th_ok s t th -> th_todo th = i :: l ->
  exists p, prog (th_api th) = p ++ i :: l /\ held s t = dpt 0 p /\ wl (dpt 0 p) (i :: l) = true.
Proof.
  intros [(p & E & D)|[N _]] T; [|congruence]. rewrite T in E. exists p. repeat split; auto.
  apply wl_app. rewrite <- E. apply prog_wl.
Qed.

Lemma held_le s t u : t <> u -> held s t = 0 \/ held s u = 0.
Proof.
  intros N. unfold held. destruct (owner s) as [[v d]|]; auto.
  destruct (Nat.eqb_spec v t), (Nat.eqb_spec v u); subst; auto; congruence.
Qed.

Ltac upd t t' :=
  destruct (Nat.eq_dec t t') as [->|];
  [rewrite set_th_same in * by (apply nth_error_Some; congruence)
  |rewrite set_th_other in * by auto].

(** Threads other than the one that moves keep their depth. *)
Lemma keep_ok s t o' l :
  rinv s ->
  (forall u th, u <> t -> nth_error l u = Some th -> nth_error (ths s) u = Some th) ->
  (forall u, u <> t -> held (mkSt o' l) u = held s u) ->
  (forall th, nth_error l t = Some th -> th_ok (mkSt o' l) t th) ->
  length l = length (ths s) ->
  (forall u d, o' = Some (u, d) -> 0 < d /\ u < length (ths s)) ->
  rinv (mkSt o' l).
Proof.
  intros [I _] A B C L D. split; [|simpl; rewrite L; exact D]. intros u th H.
  destruct (Nat.eq_dec u t) as [->|N]; [apply C, H|].
  simpl in H. apply A in H; auto. apply I in H. unfold th_ok in *. rewrite B; auto.
Qed.

Lemma step_rinv s m : rinv s -> rinv (step s m).
Proof.
  intros I. destruct m as [t a|t|t k x|t]; simpl; auto;
    destruct (nth_error (ths s) t) as [th|] eqn:E; auto; pose proof (proj1 I t th E) as K.
  - destruct (th_todo th) eqn:T; auto. apply keep_ok with (s := s) (t := t); auto.
    + intros u th' N H. rewrite set_th_other in H; auto.
    + intros th' H. rewrite set_th_same in H by (apply nth_error_Some; congruence).
      inversion H; subst. left. exists []. split; auto. simpl.
      apply (th_ok_idle s t th K T).
    + apply set_th_len.
    + apply I.
  - destruct (th_todo th) as [|i l] eqn:T; auto.
    destruct (th_ok_next s t th i l K T) as (p & P & D & L).
    assert (Q : forall u th' x, u <> t -> nth_error (set_th (ths s) t x) u = Some th' -> nth_error (ths s) u = Some th')
      by (intros u th' x N H; rewrite set_th_other in H; auto).
    assert (LT : t < length (ths s)) by (apply nth_error_Some; congruence).
    destruct i.
    + unfold can_lock. destruct (owner s) as [[v d]|] eqn:O.
      * destruct (Nat.eqb_spec v t) as [->|]; auto.
        apply keep_ok with (s := s) (t := t); eauto.
        { intros u N. unfold held. simpl. rewrite O. destruct (Nat.eqb_spec t u); congruence. }
        { intros th' H. rewrite set_th_same in H by (apply nth_error_Some; congruence).
          inversion H; subst. left. exists (p ++ [Lock]). simpl. rewrite <- app_assoc. split; auto.
          rewrite dpt_app, <- D. unfold held. simpl. rewrite O, Nat.eqb_refl. reflexivity. }
        { apply set_th_len. }
        { simpl. intros u d' H. inversion H. subst. split; [lia|auto]. }
      * apply keep_ok with (s := s) (t := t); eauto.
        { intros u N. unfold held. simpl. rewrite O. destruct (Nat.eqb_spec t u); congruence. }
        { intros th' H. rewrite set_th_same in H by (apply nth_error_Some; congruence).
          inversion H; subst. left. exists (p ++ [Lock]). simpl. rewrite <- app_assoc. split; auto.
          rewrite dpt_app, <- D. unfold held. simpl. rewrite O, Nat.eqb_refl. reflexivity. }
        { apply set_th_len. }
        { simpl. intros u d' H. inversion H. subst. split; [lia|auto]. }
    + assert (H0 : 0 < held s t).
      { rewrite D. simpl in L. destruct (dpt 0 p); simpl in L; [discriminate|lia]. }
      unfold held in H0. destruct (owner s) as [[v d]|] eqn:O; [|lia].
      destruct (Nat.eqb_spec v t) as [->|]; [|lia].
      apply keep_ok with (s := s) (t := t); eauto.
      { intros u N. unfold held. rewrite O. simpl. destruct d as [|[|d]]; simpl;
          destruct (Nat.eqb_spec t u); congruence. }
      { intros th' H. rewrite set_th_same in H by (apply nth_error_Some; congruence).
        inversion H; subst. left. exists (p ++ [Unlock]). simpl. rewrite <- app_assoc. split; auto.
        rewrite dpt_app, <- D. unfold held. rewrite O, Nat.eqb_refl. simpl.
        destruct d as [|[|d]]; simpl; rewrite ?Nat.eqb_refl; auto. }
      { apply set_th_len. }
      { simpl. intros u d' H. destruct d as [|[|d]]; simpl in H; inversion H. subst. split; [lia|auto]. }
    + apply keep_ok with (s := s) (t := t); eauto.
      { intros th' H. rewrite set_th_same in H by (apply nth_error_Some; congruence).
        inversion H; subst. left. exists (p ++ [Acc k x]). simpl. rewrite <- app_assoc. split; auto.
        rewrite dpt_app, <- D. reflexivity. }
      { apply set_th_len. }
      { apply I. }
    + apply keep_ok with (s := s) (t := t); eauto.
      { intros th' H. rewrite set_th_same in H by (apply nth_error_Some; congruence).
        inversion H; subst. left. exists (p ++ [May l0]). simpl. rewrite <- app_assoc. split; auto.
        rewrite dpt_app, <- D. reflexivity. }
      { apply set_th_len. }
      { apply I. }
  - apply keep_ok with (s := s) (t := t); auto.
    + intros u th' N H. rewrite set_th_other in H; auto.
    + intros u N. unfold held. simpl. destruct (owner s) as [[v d]|]; auto. simpl.
      destruct (Nat.eqb_spec v t); simpl; auto. subst. destruct (Nat.eqb_spec t u); congruence.
    + intros th' H. rewrite set_th_same in H by (apply nth_error_Some; congruence).
      inversion H; subst. right. split; auto. unfold held. simpl.
      destruct (owner s) as [[v d]|]; simpl; auto.
      destruct (Nat.eqb_spec v t) as [->|]; simpl; auto. destruct (Nat.eqb_spec v t); congruence.
    + apply set_th_len.
    + simpl. intros u d H. destruct (owner s) as [[v d']|] eqn:O; simpl in H; [|discriminate].
      destruct (Nat.eqb v t); [discriminate|]. inversion H; subst. apply (proj2 I _ _ O).
Qed.

(** Threads make only calls that are allowed. *)
Definition calls_ok (n : nat) (ok : nat -> api -> Prop) (s : state) : Prop :=
  length (ths s) = n /\
  forall t a l, nth_error (ths s) t = Some (mkTh a l) -> l <> [] -> ok t a.

Lemma step_calls n ok s m : starts_ok ok m -> calls_ok n ok s -> calls_ok n ok (step s m).
Proof.
  intros S [L C]. 
  assert (G : forall t o x, (forall th, nth_error (ths s) t = Some th -> th_todo x <> [] -> ok t (th_api x)) ->
              calls_ok n ok (mkSt o (set_th (ths s) t x))).
  { intros t o x H. split; simpl; [rewrite set_th_len; auto|].
    intros u a l E N. destruct (Nat.eq_dec t u) as [->|].
    - destruct (nth_error (ths s) u) as [th|] eqn:E'.
      + rewrite set_th_same in E by (apply nth_error_Some; congruence). inversion E; subst.
        apply (H th eq_refl N).
      + exfalso. assert (X : nth_error (set_th (ths s) u x) u <> None) by congruence.
        apply nth_error_Some in X. rewrite set_th_len in X. apply nth_error_Some in X. congruence.
    - rewrite set_th_other in E by auto. eapply C; eauto. }
  assert (G0 : calls_ok n ok s) by (split; auto).
  destruct m as [t a|t|t k x|t]; simpl; auto;
    destruct (nth_error (ths s) t) as [[b todo]|] eqn:E; auto.
  - simpl. destruct todo; auto.
  - simpl. destruct todo as [|i l]; auto.
    assert (O : ok t b) by (eapply C; [exact E|discriminate]).
    destruct i; try destruct (can_lock s t); auto.
  - apply G. simpl. congruence.
Qed.

Lemma reach_inv n ok s : reaches n ok s -> rinv s /\ calls_ok n ok s.
Proof.
  intros (ms & F & <-). 
  assert (A : forall s0, rinv s0 /\ calls_ok n ok s0 -> rinv (exec s0 ms) /\ calls_ok n ok (exec s0 ms)).
  { clear -F. induction F as [|m ms S F IH]; intros s0 [A B]; simpl; auto.
    apply IH. split; [apply step_rinv, A | apply step_calls; auto]. }
  apply A. split; [apply rinv_init|]. split; [apply repeat_length|].
  intros t a l E N. apply nth_error_In, repeat_spec in E. inversion E; subst. congruence.
Qed.

(** ** A race needs a conflict *)

Lemma race_conflict n ok s x :
  reaches n ok s -> race_on s x ->
  exists t u a b, t < n /\ u < n /\ t <> u /\ ok t a /\ ok u b /\ conflict a b x.
Proof.
  intros H (t & u & k & k' & N & (a & i & l & E & D) & (b & j & l' & E' & D') & W).
  destruct (reach_inv _ _ _ H) as [[I _] [L C]].
  exists t, u, a, b.
  assert (Lt : t < n) by (rewrite <- L; apply nth_error_Some; congruence).
  assert (Lu : u < n) by (rewrite <- L; apply nth_error_Some; congruence).
  repeat split; auto.
  - eapply C; [exact E|discriminate].
  - eapply C; [exact E'|discriminate].
  - destruct (th_ok_next _ _ _ _ _ (I _ _ E) eq_refl) as (p & P & Q & _).
    destruct (th_ok_next _ _ _ _ _ (I _ _ E') eq_refl) as (p' & P' & Q' & _).
    simpl in P, P'. exists k, k'. repeat split; auto.
    + apply access_split. eauto.
    + apply access_split. eauto.
    + destruct (held_le s t u N) as [Z|Z]; [left|right]; apply unguarded_split.
      * exists p, i, l. repeat split; auto. congruence.
      * exists p', j, l'. repeat split; auto. congruence.
Qed.

(** ** A conflict makes a race *)

Lemma run_alone t ths0 a p q d :
  nth_error ths0 t = Some (mkTh a (p ++ q)) -> wl d (p ++ q) = true ->
  forall o, o = match d with 0 => None | S _ => Some (t, d) end ->
  exec (mkSt o ths0) (repeat (MGo t) (length p)) =
  mkSt (match dpt d p with 0 => None | S _ => Some (t, dpt d p) end) (set_th ths0 t (mkTh a q)).
Proof.
  revert d ths0. induction p as [|i p IH]; intros d ths0 E L o ->; simpl.
  - f_equal. revert t E. induction ths0 as [|x l IHl]; intros [|t] E; simpl in *; try discriminate.
    + inversion E; reflexivity.
    + f_equal. apply IHl, E.
  - assert (Z : forall x y, set_th (set_th ths0 t x) t y = set_th ths0 t y).
    { intros x y. clear. revert t. induction ths0; intros [|t]; simpl; auto. f_equal. auto. }
    assert (Y : forall x, nth_error (set_th ths0 t x) t = Some x).
    { intros x. apply set_th_same, nth_error_Some. congruence. }
    rewrite E. simpl. destruct i; simpl in *.
    + assert (CL : can_lock (mkSt (match d with 0 => None | S _ => Some (t, d) end) ths0) t = true).
      { unfold can_lock. destruct d; simpl; auto. apply Nat.eqb_refl. }
      rewrite CL. rewrite (IH (S d)); auto. rewrite Z; reflexivity. destruct d; reflexivity.
    + apply andb_true_iff in L. rewrite (IH (pred d)); try tauto; auto.
      * rewrite Z; reflexivity.
      * destruct d as [|[|d]]; reflexivity.
    + rewrite (IH d); auto. rewrite Z; reflexivity.
    + rewrite (IH d); auto. rewrite Z; reflexivity.
Qed.

Lemma exec_app s l1 l2 : exec s (l1 ++ l2) = exec (exec s l1) l2.
Proof. apply fold_left_app. Qed.

Lemma go_free ok l t : Forall (starts_ok ok) (repeat (MGo t) l).
Proof. induction l; simpl; constructor; auto. exact I. Qed.

Lemma conflict_race' n (ok : nat -> api -> Prop) t u a b x k k' :
  t < n -> u < n -> t <> u -> ok t a -> ok u b ->
  may_access b k' x -> (k = W \/ k' = W) -> In (k, x) (unguarded a) ->
  exists s, reaches n ok s /\ race_on s x.
Proof.
  intros Lt Lu N Oa Ob B Wr U.
  apply unguarded_split in U. destruct U as (p & i & q & P & D & Z).
  apply access_split in B. destruct B as (p' & j & q' & P' & D').
  set (T0 := ths (init n)).
  assert (LT : length T0 = n) by apply repeat_length.
  assert (I0 : forall v, v < n -> exists c, nth_error T0 v = Some (mkTh c [])).
  { intros v V. unfold T0. simpl. destruct (nth_error (repeat (mkTh aGetSink []) n) v) eqn:E.
    - exists aGetSink. apply nth_error_In, repeat_spec in E. congruence.
    - apply nth_error_None in E. rewrite repeat_length in E. lia. }
  set (ms := MStart t a :: repeat (MGo t) (length p) ++ MStart u b :: repeat (MGo u) (length p')).
  set (T1 := set_th T0 t (mkTh a (prog a))).
  set (T2 := set_th T1 t (mkTh a (i :: q))).
  set (T3 := set_th T2 u (mkTh b (prog b))).
  set (T4 := set_th T3 u (mkTh b (j :: q'))).
  assert (E1 : exec (init n) ms = mkSt (match dpt 0 p' with 0 => None | S _ => Some (u, dpt 0 p') end) T4).
  { unfold ms. change (exec (init n) (MStart t a :: ?x)) with (exec (step (init n) (MStart t a)) x).
    assert (S1 : step (init n) (MStart t a) = mkSt None T1).
    { destruct (I0 t Lt) as [c E]. simpl. unfold T0 in E. simpl in E. rewrite E. reflexivity. }
    rewrite S1, exec_app.
    rewrite (run_alone t T1 a p (i :: q) 0); auto.
    - rewrite Z. fold T2.
      change (exec ?x (MStart u b :: ?y)) with (exec (step x (MStart u b)) y).
      assert (S2 : step (mkSt None T2) (MStart u b) = mkSt None T3).
      { destruct (I0 u Lu) as [c E]. simpl. unfold T2, T1. rewrite !set_th_other by auto. rewrite E. reflexivity. }
      rewrite S2. rewrite (run_alone u T3 b p' (j :: q') 0); auto.
      + unfold T3. rewrite set_th_same, P'; auto. unfold T2, T1. rewrite !set_th_len. lia.
      + rewrite <- P'. apply prog_wl.
    - unfold T1. rewrite set_th_same, P; auto. lia.
    - rewrite <- P. apply prog_wl. }
  eexists. split.
  - exists ms. split; [|exact E1]. unfold ms. constructor; [exact Oa|]. apply Forall_app. split.
    + apply go_free.
    + constructor; [exact Ob|]. apply go_free.
  - exists t, u, k, k'. repeat split; auto.
    + exists a, i, q. split; auto. simpl. unfold T4, T3. rewrite !set_th_other by auto.
      unfold T2. rewrite set_th_same; auto. unfold T1. rewrite set_th_len. lia.
    + exists b, j, q'. split; auto. simpl. unfold T4. rewrite set_th_same; auto.
      unfold T3, T2, T1. rewrite !set_th_len. lia.
Qed.

Lemma race_sym s x : (exists t u k k', t <> u /\ about_to s t k x /\ about_to s u k' x /\ (k = W \/ k' = W)) -> race_on s x.
Proof. auto. Qed.

Theorem race_iff n (ok : nat -> api -> Prop) x :
  (exists s, reaches n ok s /\ race_on s x) <->
  (exists t u a b, t < n /\ u < n /\ t <> u /\ ok t a /\ ok u b /\ conflict a b x).
Proof.
  split.
  - intros (s & H & R). apply (race_conflict n ok s x H R).
  - intros (t & u & a & b & Lt & Lu & N & Oa & Ob & k & k' & A & B & Wr & [U|U]).
    + apply (conflict_race' n ok t u a b x k k'); auto.
    + apply (conflict_race' n ok u t b a x k' k); auto. tauto.
Qed.

(** ** No deadlock *)

Lemma no_deadlock n ok s t :
  reaches n ok s -> in_call s t -> exists u, in_call s u /\ step s (MGo u) <> s.
Proof.
  intros H C. destruct (reach_inv _ _ _ H) as [[I P] [L _]].
  assert (G : forall v, in_call s v -> can_lock s v = true -> step s (MGo v) <> s).
  { intros v (a & i & l & E) CL X. simpl in X. rewrite E in X. simpl in X. rewrite CL in X.
    assert (Y : forall o, mkSt o (set_th (ths s) v (mkTh a l)) <> s).
    { intros o F. assert (F' : nth_error (ths s) v = Some (mkTh a l)).
      { rewrite <- F. simpl. apply set_th_same, nth_error_Some. congruence. }
      rewrite E in F'. inversion F' as [F2]. apply (f_equal (@length item)) in F2. simpl in F2. lia. }
    destruct i; apply (Y _ X). }
  destruct (owner s) as [[u d]|] eqn:O.
  - exists u. destruct (P _ _ eq_refl) as [D Lu].
    destruct (nth_error (ths s) u) as [[a [|i l]]|] eqn:E.
    + exfalso. pose proof (th_ok_idle _ _ _ (I _ _ E) eq_refl) as Z.
      unfold held in Z. rewrite O, Nat.eqb_refl in Z. lia.
    + assert (J : in_call s u) by (exists a, i, l; auto). split; auto. apply G; auto.
      unfold can_lock. rewrite O. apply Nat.eqb_refl.
    + apply nth_error_None in E. lia.
  - exists t. split; auto. apply G; auto. unfold can_lock. rewrite O. reflexivity.
Qed.

(** ** Calls in progress can all finish *)

Lemma left_set l t a x : nth_error l t = Some a ->
  fold_right (fun th n => length (th_todo th) + n) 0 (set_th l t x) + length (th_todo a) =
  fold_right (fun th n => length (th_todo th) + n) 0 l + length (th_todo x).
Proof.
  revert t. induction l as [|y l IH]; intros [|t] E; simpl in *; try discriminate.
  - inversion E; subst. lia.
  - specialize (IH t E). lia.
Qed.

Lemma go_left s t : step s (MGo t) <> s -> items_left (step s (MGo t)) < items_left s.
Proof.
  simpl. destruct (nth_error (ths s) t) as [[a [|i l]]|] eqn:E; simpl; try congruence.
  pose proof (left_set (ths s) t (mkTh a (i :: l)) (mkTh a l) E) as H. simpl in H. unfold items_left.
  destruct i; try destruct (can_lock s t); simpl; try congruence; lia.
Qed.

Lemma reach_go n ok s t : reaches n ok s -> reaches n ok (step s (MGo t)).
Proof.
  intros (ms & F & E). exists (ms ++ [MGo t]). split.
  - apply Forall_app. split; auto. constructor; auto. exact I.
  - rewrite exec_app, E. reflexivity.
Qed.

Lemma in_call_dec s : (exists t, in_call s t) \/ (forall t, ~ in_call s t).
Proof.
  destruct s as [o l]. unfold in_call. simpl. induction l as [|[a [|i r]] l IH].
  - right. intros [|t] (a & i & r & E); discriminate.
  - destruct IH as [[t H]|H].
    + left. exists (S t). exact H.
    + right. intros [|t] (b & i & r & E); simpl in E; [congruence|]. apply (H t). eauto.
  - left. exists 0, a, i, r. reflexivity.
Qed.

Lemma can_finish n ok s :
  reaches n ok s -> exists ts, forall t, ~ in_call (exec s (map MGo ts)) t.
Proof.
  remember (items_left s) as m eqn:Em. revert s Em.
  induction m as [m IH] using lt_wf_ind. intros s -> H.
  destruct (in_call_dec s) as [[t C]|C].
  - destruct (no_deadlock n ok s t H C) as (u & _ & D).
    destruct (IH (items_left (step s (MGo u))) (go_left s u D) _ eq_refl (reach_go n ok s u H)) as [ts T].
    exists (u :: ts). exact T.
  - exists []. exact C.
Qed.

(** Only so many items are left: no schedule keeps calls in progress going for longer. *)
Lemma all_move_bound s ts : all_move s ts -> length ts <= items_left s.
Proof.
  revert s. induction ts as [|t ts IH]; cbn -[step]; intros s H; [lia|].
  destruct H as [H H']. pose proof (go_left s t H). pose proof (IH _ H'). lia.
Qed.

Lemma dpt_count d p : wl d p = true \/ (exists q, wl d (p ++ q) = true) ->
  d + count_occ Bool.bool_dec (map (fun i => match i with Lock => true | _ => false end) p) true =
  dpt d p + count_occ Bool.bool_dec (map (fun i => match i with Unlock => true | _ => false end) p) true.
Proof.
  intros H. assert (H' : exists q, wl d (p ++ q) = true).
  { destruct H; auto. exists []. rewrite app_nil_r. auto. }
  clear H. destruct H' as [q H]. revert d H.
  induction p as [|i p IH]; intros d H; simpl in *; [lia|].
  destruct i; simpl in *.
  - specialize (IH (S d) H). lia.
  - apply andb_true_iff in H. destruct H as [D H]. apply negb_true_iff, Nat.eqb_neq in D.
    specialize (IH (pred d) H). lia.
  - apply IH, H.
  - apply IH, H.
Qed.

Lemma lock_balanced n ok s u d : reaches n ok s -> owner s = Some (u, d) ->
  in_call s u /\
  (exists a p l, nth_error (ths s) u = Some (mkTh a l) /\ prog a = p ++ l /\
     count_occ Bool.bool_dec (map (fun i => match i with Lock => true | _ => false end) p) true =
     d + count_occ Bool.bool_dec (map (fun i => match i with Unlock => true | _ => false end) p) true).
Proof.
  intros H O. destruct (reach_inv _ _ _ H) as [[I P] _]. destruct (P _ _ O) as [D L].
  assert (Hd : held s u = d) by (unfold held; rewrite O, Nat.eqb_refl; auto).
  destruct (nth_error (ths s) u) as [[a [|i l]]|] eqn:E.
  - exfalso. pose proof (th_ok_idle _ _ _ (I _ _ E) eq_refl) as Z. rewrite Hd in Z. lia.
  - split; [exists a, i, l; auto|].
    destruct (th_ok_next _ _ _ _ _ (I _ _ E) eq_refl) as (p & Pr & Q & _). simpl in Pr.
    exists a, p, (i :: l). repeat split; auto.
    pose proof (dpt_count 0 p) as G. simpl in G. rewrite G; [lia|]. right. exists (i :: l).
    rewrite <- Pr. apply prog_wl.
  - apply nth_error_None in E. lia.
Qed.
