(** * Fair executions finish every call (C100) *)
From Coq Require Import List Arith NArith Bool Lia.
From Verif Require Import Base LevelModel SinkModel SinkSpec SinkFairSpec SinkProofs SinkLabels SinkLife SinkProps
  SinkProgress SinkReturn.
Import ListNotations.

Section Fair.
Context {E : Type}.
Variable C : cfg E.
Notation state := (state E).
Notation pc := (pc E).
Notation entry := (entry E).

(** ** Sums over threads *)
Fixpoint sumf (f : pc -> nat) (l : list pc) : nat := match l with [] => 0 | p :: r => f p + sumf f r end.

Lemma sumf_upd f l : forall t p p', nth_error l t = Some p -> sumf f (upd l t p') + f p = sumf f l + f p'.
Proof.
  induction l as [|x l IH]; intros [|t] p p' H; cbn in H; try discriminate; cbn [upd sumf].
  - injection H as <-. lia.
  - specialize (IH t p p' H). lia.
Qed.
Lemma sumf_le f b l : (forall p, f p <= b) -> sumf f l <= b * length l.
Proof. intros H. induction l as [|x l IH]; cbn [sumf length]; [lia|]. specialize (H x). lia. Qed.
Lemma sumf_pos f l t p : nth_error l t = Some p -> f p <= sumf f l.
Proof. revert t. induction l as [|x l IH]; intros [|t] H; cbn in H; try discriminate; cbn [sumf].
  - injection H as <-. lia. - specialize (IH t H). lia. Qed.
Lemma sumf_ex f l : 1 <= sumf f l -> exists t p, nth_error l t = Some p /\ 1 <= f p.
Proof.
  induction l as [|x l IH]; cbn [sumf]; [lia|]. intros H. destruct (f x) eqn:Ex.
  - destruct IH as (t & p & H1 & H2); [lia|]. exists (S t), p. auto.
  - exists 0, x. split; [reflexivity|lia].
Qed.

Definition base (k : cont E) : option nat :=
  match k with KReturn => Some 0 | KRetry _ => Some 41 | KWorker | KDestroy => None end.
Definition at_k (k : cont E) (d : nat) : nat := match base k with Some b => b + d | None => 0 end.

(** Steps to the end of the flush. *)
Definition fd (p : pc) : nat :=
  match p with
  | FSub _ _ => 25
  | FWrite _ _ => 9
  | FCasFlush _ => 8
  | FStream _ => 7
  | FCasRot _ => 5
  | FReopen _ => 4
  | FNtf _ => 3
  | FClear _ => 2
  | _ => 0
  end.

Definition dist (p : pc) : nat :=
  match p with
  | PPut _ => 40
  | PAdd _ _ => 36
  | PRel _ _ => 35
  | PDecide => 34
  | RStore => 36
  | RAsync => 35
  | FTas k => at_k k 30
  | FGet k => at_k k 20
  | FSub k _ | FWrite k _ | FCasFlush k | FStream k | FNtf k | FCasRot k | FReopen k | FClear k => at_k k (fd p)
  | _ => 0
  end.

Definition post (p : pc) : bool :=
  match p with
  | FSub _ _ | FWrite _ _ | FCasFlush _ | FStream _ | FNtf _ | FCasRot _ | FReopen _ | FClear _ => true
  | _ => false
  end.
Definition fpost (p : pc) : nat := if post p then 50 + fd p else 0.
Definition fget (p : pc) : nat := match p with FGet _ => 1 | _ => 0 end.
Definition ftas (p : pc) : nat := match p with FTas _ => 1 | _ => 0 end.
Definition ftry (p : pc) : nat := length (trying p).

Definition left_of (l : list entry) : nat :=
  match l with
  | [] => 0
  | x :: _ => match q_stage x with Reserved => 2 | Sized => 1 | Published => 0 end
  end.

Definition V (s : state) : nat := 2 * sumf ftry (thr s) + length (q s).
Definition full (s : state) : bool := Nat.leb (c_cap C) (length (q s)) && Nat.leb 1 (sumf ftry (thr s)).
Definition psiA (s : state) : nat :=
  if fip s then sumf fget (thr s) * (1 + left_of (q s)) + sumf fpost (thr s)
  else 20 + (if Nat.leb 1 (sumf ftas (thr s)) then 0 else 1).
Definition psiB (s : state) : nat := sumf dist (thr s).
Definition psi (s : state) : nat := if full s then psiA s else psiB s.
Definition W (s : state) : nat := 200 + 100 * length (thr s).
Definition Phi (s : state) : nat := W s * V s + psi s.

Lemma fd_le p : fd p <= 25.
Proof. destruct p; cbn; lia. Qed.
Lemma dist_le p : dist p <= 71.
Proof. destruct p as [ |e|x e|x e| | | |k|k|k e|k oe|k|k|k|k|k|k| | | | | | | | | ]; cbn; try lia; destruct k; cbn; lia. Qed.
Lemma fpost_le p : fpost p <= 75.
Proof. unfold fpost. pose proof (fd_le p). destruct (post p); lia. Qed.
Lemma fget_le p : fget p <= 1.
Proof. destruct p; cbn; lia. Qed.
Lemma ftry_le p : ftry p <= 1.
Proof. unfold ftry. destruct p as [ |e|x e|x e| | | |k|k|k e|k oe|k|k|k|k|k|k| | | | | | | | | ]; cbn; try lia; destruct k; cbn; lia. Qed.
Lemma left_le l : left_of l <= 2.
Proof. destruct l as [|x l]; cbn; [lia|]. destruct (q_stage x); lia. Qed.

Lemma psi_lt s : psi s < W s.
Proof.
  unfold psi, psiA, psiB, W.
  pose proof (sumf_le dist 71 (thr s) dist_le). pose proof (sumf_le fpost 75 (thr s) fpost_le).
  pose proof (sumf_le fget 1 (thr s) fget_le). pose proof (left_le (q s)).
  destruct (full s); [|lia]. destruct (fip s).
  - assert (sumf fget (thr s) * (1 + left_of (q s)) <= sumf fget (thr s) * 3) by (apply Nat.mul_le_mono_l; lia). lia.
  - destruct (Nat.leb _ _); lia.
Qed.

Lemma Phi_drop s s' : length (thr s') = length (thr s) -> V s' < V s -> Phi s' < Phi s.
Proof.
  intros Hl HV. unfold Phi. pose proof (psi_lt s') as P. unfold W in *. rewrite Hl in *.
  set (w := 200 + 100 * length (thr s)) in *.
  assert (w * (V s' + 1) <= w * V s) by (apply Nat.mul_le_mono_l; lia). lia.
Qed.

(** ** What a move can be *)
Definition moves_to (s : state) (t : nat) (p' : pc) (q' : list entry) (f' : bool) (s' : state) : Prop :=
  thr s' = upd (thr s) t p' /\ q s' = q' /\ fip s' = f'.

Inductive kind (s : state) (t : nat) : pc -> state -> Prop :=
| K_none p s' : thr s' = thr s -> q s' = q s -> fip s' = fip s -> kind s t p s'
| K_put e n s' : length (q s) < c_cap C -> moves_to s t (PAdd n e) (q s ++ [mkEntry n e Reserved]) (fip s) s' ->
    kind s t (PPut e) s'
| K_retry e s' : c_cap C <= length (q s) -> moves_to s t (FTas (KRetry e)) (q s) (fip s) s' -> kind s t (PPut e) s'
| K_take k x r s' : q s = x :: r -> q_stage x = Published -> moves_to s t (FSub k (q_ev x)) r (fip s) s' ->
    kind s t (FGet k) s'
| K_empty k p' s' : q s = [] -> post p' = true -> trying p' = trying (FGet k) ->
    dist p' < dist (FGet k) \/ dist p' = 0 /\ dist (FGet k) = 0 ->
    moves_to s t p' (q s) (fip s) s' -> kind s t (FGet k) s'
| K_lock k s' : fip s = false -> moves_to s t (FGet k) (q s) true s' -> kind s t (FTas k) s'
| K_busy k s' : fip s = true -> moves_to s t (after_flush k) (q s) (fip s) s' -> kind s t (FTas k) s'
| K_unlock k s' : moves_to s t (after_flush k) (q s) false s' -> kind s t (FClear k) s'
| K_add n e s' : moves_to s t (PRel n e) (set_stage n Sized (q s)) (fip s) s' -> kind s t (PAdd n e) s'
| K_rel n e s' : moves_to s t PDecide (set_stage n Published (q s)) (fip s) s' -> kind s t (PRel n e) s'
| K_flush p p' s' : post p = true -> (post p' = true /\ fd p' < fd p \/ fget p' = 1) -> trying p' = trying p ->
    dist p' < dist p \/ dist p' = 0 /\ dist p = 0 ->
    moves_to s t p' (q s) (fip s) s' -> kind s t p s'
| K_other p p' s' : post p = false -> fget p = 0 -> ftas p = 0 -> post p' = false -> fget p' = 0 ->
    trying p = [] -> trying p' = [] ->
    dist p' < dist p \/ dist p' = 0 /\ dist p = 0 ->
    (forall e, p <> PPut e) -> (forall n e, p <> PAdd n e /\ p <> PRel n e) ->
    moves_to s t p' (q s) (fip s) s' -> kind s t p s'.

Definition calls (c : choice E) : bool :=
  match c with CPush _ _ | CFlush | CAsync | CRotate | CDestroy => true | _ => false end.

Ltac kdist := unfold dist, at_k; first [left; cbn; lia | right; split; reflexivity |
  match goal with k : cont E |- _ => destruct k end; cbn; first [left; lia | right; split; reflexivity]].

Ltac split_step :=
  repeat match goal with
  | |- context [match ?x with _ => _ end] =>
      match type of x with
      | choice _ => destruct x
      | bool => destruct x eqn:?
      | list _ => destruct x eqn:?
      | option _ => destruct x eqn:?
      | stage => destruct x eqn:?
      | sink_kind => destruct x eqn:?
      | reopen => destruct x
      | SinkModel.pc _ => destruct x eqn:?
      end
  end.

Ltac mv := unfold moves_to; cbn [fst s_thr s_q s_acc s_flags s_out thr q fip]; repeat split.

Lemma step_kind s t c p : nth_error (thr s) t = Some p -> calls c = false -> kind s t p (fst (step_thread C s t c p)).
Proof.
  intros Hp Hc. destruct p as [ |e|x e|x e| | | |k|k|k e|k oe|k|k|k|k|k|k| | | | | | | | | ]; cbn [step_thread].
  - destruct c; try discriminate Hc; apply K_none; reflexivity.
  - destruct (Nat.ltb_spec (length (q s)) (c_cap C)).
    + eapply K_put; [assumption|mv].
    + eapply K_retry; [assumption|mv].
  - eapply K_add. mv.
  - eapply K_rel. mv.
  - destruct (c_lat0 C); [|destruct (N.leb _ _)]; (eapply K_other; [..|mv]); try reflexivity; try congruence; try (split; congruence); cbn; left; lia.
  - eapply K_other; [..|mv]; try reflexivity; try congruence; try (split; congruence); cbn; left; lia.
  - destruct (c_lat0 C); (eapply K_other; [..|mv]); try reflexivity; try congruence; try (split; congruence); cbn; left; lia.
  - destruct (fip s) eqn:Ef.
    + eapply K_busy; [assumption|mv].
    + eapply K_lock; [assumption|mv].
  - destruct (q s) as [|y r] eqn:Eq.
    + destruct (c_kind C); (eapply K_empty; [exact Eq|..|mv]); try reflexivity; try exact Eq; try (destruct k; reflexivity); kdist.
    + destruct (q_stage y) eqn:Es; try (apply K_none; reflexivity). eapply K_take; [exact Eq|exact Es|mv].
  - destruct (c_kind C); (eapply K_flush; [..|mv]); try reflexivity; try (destruct k; reflexivity); cbn [post fget fd]; try (left; split; [reflexivity|lia]); try (right; reflexivity); try kdist.
  - destruct oe as [e|]; [destruct (opened s)|destruct (c_kind C)]; (eapply K_flush; [..|mv]); try reflexivity; try (destruct k; reflexivity); cbn [post fget fd]; try (left; split; [reflexivity|lia]); try (right; reflexivity); try kdist.
  - destruct c; try discriminate Hc; split_step; first [apply K_none; reflexivity | (eapply K_flush; [..|mv]); try reflexivity; try (destruct k; reflexivity); cbn [post fget fd]; try (left; split; [reflexivity|lia]); try (right; reflexivity); try kdist].
  - destruct (c_kind C); (eapply K_flush; [..|mv]); try reflexivity; try (destruct k; reflexivity); cbn [post fget fd]; try (left; split; [reflexivity|lia]); try (right; reflexivity); try kdist.
  - (eapply K_flush; [..|mv]); try reflexivity; try (destruct k; reflexivity); cbn [post fget fd]; try (left; split; [reflexivity|lia]); try (right; reflexivity); try kdist.
  - destruct c; try discriminate Hc; split_step; first [apply K_none; reflexivity | (eapply K_flush; [..|mv]); try reflexivity; try (destruct k; reflexivity); cbn [post fget fd]; try (left; split; [reflexivity|lia]); try (right; reflexivity); try kdist].
  - destruct c; try discriminate Hc; split_step; first [apply K_none; reflexivity | (eapply K_flush; [..|mv]); try reflexivity; try (destruct k; reflexivity); cbn [post fget fd]; try (left; split; [reflexivity|lia]); try (right; reflexivity); try kdist].
  - eapply K_unlock. mv.
  - split_step; first [apply K_none; reflexivity | (eapply K_other; [..|mv]); try reflexivity; try congruence; try (split; congruence); try kdist].
  - split_step; first [apply K_none; reflexivity | (eapply K_other; [..|mv]); try reflexivity; try congruence; try (split; congruence); try kdist].
  - split_step; first [apply K_none; reflexivity | (eapply K_other; [..|mv]); try reflexivity; try congruence; try (split; congruence); try kdist].
  - apply K_none; reflexivity.
  - eapply K_other; [..|mv]; try reflexivity; try congruence; try (split; congruence); kdist.
  - eapply K_other; [..|mv]; try reflexivity; try congruence; try (split; congruence); kdist.
  - split_step; first [apply K_none; reflexivity | (eapply K_other; [..|mv]); try reflexivity; try congruence; try (split; congruence); try kdist].
  - split_step; (eapply K_other; [..|mv]); try reflexivity; try congruence; try (split; congruence); kdist.
  - apply K_none; reflexivity.
Qed.


(** ** The thread everybody waits for *)
Definition owner (p : pc) (l : list entry) : Prop :=
  match l with
  | [] => False
  | x :: _ => match p with
              | PAdd n _ => n = q_no x /\ q_stage x = Reserved
              | PRel n _ => n = q_no x /\ q_stage x = Sized
              | _ => False
              end
  end.

Definition keyp (s : state) (p : pc) : Prop :=
  if full s then
    if fip s then post p = true \/ (fget p = 1 /\ left_of (q s) = 0) \/ (1 <= sumf fget (thr s) /\ owner p (q s))
    else ftas p = 1 \/ (sumf ftas (thr s) = 0 /\ exists e, p = PPut e)
  else 1 <= dist p /\ (fget p = 1 -> left_of (q s) = 0).

Definition Key (k : nat) (s : state) : Prop := exists p, nth_error (thr s) k = Some p /\ keyp s p.

Definition same (s s' : state) : Prop := thr s' = thr s /\ q s' = q s /\ fip s' = fip s.

Record calm (s s' : state) (p : pc) : Prop := {
  cm_phi : Phi s' = Phi s;
  cm_full : full s' = full s;
  cm_fip : full s = true -> fip s' = fip s;
  cm_tas : full s = true -> fip s = false -> sumf ftas (thr s) = 0 -> sumf ftas (thr s') = 0;
  cm_get : full s = true -> fip s = true -> 1 <= sumf fget (thr s) -> 1 <= left_of (q s) ->
           1 <= sumf fget (thr s') /\ hd_error (q s') = hd_error (q s);
  cm_left : left_of (q s') <= left_of (q s);
  cm_key : keyp s p -> same s s'
}.

Lemma same_V s s' : length (thr s') = length (thr s) -> sumf ftry (thr s') = sumf ftry (thr s) ->
  length (q s') = length (q s) ->
  full s' = full s /\ (psi s' < psi s -> Phi s' < Phi s) /\ (psi s' = psi s -> Phi s' = Phi s).
Proof.
  intros Hl Ht Hq. unfold Phi, V, W, full. rewrite Hl, Ht, Hq. repeat split; lia.
Qed.

Lemma fl_sum l : flat_map (@fl E) l = [] -> sumf fget l = 0 /\ sumf fpost l = 0.
Proof.
  induction l as [|p l IH]; [split; reflexivity|]. cbn [flat_map sumf]. intros H. apply app_eq_nil in H.
  destruct H as [H1 H2]. destruct (IH H2) as [I1 I2]. rewrite I1, I2. destruct p; try discriminate H1; split; reflexivity.
Qed.

Lemma unlocked s : Inv C s -> fip s = false -> sumf fget (thr s) = 0 /\ sumf fpost (thr s) = 0.
Proof. intros HI Hf. apply fl_sum. rewrite (I_flag C s HI), Hf. reflexivity. Qed.

Lemma locked s t p : Inv C s -> nth_error (thr s) t = Some p -> inflush p = true -> fip s = true.
Proof.
  intros HI Hp Hi. destruct (thr_split _ _ _ Hp) as (l1 & l2 & E1 & _).
  apply (others_out C s l1 p l2 HI E1 Hi).
Qed.

Lemma in_adding s t n e : nth_error (thr s) t = Some (PAdd n e) -> In (n, e) (flat_map (@adding E) (thr s)).
Proof. intros H. apply in_flat_map. exists (PAdd n e). split; [eapply nth_error_In; exact H|left; reflexivity]. Qed.
Lemma in_releasing s t n e : nth_error (thr s) t = Some (PRel n e) -> In (n, e) (flat_map (@releasing E) (thr s)).
Proof. intros H. apply in_flat_map. exists (PRel n e). split; [eapply nth_error_In; exact H|left; reflexivity]. Qed.

Lemma head_set (l : list entry) n e st st' : NoDup (map (@q_no E) l) -> In (mkEntry n e st) l ->
  (exists r, l = mkEntry n e st :: r /\ set_stage n st' l = mkEntry n e st' :: set_stage n st' r) \/
  (exists x r, l = x :: r /\ q_no x <> n /\ set_stage n st' l = x :: set_stage n st' r).
Proof.
  destruct l as [|x r]; intros Hn Hi; [destruct Hi|]. unfold set_stage. cbn [map]. destruct Hi as [->|Hi].
  - left. exists r. split; [reflexivity|]. cbn [q_no]. rewrite Nat.eqb_refl. reflexivity.
  - right. exists x, r. split; [reflexivity|]. inversion Hn as [|? ? N1 N2]; subst.
    assert (q_no x <> n). { intros Ex. apply N1. rewrite Ex. change n with (q_no (mkEntry n e st)). apply in_map. exact Hi. }
    split; [assumption|]. destruct (Nat.eqb_spec (q_no x) n); [contradiction|reflexivity].
Qed.

Hypothesis cap_pos : 1 <= c_cap C.
Hypothesis sz : sizes_ok C.

Lemma szM : forall e, (c_msize C e <= M64)%N.
Proof. intros e. specialize (sz e). change M64 with (2 ^ 64)%N. apply N.lt_le_incl. exact sz. Qed.

Lemma kind_phi s t p s' : Inv C s -> nth_error (thr s) t = Some p -> kind s t p s' ->
  Phi s' < Phi s \/ calm s s' p.
Proof.
  intros HI Hp HK.
  assert (SAME : same s s' -> calm s s' p).
  { intros (A & B & D). assert (full s' = full s) as F by (unfold full; rewrite A, B; reflexivity).
    constructor; try (unfold Phi, W, V, psi, psiA, psiB; rewrite F, A, B, D); auto; try (unfold same; auto; fail).
    all: rewrite ?A, ?B; auto. }
  destruct HK as [p s' A B D|e n s' Hq (A & B & D)|e s' Hq (A & B & D)|k x r s' Eq Es (A & B & D)
    |k p' s' Eq Hpo Ht Hd (A & B & D)|k s' Hf (A & B & D)|k s' Hf (A & B & D)|k s' (A & B & D)
    |n e s' (A & B & D)|n e s' (A & B & D)|p p' s' Hpo Hpo' Ht Hd (A & B & D)
    |p p' s' N1 N2 N3 N4 N5 N6 N7 Hd N8 N9 (A & B & D)].
  - right. apply SAME. unfold same. auto.
  - left. apply Phi_drop; [rewrite A; apply upd_length|]. unfold V. rewrite A, B, app_length.
    pose proof (sumf_upd ftry _ _ _ (PAdd n e) Hp) as U. cbn in *. lia.
  - pose proof (sumf_upd ftry _ _ _ (FTas (KRetry e)) Hp) as U1. pose proof (sumf_upd dist _ _ _ (FTas (KRetry e)) Hp) as U2.
    pose proof (sumf_upd fget _ _ _ (FTas (KRetry e)) Hp) as U3. pose proof (sumf_upd fpost _ _ _ (FTas (KRetry e)) Hp) as U4.
    pose proof (sumf_upd ftas _ _ _ (FTas (KRetry e)) Hp) as U5. pose proof (sumf_pos ftry _ _ _ Hp) as U6.
    rewrite <- A in U1, U2, U3, U4, U5.
    change (ftry (PPut e)) with 1 in *. change (ftry (FTas (KRetry e))) with 1 in *.
    change (fget (PPut e)) with 0 in *. change (fget (FTas (KRetry e))) with 0 in *.
    change (fpost (PPut e)) with 0 in *. change (fpost (FTas (KRetry e))) with 0 in *.
    change (ftas (PPut e)) with 0 in *. change (ftas (FTas (KRetry e))) with 1 in *.
    destruct (same_V s s') as (SF & S1 & S2); [rewrite A; apply upd_length|lia|rewrite B; reflexivity|].
    assert (F : full s = true) by (unfold full; apply andb_true_intro; split; apply Nat.leb_le; lia).
    destruct (fip s) eqn:Ef.
    + right. assert (psi s' = psi s) by (unfold psi, psiA; rewrite SF, F, D, Ef, B; f_equal; [f_equal|]; lia).
      constructor; auto; try congruence; try (rewrite B; lia).
      * intros _ _ H1 _. rewrite B. split; [lia|reflexivity].
      * unfold keyp. rewrite F, Ef. cbn. intros [H1|[[H1 _]|[_ H1]]]; try discriminate. unfold owner in H1. destruct (q s); destruct H1.
    + destruct (Nat.leb_spec 1 (sumf ftas (thr s))) as [L|L].
      * right. assert (psi s' = psi s).
        { unfold psi, psiA. rewrite SF, F, D, Ef. destruct (Nat.leb_spec 1 (sumf ftas (thr s))); [|lia].
          destruct (Nat.leb_spec 1 (sumf ftas (thr s'))); [reflexivity|lia]. }
        constructor; auto; try congruence; try (rewrite B; lia); try lia.
        unfold keyp. rewrite F, Ef. cbn. intros [H1|[H1 _]]; [discriminate|lia].
      * left. apply S1. unfold psi, psiA. rewrite SF, F, D, Ef. destruct (Nat.leb_spec 1 (sumf ftas (thr s))); [lia|].
        destruct (Nat.leb_spec 1 (sumf ftas (thr s'))); lia.
  - left. apply Phi_drop; [rewrite A; apply upd_length|]. unfold V. rewrite A, B, Eq.
    pose proof (sumf_upd ftry _ _ _ (FSub k (q_ev x)) Hp) as U.
    assert (ftry (FSub k (q_ev x)) = ftry (FGet k)) by (destruct k; reflexivity). cbn [length]. lia.
  - pose proof (sumf_upd ftry _ _ _ p' Hp) as U1. pose proof (sumf_upd dist _ _ _ p' Hp) as U2. rewrite <- A in U1, U2.
    assert (ftry p' = ftry (FGet k)) by (unfold ftry; rewrite Ht; reflexivity).
    destruct (same_V s s') as (SF & S1 & S2); [rewrite A; apply upd_length|lia|rewrite B; reflexivity|].
    assert (F : full s = false) by (unfold full; rewrite Eq; cbn [length]; destruct (Nat.leb_spec (c_cap C) 0); [lia|reflexivity]).
    destruct Hd as [Hd|[Hd1 Hd2]].
    + left. apply S1. unfold psi, psiB. rewrite SF, F. lia.
    + right. constructor; auto; try congruence; try (rewrite B; lia).
      * apply S2. unfold psi, psiB. rewrite SF, F. lia.
      * unfold keyp. rewrite F. intros [H1 _]. lia.
  - pose proof (sumf_upd ftry _ _ _ (FGet k) Hp) as U1. pose proof (sumf_upd dist _ _ _ (FGet k) Hp) as U2.
    pose proof (sumf_upd fget _ _ _ (FGet k) Hp) as U3. pose proof (sumf_upd fpost _ _ _ (FGet k) Hp) as U4.
    rewrite <- A in U1, U2, U3, U4.
    assert (ftry (FGet k) = ftry (FTas k)) by (destruct k; reflexivity).
    change (fget (FTas k)) with 0 in *. change (fget (FGet k)) with 1 in *. 
    change (fpost (FTas k)) with 0 in *. change (fpost (FGet k)) with 0 in *. 
    destruct (same_V s s') as (SF & S1 & S2); [rewrite A; apply upd_length|lia|rewrite B; reflexivity|].
    destruct (unlocked s HI Hf) as [Z1 Z2]. destruct (full s) eqn:F.
    + left. apply S1. unfold psi, psiA. rewrite SF, F, D, Hf, B. pose proof (left_le (q s)).
      replace (sumf fget (thr s')) with 1 by lia. replace (sumf fpost (thr s')) with 0 by lia. destruct (Nat.leb _ _); lia.
    + assert (Hd : dist (FGet k) < dist (FTas k) \/ dist (FGet k) = 0 /\ dist (FTas k) = 0) by (destruct k; cbn; lia).
      destruct Hd as [Hd|[Hd1 Hd2]].
      * left. apply S1. unfold psi, psiB. rewrite SF, F. lia.
      * right. constructor; auto; try congruence; try (rewrite B; lia).
        -- apply S2. unfold psi, psiB. rewrite SF, F. lia.
        -- unfold keyp. rewrite F. intros [H1 _]. lia.
  - pose proof (sumf_upd ftry _ _ _ (after_flush k) Hp) as U1. pose proof (sumf_upd dist _ _ _ (after_flush k) Hp) as U2.
    pose proof (sumf_upd fget _ _ _ (after_flush k) Hp) as U3. pose proof (sumf_upd fpost _ _ _ (after_flush k) Hp) as U4.
    rewrite <- A in U1, U2, U3, U4.
    assert (ftry (after_flush k) = ftry (FTas k)) by (destruct k; reflexivity).
    assert (fget (after_flush k) = 0) by (destruct k; reflexivity).
    assert (fpost (after_flush k) = 0) by (destruct k; reflexivity).
    change (fget (FTas k)) with 0 in *. change (fpost (FTas k)) with 0 in *.
    destruct (same_V s s') as (SF & S1 & S2); [rewrite A; apply upd_length|lia|rewrite B; reflexivity|].
    destruct (full s) eqn:F.
    + right. assert (psi s' = psi s) by (unfold psi, psiA; rewrite SF, F, D, Hf, B; f_equal; [f_equal|]; lia).
      constructor; auto; try congruence; try (rewrite B; lia).
      * intros _ _ H3 _. rewrite B. split; [lia|reflexivity].
      * unfold keyp. rewrite F, Hf. cbn. intros [H3|[[H3 _]|[_ H3]]]; try discriminate. unfold owner in H3. destruct (q s); destruct H3.
    + assert (Hd : dist (after_flush k) < dist (FTas k) \/ dist (after_flush k) = 0 /\ dist (FTas k) = 0) by (destruct k; cbn; lia).
      destruct Hd as [Hd|[Hd1 Hd2]].
      * left. apply S1. unfold psi, psiB. rewrite SF, F. lia.
      * right. constructor; auto; try congruence; try (rewrite B; lia).
        -- apply S2. unfold psi, psiB. rewrite SF, F. lia.
        -- unfold keyp. rewrite F. intros [H3 _]. lia.
  - pose proof (sumf_upd ftry _ _ _ (after_flush k) Hp) as U1. pose proof (sumf_upd dist _ _ _ (after_flush k) Hp) as U2.
    rewrite <- A in U1, U2.
    assert (ftry (after_flush k) = ftry (FClear k)) by (destruct k; reflexivity).
    destruct (same_V s s') as (SF & S1 & S2); [rewrite A; apply upd_length|lia|rewrite B; reflexivity|].
    assert (Hf : fip s = true) by (eapply locked; [exact HI|exact Hp|reflexivity]).
    destruct (full s) eqn:F.
    + left. apply S1. unfold psi, psiA. rewrite SF, F, D, Hf. pose proof (sumf_pos fpost _ _ _ Hp) as U6.
      change (fpost (FClear k)) with 52 in U6. destruct (Nat.leb _ _); lia.
    + assert (Hd : dist (after_flush k) < dist (FClear k) \/ dist (after_flush k) = 0 /\ dist (FClear k) = 0) by (destruct k; cbn; lia).
      destruct Hd as [Hd|[Hd1 Hd2]].
      * left. apply S1. unfold psi, psiB. rewrite SF, F. lia.
      * right. constructor; auto; try congruence; try (rewrite B; lia).
        -- apply S2. unfold psi, psiB. rewrite SF, F. lia.
        -- unfold keyp. rewrite F. intros [H3 _]. lia.
  - pose proof (sumf_upd ftry _ _ _ (PRel n e) Hp) as U1. pose proof (sumf_upd dist _ _ _ (PRel n e) Hp) as U2.
    pose proof (sumf_upd fget _ _ _ (PRel n e) Hp) as U3. pose proof (sumf_upd fpost _ _ _ (PRel n e) Hp) as U4.
    pose proof (sumf_upd ftas _ _ _ (PRel n e) Hp) as U5. rewrite <- A in U1, U2, U3, U4, U5.
    cbn [ftry trying length dist fget fpost post ftas] in U1, U2, U3, U4, U5.
    change (ftry (PAdd n e)) with 0 in *. change (ftry (PRel n e)) with 0 in *.
    change (fpost (PAdd n e)) with 0 in *. change (fpost (PRel n e)) with 0 in *.
    destruct (same_V s s') as (SF & S1 & S2); [rewrite A; apply upd_length|lia|rewrite B; apply set_stage_len|].
    destruct (full s) eqn:F.
    2:{ left. apply S1. unfold psi, psiB. rewrite SF, F. lia. }
    pose proof (proj1 (I_add C s HI n e) (in_adding s t n e Hp)) as HIn.
    destruct (head_set (q s) n e Reserved Sized (inv_nodup C s HI) HIn) as [(r & Q1 & Q2)|(x & r & Q1 & Q2 & Q3)].
    + assert (L1 : left_of (q s) = 2) by (rewrite Q1; reflexivity).
      assert (L2 : left_of (q s') = 1) by (rewrite B, Q2; reflexivity).
      destruct (fip s) eqn:Ef; [destruct (Nat.leb_spec 1 (sumf fget (thr s))) as [G|G]|].
      * left. apply S1. unfold psi, psiA. rewrite SF, F, D, Ef, L1, L2. lia.
      * right. constructor; auto; try congruence; try lia.
        -- apply S2. unfold psi, psiA. rewrite SF, F, D, Ef, L1, L2. lia.
        -- unfold keyp. rewrite F, Ef. cbn. intros [H3|[[H3 _]|[H3 _]]]; try discriminate. lia.
      * right. constructor; auto; try congruence; try lia.
        -- apply S2. unfold psi, psiA. rewrite SF, F, D, Ef. replace (sumf ftas (thr s')) with (sumf ftas (thr s)) by lia. reflexivity.
        -- unfold keyp. rewrite F, Ef. cbn. intros [H3|[_ [? H3]]]; discriminate.
    + assert (L1 : left_of (q s') = left_of (q s)) by (rewrite B, Q3, Q1; reflexivity).
      right. constructor; auto; try congruence; try lia.
      * apply S2. unfold psi, psiA. rewrite SF, F, D, L1. destruct (fip s); [f_equal; [f_equal|]; lia|].
        replace (sumf ftas (thr s')) with (sumf ftas (thr s)) by lia. reflexivity.
      * intros _ _ H3 _. split; [lia|rewrite B, Q3, Q1; reflexivity].
      * unfold keyp. rewrite F, Q1. destruct (fip s); cbn.
        -- intros [H3|[[H3 _]|[_ [H3 _]]]]; try discriminate. congruence.
        -- intros [H3|[_ [? H3]]]; discriminate.
  - pose proof (sumf_upd ftry _ _ _ PDecide Hp) as U1. pose proof (sumf_upd dist _ _ _ PDecide Hp) as U2.
    pose proof (sumf_upd fget _ _ _ PDecide Hp) as U3. pose proof (sumf_upd fpost _ _ _ PDecide Hp) as U4.
    pose proof (sumf_upd ftas _ _ _ PDecide Hp) as U5. rewrite <- A in U1, U2, U3, U4, U5.
    cbn [ftry trying length dist fget fpost post ftas] in U1, U2, U3, U4, U5.
    change (ftry (@PDecide E)) with 0 in *. change (ftry (PRel n e)) with 0 in *.
    change (fpost (@PDecide E)) with 0 in *. change (fpost (PRel n e)) with 0 in *.
    destruct (same_V s s') as (SF & S1 & S2); [rewrite A; apply upd_length|lia|rewrite B; apply set_stage_len|].
    destruct (full s) eqn:F.
    2:{ left. apply S1. unfold psi, psiB. rewrite SF, F. lia. }
    pose proof (proj1 (I_rel C s HI n e) (in_releasing s t n e Hp)) as HIn.
    destruct (head_set (q s) n e Sized Published (inv_nodup C s HI) HIn) as [(r & Q1 & Q2)|(x & r & Q1 & Q2 & Q3)].
    + assert (L1 : left_of (q s) = 1) by (rewrite Q1; reflexivity).
      assert (L2 : left_of (q s') = 0) by (rewrite B, Q2; reflexivity).
      destruct (fip s) eqn:Ef; [destruct (Nat.leb_spec 1 (sumf fget (thr s))) as [G|G]|].
      * left. apply S1. unfold psi, psiA. rewrite SF, F, D, Ef, L1, L2. lia.
      * right. constructor; auto; try congruence; try lia.
        -- apply S2. unfold psi, psiA. rewrite SF, F, D, Ef, L1, L2. lia.
        -- unfold keyp. rewrite F, Ef. cbn. intros [H3|[[H3 _]|[H3 _]]]; try discriminate. lia.
      * right. constructor; auto; try congruence; try lia.
        -- apply S2. unfold psi, psiA. rewrite SF, F, D, Ef. replace (sumf ftas (thr s')) with (sumf ftas (thr s)) by lia. reflexivity.
        -- unfold keyp. rewrite F, Ef. cbn. intros [H3|[_ [? H3]]]; discriminate.
    + assert (L1 : left_of (q s') = left_of (q s)) by (rewrite B, Q3, Q1; reflexivity).
      right. constructor; auto; try congruence; try lia.
      * apply S2. unfold psi, psiA. rewrite SF, F, D, L1. destruct (fip s); [f_equal; [f_equal|]; lia|].
        replace (sumf ftas (thr s')) with (sumf ftas (thr s)) by lia. reflexivity.
      * intros _ _ H3 _. split; [lia|rewrite B, Q3, Q1; reflexivity].
      * unfold keyp. rewrite F, Q1. destruct (fip s); cbn.
        -- intros [H3|[[H3 _]|[_ [H3 _]]]]; try discriminate. congruence.
        -- intros [H3|[_ [? H3]]]; discriminate.
  - pose proof (sumf_upd ftry _ _ _ p' Hp) as U1. pose proof (sumf_upd dist _ _ _ p' Hp) as U2.
    pose proof (sumf_upd fget _ _ _ p' Hp) as U3. pose proof (sumf_upd fpost _ _ _ p' Hp) as U4. rewrite <- A in U1, U2, U3, U4.
    assert (ftry p' = ftry p) by (unfold ftry; rewrite Ht; reflexivity).
    destruct (same_V s s') as (SF & S1 & S2); [rewrite A; apply upd_length|lia|rewrite B; reflexivity|].
    assert (Hf : fip s = true). { eapply locked; [exact HI|exact Hp|]. destruct p; try discriminate Hpo; reflexivity. }
    destruct (full s) eqn:F.
    + left. apply S1. unfold psi, psiA. rewrite SF, F, D, Hf, B.
      assert (Z : fget p = 0) by (destruct p; try discriminate Hpo; reflexivity).
      assert (Z2 : fpost p = 50 + fd p) by (unfold fpost; rewrite Hpo; reflexivity).
      pose proof (left_le (q s)) as LL. destruct Hpo' as [[P1 P2]|P1].
      * assert (Z3 : fpost p' = 50 + fd p') by (unfold fpost; rewrite P1; reflexivity).
        assert (Z4 : fget p' = 0) by (destruct p'; try discriminate P1; reflexivity).
        replace (sumf fget (thr s')) with (sumf fget (thr s)) by lia. lia.
      * assert (Z3 : fpost p' = 0) by (destruct p'; try discriminate P1; reflexivity).
        replace (sumf fget (thr s')) with (S (sumf fget (thr s))) by lia. lia.
    + destruct Hd as [Hd|[Hd1 Hd2]].
      * left. apply S1. unfold psi, psiB. rewrite SF, F. lia.
      * right. constructor; auto; try congruence; try (rewrite B; lia).
        -- apply S2. unfold psi, psiB. rewrite SF, F. lia.
        -- unfold keyp. rewrite F. intros [H3 _]. lia.
  - pose proof (sumf_upd ftry _ _ _ p' Hp) as U1. pose proof (sumf_upd dist _ _ _ p' Hp) as U2.
    pose proof (sumf_upd fget _ _ _ p' Hp) as U3. pose proof (sumf_upd fpost _ _ _ p' Hp) as U4.
    pose proof (sumf_upd ftas _ _ _ p' Hp) as U5. rewrite <- A in U1, U2, U3, U4, U5.
    assert (ftry p' = 0) by (unfold ftry; rewrite N7; reflexivity).
    assert (ftry p = 0) by (unfold ftry; rewrite N6; reflexivity).
    assert (fpost p' = 0) by (unfold fpost; rewrite N4; reflexivity).
    assert (fpost p = 0) by (unfold fpost; rewrite N1; reflexivity).
    destruct (same_V s s') as (SF & S1 & S2); [rewrite A; apply upd_length|lia|rewrite B; reflexivity|].
    assert (NO : forall l, ~ owner p l).
    { intros l O. unfold owner in O. destruct l as [|y r]; [exact O|]. destruct p as [ |e|n e|n e| | | | | | | | | | | | | | | | | | | | | | ]; try exact O; destruct (N9 n e); congruence. }
    destruct (full s) eqn:F.
    + destruct (fip s) eqn:Ef.
      * right. constructor; auto; try congruence; try (rewrite B; lia).
        -- apply S2. unfold psi, psiA. rewrite SF, F, D, Ef, B. f_equal; [f_equal|]; lia.
        -- intros _ _ H4 _. rewrite B. split; [lia|reflexivity].
        -- unfold keyp. rewrite F, Ef. intros [H4|[[H4 _]|[_ H4]]]; [congruence|lia|destruct (NO _ H4)].
      * destruct (Nat.leb_spec 1 (sumf ftas (thr s))) as [L|L]; [|destruct (Nat.leb_spec 1 (sumf ftas (thr s'))) as [L'|L']].
        -- right. constructor; auto; try congruence; try (rewrite B; lia); try lia.
           ++ apply S2. unfold psi, psiA. rewrite SF, F, D, Ef. destruct (Nat.leb_spec 1 (sumf ftas (thr s))); [|lia].
              destruct (Nat.leb_spec 1 (sumf ftas (thr s'))); lia.
           ++ unfold keyp. rewrite F, Ef. intros [H4|[H4 _]]; lia.
        -- left. apply S1. unfold psi, psiA. rewrite SF, F, D, Ef. destruct (Nat.leb_spec 1 (sumf ftas (thr s))); [lia|].
           destruct (Nat.leb_spec 1 (sumf ftas (thr s'))); lia.
        -- right. constructor; auto; try congruence; try (rewrite B; lia); try lia.
           ++ apply S2. unfold psi, psiA. rewrite SF, F, D, Ef. destruct (Nat.leb_spec 1 (sumf ftas (thr s))); [lia|].
              destruct (Nat.leb_spec 1 (sumf ftas (thr s'))); lia.
           ++ unfold keyp. rewrite F, Ef. intros [H4|[_ [e H4]]]; [lia|destruct (N8 e H4)].
    + destruct Hd as [Hd|[Hd1 Hd2]].
      * left. apply S1. unfold psi, psiB. rewrite SF, F. lia.
      * right. constructor; auto; try congruence; try (rewrite B; lia).
        -- apply S2. unfold psi, psiB. rewrite SF, F. lia.
        -- unfold keyp. rewrite F. intros [H4 _]. lia.
Qed.


Lemma calm_key s s' t p k : calm s s' p -> nth_error (thr s) t = Some p ->
  (exists p', thr s' = upd (thr s) t p') -> Key k s -> Key k s' /\ nth_error (thr s') k = nth_error (thr s) k.
Proof.
  intros HC Hp (p' & A) (x & Hx & Kx). assert (SM : same s s' -> Key k s' /\ nth_error (thr s') k = nth_error (thr s) k).
  { intros (S1 & S2 & S3). split; [|rewrite S1; reflexivity]. exists x. rewrite S1. split; [exact Hx|].
    unfold keyp, full in *. rewrite S1, S2, S3. exact Kx. }
  destruct (Nat.eq_dec k t) as [->|Hk].
  - apply SM. apply (cm_key s s' p HC). congruence.
  - assert (Hn : nth_error (thr s') k = nth_error (thr s) k) by (rewrite A; apply nth_error_upd_other; exact Hk).
    split; [|exact Hn]. exists x. split; [rewrite Hn; exact Hx|]. unfold keyp in *.
    rewrite (cm_full s s' p HC). destruct (full s) eqn:F.
    + rewrite (cm_fip s s' p HC F). destruct (fip s) eqn:Ef.
      * destruct Kx as [K1|[[K1 K2]|[K1 K2]]]; [auto|right; left; split; [exact K1|pose proof (cm_left s s' p HC); lia]|].
        right. right. assert (1 <= left_of (q s)).
        { unfold owner in K2. destruct (q s) as [|y r]; [destruct K2|]. cbn [left_of].
          destruct x; try contradiction; destruct K2 as [_ ->]; lia. }
        destruct (cm_get s s' p HC F Ef K1 H) as [G1 G2]. split; [exact G1|].
        unfold owner in *. destruct (q s) as [|y r]; [destruct K2|]. destruct (q s') as [|y' r']; [discriminate|].
        injection G2 as ->. exact K2.
      * destruct Kx as [K1|[K1 K2]]; [auto|]. right. split; [exact (cm_tas s s' p HC F Ef K1)|exact K2].
    + destruct Kx as [K1 K2]. split; [exact K1|]. intros G. specialize (K2 G). pose proof (cm_left s s' p HC). lia.
Qed.

Definition no_call (m : move E) : Prop := match m with MThread _ c => calls c = false | MDrain _ => True end.
Lemma no_calls_iff ms : no_calls ms -> Forall no_call ms.
Proof. apply Forall_impl. intros [t c|n]; [|auto]. destruct c; cbn; tauto. Qed.

Lemma step_phi s m : Inv C s -> no_call m ->
  Phi (fst (step C s m)) < Phi s \/
  (Phi (fst (step C s m)) = Phi s /\
   forall k, Key k s -> Key k (fst (step C s m)) /\ nth_error (thr (fst (step C s m))) k = nth_error (thr s) k).
Proof.
  intros HI Hm. destruct m as [t c|n]; cbn [step].
  - destruct (nth_error (thr s) t) as [p|] eqn:Hp; [|right; auto].
    destruct (kind_phi s t p _ HI Hp (step_kind s t c p Hp Hm)) as [H|H]; [left; exact H|right].
    split; [exact (cm_phi _ _ _ H)|]. intros k. apply (calm_key s _ t p k H Hp). apply (step_own C s t c p Hp).
  - right. split; [reflexivity|]. intros k Hk. split; [exact Hk|reflexivity].
Qed.

Lemma exec_phi ms : forall s, Inv C s -> Forall no_call ms -> Phi (fst (exec C s ms)) <= Phi s.
Proof.
  induction ms as [|m ms IH]; intros s HI Hm; [cbn; lia|]. inversion Hm as [|? ? M1 M2]; subst.
  cbn [exec]. destruct (step C s m) as [s1 l1] eqn:E1. destruct (exec C s1 ms) as [s2 l2] eqn:E2. cbn [fst].
  pose proof (step_inv C szM s m HI) as I1. rewrite E1 in I1. specialize (IH s1 I1 M2). rewrite E2 in IH. cbn [fst] in *.
  destruct (step_phi s m HI M1) as [H|[H _]]; rewrite E1 in H; cbn [fst] in H; lia.
Qed.

Lemma key_moves k s : Inv C s -> Key k s ->
  (exists c, calls c = false /\ nth_error (thr (fst (step C s (MThread k c)))) k <> nth_error (thr s) k) /\
  nth_error (thr s) k <> Some Idle.
Proof.
  intros HI (p & Hp & Kp).
  assert (GO : (forall kk, p = FGet kk -> left_of (q s) = 0) -> (post p = true \/ fget p = 1 \/ ftas p = 1 \/ 1 <= dist p) ->
    (exists c, calls c = false /\ nth_error (thr (fst (step C s (MThread k c)))) k <> nth_error (thr s) k) /\
    nth_error (thr s) k <> Some Idle).
  { intros Hg Hc. split; [|rewrite Hp; intros G; injection G as ->; cbn in Hc; destruct Hc as [Hc|[Hc|[Hc|Hc]]]; (discriminate || lia)].
    assert (FROM : (exists c, calls c = false /\ exists p', thr (fst (step_thread C s k c p)) = upd (thr s) k p' /\ p' <> p) ->
      exists c, calls c = false /\ nth_error (thr (fst (step C s (MThread k c)))) k <> nth_error (thr s) k).
    { intros (c & Hcc & p' & H1 & H2). exists c. split; [exact Hcc|]. cbn [step]. rewrite Hp, H1.
      rewrite nth_error_upd by (apply nth_error_Some; congruence). congruence. }
    apply FROM. clear FROM.
    destruct p as [ |e|x e|x e| | | |kk|kk|kk e|kk oe|kk|kk|kk|kk|kk|kk| | | | | | | | | ];
      try (exfalso; cbn in Hc; destruct Hc as [Hc|[Hc|[Hc|Hc]]]; (discriminate || lia)); clear Hc.
    - exists (CGo false). split; [reflexivity|]. cbn [step_thread]. destruct (Nat.ltb _ _); (eexists; split; [reflexivity|congruence]).
    - exists (CGo false). split; [reflexivity|]. eexists. split; [reflexivity|congruence].
    - exists (CGo false). split; [reflexivity|]. eexists. split; [reflexivity|congruence].
    - exists (CGo false). split; [reflexivity|]. cbn [step_thread]. destruct (c_lat0 C); [|destruct (N.leb _ _)]; (eexists; split; [reflexivity|congruence]).
    - exists (CGo false). split; [reflexivity|]. eexists. split; [reflexivity|congruence].
    - exists (CGo false). split; [reflexivity|]. cbn [step_thread]. destruct (c_lat0 C); (eexists; split; [reflexivity|congruence]).
    - exists (CGo false). split; [reflexivity|]. cbn [step_thread]. destruct (fip s); (eexists; split; [reflexivity|]); [destruct kk|]; cbn; congruence.
    - specialize (Hg kk eq_refl). exists (CGo false). split; [reflexivity|]. cbn [step_thread]. unfold left_of in Hg. destruct (q s) as [|y r].
      + destruct (c_kind C); (eexists; split; [reflexivity|congruence]).
      + destruct (q_stage y); try discriminate. eexists. split; [reflexivity|congruence].
    - exists (CGo false). split; [reflexivity|]. cbn [step_thread]. destruct (c_kind C); (eexists; split; [reflexivity|congruence]).
    - exists (CGo false). split; [reflexivity|]. cbn [step_thread]. destruct oe; [destruct (opened s)|destruct (c_kind C)]; (eexists; split; [reflexivity|congruence]).
    - exists (CGo true). split; [reflexivity|]. cbn [step_thread]. eexists. split; [reflexivity|]. destruct (c_kind C); congruence.
    - exists (CGo true). split; [reflexivity|]. cbn [step_thread]. eexists. split; [reflexivity|]. destruct (c_kind C); congruence.
    - exists (CGo true). split; [reflexivity|]. eexists. split; [reflexivity|congruence].
    - exists (CGo true). split; [reflexivity|]. eexists. split; [reflexivity|congruence].
    - exists (COpen ROFail). split; [reflexivity|]. eexists. split; [reflexivity|congruence].
    - exists (CGo true). split; [reflexivity|]. eexists. split; [reflexivity|destruct kk; cbn; congruence]. }
  unfold keyp in Kp. destruct (full s); [destruct (fip s)|].
  - destruct Kp as [K1|[[K1 K2]|[K1 K2]]].
    + apply GO; [intros kk ->; discriminate|auto].
    + apply GO; auto.
    + unfold owner in K2. destruct (q s) as [|y r] eqn:Eq; [destruct K2|].
      destruct p; try contradiction; (apply GO; [congruence|cbn; right; right; right; lia]).
  - destruct Kp as [K1|[K1 [e ->]]].
    + apply GO; [intros kk ->; discriminate|auto].
    + apply GO; [congruence|cbn; right; right; right; lia].
  - destruct Kp as [K1 K2]. apply GO; [|auto]. intros kk ->. apply K2. reflexivity.
Qed.

(** A round in which somebody is waited for brings everybody nearer to the end. *)
Lemma round_phi k s ms : Inv C s -> Forall no_call ms -> Key k s -> had_turn C k s ms ->
  Phi (fst (exec C s ms)) < Phi s.
Proof.
  intros HI Hm HK HT. revert HI Hm HK. induction HT as [s ms H|s m ms H|s m ms H IH]; intros HI Hm HK.
  - destruct (key_moves k s HI HK) as [(c & _ & K1) K2]. destruct H as [H|H]; [tauto|]. exfalso. apply H. exists c. exact K1.
  - inversion Hm as [|? ? M1 M2]; subst. cbn [exec].
    destruct (step C s m) as [s1 l1] eqn:E1. destruct (exec C s1 ms) as [s2 l2] eqn:E2. cbn [fst] in *.
    pose proof (step_inv C szM s m HI) as I1. rewrite E1 in I1.
    pose proof (exec_phi ms s1 I1 M2) as L. rewrite E2 in L. cbn [fst] in L.
    destruct (step_phi s m HI M1) as [G|[_ G]]; rewrite E1 in G; cbn [fst] in G; [lia|].
    destruct (G k HK) as [_ G2]. contradiction.
  - inversion Hm as [|? ? M1 M2]; subst. cbn [exec].
    destruct (step C s m) as [s1 l1] eqn:E1. destruct (exec C s1 ms) as [s2 l2] eqn:E2. cbn [fst] in *.
    pose proof (step_inv C szM s m HI) as I1. rewrite E1 in I1.
    destruct (step_phi s m HI M1) as [G|[G1 G2]]; rewrite ?E1 in *; cbn [fst] in *.
    + pose proof (exec_phi ms s1 I1 M2) as L. rewrite E2 in L. cbn [fst] in L. lia.
    + destruct (G2 k HK) as [G3 _]. specialize (IH I1 M2 G3). rewrite E2 in IH. cbn [fst] in IH. lia.
Qed.

(** ** Somebody is waited for as long as a call is running *)
Lemma client_dist p : client_pc p = true -> destroying p = false -> p <> Idle -> 1 <= dist p.
Proof.
  destruct p as [ |e|x e|x e| | | |k|k|k e|k oe|k|k|k|k|k|k| | | | | | | | | ]; cbn; intros A B D;
    try discriminate; try congruence; try lia; destruct k; try discriminate; cbn; lia.
Qed.

Lemma adding_in s n e : In (n, e) (flat_map (@adding E) (thr s)) -> exists t, nth_error (thr s) t = Some (PAdd n e).
Proof.
  intros H. apply in_flat_map in H. destruct H as (p & H1 & H2). apply In_nth_error in H1. destruct H1 as (t & H1).
  exists t. destruct p; cbn in H2; try contradiction; destruct H2 as [H2|[]]; injection H2 as -> ->; exact H1.
Qed.
Lemma releasing_in s n e : In (n, e) (flat_map (@releasing E) (thr s)) -> exists t, nth_error (thr s) t = Some (PRel n e).
Proof.
  intros H. apply in_flat_map in H. destruct H as (p & H1 & H2). apply In_nth_error in H1. destruct H1 as (t & H1).
  exists t. destruct p; cbn in H2; try contradiction; destruct H2 as [H2|[]]; injection H2 as -> ->; exact H1.
Qed.

Lemma head_owner s : Inv C s -> 1 <= left_of (q s) -> exists t p, nth_error (thr s) t = Some p /\ owner p (q s).
Proof.
  intros HI HL. destruct (q s) as [|[n e st] r] eqn:Eq; [cbn in HL; lia|]. cbn in HL.
  assert (Hin : In (mkEntry n e st) (q s)) by (rewrite Eq; left; reflexivity). destruct st; [| |lia].
  - apply (I_add C s HI) in Hin. destruct (adding_in s n e Hin) as (t & Ht). exists t, (PAdd n e). split; [exact Ht|]. cbn. auto.
  - apply (I_rel C s HI) in Hin. destruct (releasing_in s n e Hin) as (t & Ht). exists t, (PRel n e). split; [exact Ht|]. cbn. auto.
Qed.

Lemma key_exists s t p : Inv C s -> nth_error (thr s) t = Some p -> 1 <= dist p -> exists k, Key k s.
Proof.
  intros HI Hp Hd. destruct (full s) eqn:F; [destruct (fip s) eqn:Ef|].
  - pose proof (I_flag C s HI) as G. rewrite Ef in G.
    assert (Hin : In tt (flat_map (@fl E) (thr s))) by (rewrite G; left; reflexivity).
    apply in_flat_map in Hin. destruct Hin as (x & X1 & X2). apply In_nth_error in X1. destruct X1 as (u & X1).
    assert (X3 : post x = true \/ fget x = 1) by (destruct x; try destruct X2; cbn; auto). clear X2. destruct X3 as [X3|X3].
    + exists u, x. split; [exact X1|]. unfold keyp. rewrite F, Ef. auto.
    + destruct (Nat.eq_dec (left_of (q s)) 0) as [L|L].
      * exists u, x. split; [exact X1|]. unfold keyp. rewrite F, Ef. auto.
      * destruct (head_owner s HI) as (v & y & Y1 & Y2); [lia|]. exists v, y. split; [exact Y1|].
        unfold keyp. rewrite F, Ef. right. right. split; [|exact Y2]. pose proof (sumf_pos fget _ _ _ X1). lia.
  - destruct (Nat.eq_dec (sumf ftas (thr s)) 0) as [L|L].
    + assert (T : 1 <= sumf ftry (thr s)). { unfold full in F. apply andb_prop in F. destruct F as [_ F]. apply Nat.leb_le in F. exact F. }
      destruct (sumf_ex ftry (thr s) T) as (u & x & X1 & X2).
      destruct (unlocked s HI Ef) as [Z1 Z2]. pose proof (sumf_pos fget _ _ _ X1). pose proof (sumf_pos fpost _ _ _ X1).
      pose proof (sumf_pos ftas _ _ _ X1). exists u, x. split; [exact X1|]. unfold keyp. rewrite F, Ef. right. split; [exact L|].
      destruct x; cbn in X2, H, H0, H1; try lia. eauto.
    + destruct (sumf_ex ftas (thr s)) as (u & x & X1 & X2); [lia|]. exists u, x. split; [exact X1|]. unfold keyp. rewrite F, Ef.
      left. destruct x; cbn in *; lia.
  - destruct (Nat.eq_dec (left_of (q s)) 0) as [L|L].
    + exists t, p. split; [exact Hp|]. unfold keyp. rewrite F. auto.
    + destruct (head_owner s HI) as (v & y & Y1 & Y2); [lia|]. exists v, y. split; [exact Y1|].
      unfold keyp. rewrite F. unfold owner in Y2. destruct (q s); [destruct Y2|]. destruct y; try contradiction; cbn; (split; [lia|discriminate]).
Qed.

(** ** Calls stay finished *)
Lemma idle_step s m : clients_idle s = true -> no_call m -> clients_idle (fst (step C s m)) = true.
Proof.
  intros Hi Hm. destruct m as [t c|n]; cbn [step]; [|exact Hi].
  destruct (nth_error (thr s) t) as [p|] eqn:Hp; [|exact Hi].
  destruct t as [|t].
  - destruct (step_own C s 0 c p Hp) as [_ (p' & A)]. unfold clients_idle in *. rewrite A.
    destruct (thr s); [discriminate|exact Hi].
  - unfold clients_idle in Hi. destruct (thr s) as [|w cs] eqn:Et; [destruct t; discriminate|]. cbn in Hp, Hi.
    rewrite forallb_forall in Hi. pose proof (Hi p (nth_error_In _ _ Hp)) as Hx. destruct p; try discriminate Hx.
    destruct c; try discriminate Hm; cbn [step_thread fst]; unfold clients_idle; rewrite Et; cbn; apply forallb_forall; exact Hi.
Qed.

Lemma idle_exec ms : forall s, clients_idle s = true -> Forall no_call ms -> clients_idle (fst (exec C s ms)) = true.
Proof.
  induction ms as [|m ms IH]; intros s Hi Hm; [exact Hi|]. inversion Hm as [|? ? M1 M2]; subst.
  cbn [exec]. pose proof (idle_step s m Hi M1) as I1. destruct (step C s m) as [s1 l1] eqn:E1. specialize (IH s1 I1 M2).
  destruct (exec C s1 ms) as [s2 l2]. exact IH.
Qed.

Lemma alive_step op s m : Life C op s -> alive s = true -> no_call m -> alive (fst (step C s m)) = true.
Proof.
  intros HL Ha Hm. destruct m as [t c|n]; cbn [step]; [|exact Ha].
  destruct (nth_error (thr s) t) as [p|] eqn:Hp; [|exact Ha].
  destruct HL as (w & cs & Et & _ & Hcl & _).
  destruct t as [|t].
  - destruct (step_own C s 0 c p Hp) as [_ (p' & A)]. unfold alive in *. rewrite A. rewrite Et in *. exact Ha.
  - assert (Hd : destroying p = false /\ client_pc p = true).
    { unfold alive in Ha. rewrite Et in Hp, Ha. cbn in Hp, Ha. rewrite forallb_forall in Ha. pose proof (nth_error_In _ _ Hp) as Hin.
      specialize (Ha p Hin). rewrite Forall_forall in Hcl. split; [|exact (Hcl p Hin)]. destruct (destroying p); [discriminate|reflexivity]. }
    destruct Hd as [Hd Hc]. destruct (is_idle p) eqn:Ei.
    + destruct p; try discriminate Ei. destruct c; try discriminate Hm; exact Ha.
    + destruct (client_step_alive C s (S t) c p (Nat.neq_succ_0 t) Hc Hd Hp) as (p' & A & _ & _ & [D|(D & _)]); [|subst; discriminate].
      unfold alive in *. rewrite A. rewrite Et in *. cbn [upd tl] in *. apply forallb_forall. rewrite forallb_forall in Ha.
      assert (Fx : Forall (fun x => negb (destroying x) = true) (upd cs t p')).
      { apply upd_Forall; [apply Forall_forall; exact Ha|rewrite D; reflexivity]. }
      rewrite Forall_forall in Fx. exact Fx.
Qed.

Lemma alive_exec op ms : forall s, Life C op s -> alive s = true -> Forall no_call ms -> alive (fst (exec C s ms)) = true /\ Life C op (fst (exec C s ms)).
Proof.
  induction ms as [|m ms IH]; intros s HL Ha Hm; [split; assumption|]. inversion Hm as [|? ? M1 M2]; subst.
  cbn [exec]. pose proof (alive_step op s m HL Ha M1) as A1. pose proof (step_life C op s m HL) as L1.
  destruct (step C s m) as [s1 l1] eqn:E1. specialize (IH s1 L1 A1 M2). destruct (exec C s1 ms) as [s2 l2]. exact IH.
Qed.

Lemma busy_key op s : Inv C s -> Life C op s -> alive s = true -> clients_idle s = false -> exists k, Key k s /\ k < length (thr s).
Proof.
  intros HI (w & cs & Et & _ & Hcl & _) Ha Hi. unfold clients_idle, alive in *. rewrite Et in Hi, Ha. cbn [tl] in Hi, Ha.
  assert (EX : exists t p, nth_error cs t = Some p /\ p <> Idle).
  { clear - Hi. induction cs as [|x cs IH]; [discriminate|]. cbn in Hi. destruct (is_idle x) eqn:Ex.
    - destruct (IH Hi) as (t & p & H). exists (S t), p. exact H.
    - exists 0, x. split; [reflexivity|]. intros ->. discriminate. }
  destruct EX as (t & p & Hp & Hn). pose proof (nth_error_In _ _ Hp) as Hin. rewrite forallb_forall in Ha. specialize (Ha p Hin).
  rewrite Forall_forall in Hcl. specialize (Hcl p Hin).
  destruct (key_exists s (S t) p HI) as (k & Hk); [rewrite Et; exact Hp|apply client_dist; auto; destruct (destroying p); [discriminate|reflexivity]|].
  exists k. split; [exact Hk|]. destruct Hk as (x & Hx & _). apply nth_error_Some. congruence.
Qed.

Lemma rounds_finish op k s ms : rounds C k s ms -> Inv C s -> Life C op s -> alive s = true ->
  clients_idle (fst (exec C s ms)) = true \/ Phi (fst (exec C s ms)) + k <= Phi s.
Proof.
  induction 1 as [s|k s ms ms' [HN HT] HR IH]; intros HI HL Ha; [right; cbn; lia|].
  apply no_calls_iff in HN. destruct (alive_exec op ms s HL Ha HN) as [A1 L1]. pose proof (exec_inv C szM ms s HI) as I1.
  rewrite exec_app. destruct (exec C s ms) as [s1 l1] eqn:E1. cbn [fst] in *. specialize (IH I1 L1 A1).
  destruct (exec C s1 ms') as [s2 l2] eqn:E2. cbn [fst] in *. destruct IH as [IH|IH]; [left; exact IH|].
  destruct (clients_idle s) eqn:Ei.
  - left. pose proof (idle_exec ms s Ei HN) as J1. rewrite E1 in J1. cbn [fst] in J1.
    assert (N2 : Forall no_call ms').
    { clear - HR. induction HR as [|k s ms ms' [HN _] _ IH]; [constructor|]. apply Forall_app. split; [apply no_calls_iff; exact HN|exact IH]. }
    pose proof (idle_exec ms' s1 J1 N2) as J2. rewrite E2 in J2. exact J2.
  - right. destruct (busy_key op s HI HL Ha Ei) as (u & HK & Hu).
    pose proof (round_phi u s ms HI HN HK (HT u Hu)) as G. rewrite E1 in G. cbn [fst] in G. lia.
Qed.

Lemma Phi_bound s : Phi s < (200 + 100 * length (thr s)) * (1 + 2 * length (thr s) + length (q s)).
Proof.
  unfold Phi. pose proof (psi_lt s) as P. unfold W in *. unfold V. pose proof (sumf_le ftry 1 (thr s) ftry_le) as S1.
  set (w := 200 + 100 * length (thr s)) in *. set (a := 2 * sumf ftry (thr s) + length (q s)).
  assert (w * (a + 1) <= w * (1 + 2 * length (thr s) + length (q s))) by (apply Nat.mul_le_mono_l; lia). lia.
Qed.

Theorem fair_finish op n s ls k ms s' l : has_dest C op -> reach C op n s ls -> alive s = true ->
  rounds C k s ms -> (200 + 100 * length (thr s)) * (1 + 2 * length (thr s) + length (q s)) <= k ->
  exec C s ms = (s', l) -> clients_idle s' = true.
Proof.
  intros Hd Hr Ha HR Hk He. pose proof (rounds_finish op k s ms HR (reach_inv C op n s ls sz Hd Hr) (reach_life C op n s ls Hr) Ha) as G.
  rewrite He in G. cbn [fst] in G. destruct G as [G|G]; [exact G|]. pose proof (Phi_bound s). lia.
Qed.

(** Some thread can always go on, and a way to the end exists. *)
Lemma completes op N : forall s, Phi s <= N -> Inv C s -> Life C op s -> alive s = true ->
  exists ms, no_calls ms /\ clients_idle (fst (exec C s ms)) = true.
Proof.
  induction N as [|N IH]; intros s HP HI HL Ha;
    (destruct (clients_idle s) eqn:Ei; [exists []; split; [constructor|exact Ei]|]);
    destruct (busy_key op s HI HL Ha Ei) as (k & HK & _); destruct (key_moves k s HI HK) as [(c & Hc & Hm) _];
    assert (NC : no_call (MThread k c)) by exact Hc;
    (destruct (step_phi s (MThread k c) HI NC) as [G|[_ G]]; [|destruct (G k HK) as [_ G2]; contradiction]); [lia|].
  destruct (IH (fst (step C s (MThread k c)))) as (ms & M1 & M2); [lia|apply (step_inv C szM); exact HI|apply step_life; exact HL|
    eapply alive_step; eassumption|].
  exists (MThread k c :: ms). split.
  - constructor; [|exact M1]. destruct c; try discriminate Hc; exact I.
  - cbn [exec]. destruct (step C s (MThread k c)) as [s1 l1]. cbn [fst] in M2. destruct (exec C s1 ms) as [s2 l2]. exact M2.
Qed.

Theorem completable op n s ls : has_dest C op -> reach C op n s ls -> alive s = true ->
  exists ms s' l, no_calls ms /\ exec C s ms = (s', l) /\ clients_idle s' = true.
Proof.
  intros Hd Hr Ha. destruct (completes op (Phi s) s (le_n _) (reach_inv C op n s ls sz Hd Hr) (reach_life C op n s ls Hr) Ha) as (ms & M1 & M2).
  destruct (exec C s ms) as [s' l] eqn:Em. exists ms, s', l. auto.
Qed.

(** Rounds exist from every state: the hypothesis of [fair_finish] can always be met. *)
Lemma move_or_not s t p : nth_error (thr s) t = Some p -> p <> Idle ->
  (exists c, calls c = false /\ nth_error (thr (fst (step C s (MThread t c)))) t <> nth_error (thr s) t) \/ ~ can_move C t s.
Proof using Type.
  intros Hp Hn. assert (L : t < length (thr s)) by (apply nth_error_Some; congruence).
  assert (YES : (exists c, calls c = false /\ exists p', thr (fst (step_thread C s t c p)) = upd (thr s) t p' /\ p' <> p) ->
     exists c, calls c = false /\ nth_error (thr (fst (step C s (MThread t c)))) t <> nth_error (thr s) t).
  { intros (c & Hcc & p' & H1 & H2). exists c. split; [exact Hcc|]. cbn [step]. rewrite Hp, H1.
    rewrite nth_error_upd by exact L. congruence. }
  assert (NO : (forall c, fst (step_thread C s t c p) = s) -> ~ can_move C t s).
  { intros H (c & Hc). cbn [step] in Hc. rewrite Hp, H in Hc. congruence. }
  destruct p as [ |e|x e|x e| | | |kk|kk|kk e|kk oe|kk|kk|kk|kk|kk|kk| | | | | | | | | ].
  - congruence.
  - left. apply YES. exists (CGo false). split; [reflexivity|]. cbn [step_thread]. destruct (Nat.ltb _ _); (eexists; split; [reflexivity|congruence]).
  - left. apply YES. exists (CGo false). split; [reflexivity|]. eexists. split; [reflexivity|congruence].
  - left. apply YES. exists (CGo false). split; [reflexivity|]. eexists. split; [reflexivity|congruence].
  - left. apply YES. exists (CGo false). split; [reflexivity|]. cbn [step_thread]. destruct (c_lat0 C); [|destruct (N.leb _ _)]; (eexists; split; [reflexivity|congruence]).
  - left. apply YES. exists (CGo false). split; [reflexivity|]. eexists. split; [reflexivity|congruence].
  - left. apply YES. exists (CGo false). split; [reflexivity|]. cbn [step_thread]. destruct (c_lat0 C); (eexists; split; [reflexivity|congruence]).
  - left. apply YES. exists (CGo false). split; [reflexivity|]. cbn [step_thread]. destruct (fip s); (eexists; split; [reflexivity|]); [destruct kk|]; cbn; congruence.
  - destruct (q s) as [|y r] eqn:Eq.
    + left. apply YES. exists (CGo false). split; [reflexivity|]. cbn [step_thread]. rewrite Eq. destruct (c_kind C); (eexists; split; [reflexivity|congruence]).
    + destruct (q_stage y) eqn:Ey.
      * right. apply NO. intros c. cbn [step_thread]. rewrite Eq, Ey. reflexivity.
      * right. apply NO. intros c. cbn [step_thread]. rewrite Eq, Ey. reflexivity.
      * left. apply YES. exists (CGo false). split; [reflexivity|]. cbn [step_thread]. rewrite Eq, Ey. eexists. split; [reflexivity|congruence].
  - left. apply YES. exists (CGo false). split; [reflexivity|]. cbn [step_thread]. destruct (c_kind C); (eexists; split; [reflexivity|congruence]).
  - left. apply YES. exists (CGo false). split; [reflexivity|]. cbn [step_thread]. destruct oe; [destruct (opened s)|destruct (c_kind C)]; (eexists; split; [reflexivity|congruence]).
  - left. apply YES. exists (CGo true). split; [reflexivity|]. cbn [step_thread]. eexists. split; [reflexivity|]. destruct (c_kind C); congruence.
  - left. apply YES. exists (CGo true). split; [reflexivity|]. cbn [step_thread]. eexists. split; [reflexivity|]. destruct (c_kind C); congruence.
  - left. apply YES. exists (CGo true). split; [reflexivity|]. eexists. split; [reflexivity|congruence].
  - left. apply YES. exists (CGo true). split; [reflexivity|]. eexists. split; [reflexivity|congruence].
  - left. apply YES. exists (COpen ROFail). split; [reflexivity|]. eexists. split; [reflexivity|congruence].
  - left. apply YES. exists (CGo true). split; [reflexivity|]. eexists. split; [reflexivity|destruct kk; cbn; congruence].
  - left. apply YES. exists (CWake true). split; [reflexivity|]. eexists. split; [reflexivity|congruence].
  - left. apply YES. exists (CGo true). split; [reflexivity|]. eexists. split; [reflexivity|congruence].
  - left. apply YES. exists (CGo true). split; [reflexivity|]. cbn [step_thread]. eexists. split; [reflexivity|]. destruct (q s); congruence.
  - right. apply NO. intros c. reflexivity.
  - left. apply YES. exists (CGo true). split; [reflexivity|]. eexists. split; [reflexivity|congruence].
  - left. apply YES. exists (CGo true). split; [reflexivity|]. eexists. split; [reflexivity|congruence].
  - destruct (nth_error (thr s) 0) as [w|] eqn:Hw; [destruct w eqn:Ew|];
      try (right; apply NO; intros c; cbn [step_thread]; rewrite Hw; reflexivity).
    left. apply YES. exists (CGo true). split; [reflexivity|]. cbn [step_thread]. rewrite Hw. eexists. split; [reflexivity|congruence].
  - left. apply YES. exists (CGo true). split; [reflexivity|]. cbn [step_thread]. destruct (c_kind C); (eexists; split; [reflexivity|congruence]).
  - right. apply NO. intros c. reflexivity.
Qed.

Lemma turn_app t s ms ms' : had_turn C t s ms -> had_turn C t s (ms ++ ms').
Proof using Type. induction 1; cbn [app]; [apply ht_now; assumption|apply ht_move; assumption|apply ht_later; assumption]. Qed.
Lemma turn_after t ms ms' : forall s, had_turn C t (fst (exec C s ms)) ms' -> had_turn C t s (ms ++ ms').
Proof using Type.
  induction ms as [|m ms IH]; intros s H; [exact H|]. cbn [app]. apply ht_later. apply IH.
  cbn [exec] in H. destruct (step C s m) as [s1 l1]. cbn [fst]. destruct (exec C s1 ms) as [s2 l2]. exact H.
Qed.

Lemma turn_exists t s : exists ms, no_calls ms /\ had_turn C t s ms.
Proof using Type.
  destruct (nth_error (thr s) t) as [p|] eqn:Hp.
  - destruct (is_idle p) eqn:Ei.
    + destruct p; try discriminate Ei. exists []. split; [constructor|]. apply ht_now. auto.
    + destruct (move_or_not s t p Hp) as [(c & Hc & H)|H]; [intros ->; discriminate| |].
      * exists [MThread t c]. split; [constructor; [destruct c; try discriminate Hc; exact I|constructor]|]. apply ht_move. exact H.
      * exists []. split; [constructor|]. apply ht_now. auto.
  - exists []. split; [constructor|]. apply ht_now. right. intros (c & Hc). cbn [step] in Hc. rewrite Hp in Hc. cbn [fst] in Hc. congruence.
Qed.

Lemma round_exists s : exists ms, fair_round C s ms.
Proof using Type.
  assert (G : forall N, exists ms, no_calls ms /\ forall t, t < N -> had_turn C t s ms).
  { induction N as [|N (ms & M1 & M2)]; [exists []; split; [constructor|intros t Ht; inversion Ht]|].
    destruct (turn_exists N (fst (exec C s ms))) as (ms' & M3 & M4). exists (ms ++ ms'). split; [apply Forall_app; split; assumption|].
    intros t Ht. destruct (Nat.eq_dec t N) as [->|Hn]; [apply turn_after; exact M4|apply turn_app; apply M2; clear - Ht Hn; lia]. }
  destruct (G (length (thr s))) as (ms & M). exists ms. exact M.
Qed.

Theorem rounds_exist k : forall s, exists ms, rounds C k s ms.
Proof using Type.
  induction k as [|k IH]; intros s; [exists []; constructor|]. destruct (round_exists s) as (ms & H).
  destruct (IH (fst (exec C s ms))) as (ms' & H'). exists (ms ++ ms'). apply rounds_S; assumption.
Qed.

End Fair.
