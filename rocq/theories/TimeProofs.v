(** * Proofs about the worker in time *)

From Coq Require Import List Arith Bool Lia.
From Verif Require Import TimeModel TimeSpec.
Import ListNotations.

Set Implicit Arguments.

Section Proofs.
Context {E : Type}.
Variable c : cfg E.
Notation L := (c_latency c).
Notation state := (state E).

Lemma run_app s h s1 h1 s2 : run c s h s1 -> run c s1 h1 s2 -> run c s (h ++ h1) s2.
Proof. induction 1; simpl; auto. intros. econstructor; eauto. Qed.

Lemma run_snoc s h s1 l s2 : run c s h s1 -> step c s1 l s2 -> run c s (h ++ [(s1, l)]) s2.
Proof. intros. eapply run_app; eauto. econstructor; eauto. constructor. Qed.

Lemma run_inv s hh s2 : run c s hh s2 ->
  (hh = [] /\ s = s2) \/ exists h s1 l, hh = h ++ [(s1, l)] /\ run c s h s1 /\ step c s1 l s2.
Proof.
  induction 1; [left; auto|right].
  destruct IHrun as [[-> ->]|(h' & s' & l' & -> & Hr & Hs)].
  - exists [], s, l. repeat split; auto. constructor.
  - exists ((s, l) :: h'), s', l'. repeat split; auto. econstructor; eauto.
Qed.

(** Invariant along a run, with the history. *)
Lemma run_ind_r (P : list (state * label E) -> state -> Prop) s0 :
  P [] s0 ->
  (forall h s l s', run c s0 h s -> P h s -> step c s l s' -> P (h ++ [(s, l)]) s') ->
  forall h s, run c s0 h s -> P h s.
Proof.
  intros H0 Hs h. induction h using rev_ind; intros s Hr.
  - inversion Hr; subst; auto.
  - destruct (run_inv Hr) as [[Hx _]|(h' & s1 & l & Hh & Hr' & Hst)].
    + destruct h; discriminate.
    + apply app_inj_tail in Hh as [<- ->]. eapply Hs; eauto.
Qed.

Lemma now_flush s : now (flush c s) = now s.
Proof. unfold flush, flush_buffered, flush_syslog. destruct (c_kind c); auto. destruct (queue s); auto. Qed.
Lemma now_put e s : now (put c e s) = now s.
Proof. unfold put. destruct (Nat.leb _ _); auto. Qed.
Lemma next_put e s : next (put c e s) = next s.
Proof. unfold put. destruct (Nat.leb _ _); auto. Qed.
Lemma now_push e s : now (push c e s) = now s.
Proof. unfold push. destruct (Nat.ltb _ _); rewrite now_put; auto using now_flush. Qed.
Lemma work_flush s : work (flush c s) = work s.
Proof. unfold flush, flush_buffered, flush_syslog. destruct (c_kind c); auto. destruct (queue s); auto. Qed.
Lemma finalize_flush s : finalize (flush c s) = finalize s.
Proof. unfold flush, flush_buffered, flush_syslog. destruct (c_kind c); auto. destruct (queue s); auto. Qed.

Section Buffered.
Hypothesis Hk : c_kind c = Buffered.

Lemma flush_b s : flush c s = flush_buffered c s.
Proof. unfold flush. rewrite Hk. reflexivity. Qed.

(** ** How often the worker wakes *)

Lemma next_flush s : next s <= now s + L -> next s <= next (flush c s) /\ next (flush c s) <= now s + L.
Proof.
  rewrite flush_b. unfold flush_buffered. destruct (queue s); cbn; [|lia].
  destruct (c_tiny c || Nat.leb (next s) (now s)) eqn:H; lia.
Qed.



Lemma next_push e s : next s <= now s + L -> next s <= next (push c e s) /\ next (push c e s) <= now s + L.
Proof.
  intros H. unfold push. destruct (Nat.ltb _ _); rewrite next_put; [lia|]. apply next_flush; auto.
Qed.

Lemma wakes_app h h' : wakes (h ++ h' : list (state * label E)) = wakes h + wakes h'.
Proof. induction h as [|[s l] h IH]; cbn; auto. destruct l; cbn; lia. Qed.

Definition waking (t w : nat) (s : state) : Prop :=
  t <= now s /\ t <= next s /\ next s <= now s + L /\ w * L <= 2 * (now s - t) + 2 * L /\
  match work s with
  | Waiting _ u => t <= u /\ u <= next s /\ (w + 1) * L <= 2 * (u - t) + 2 * L /\
      (next s = u \/ (w + 2) * L <= 2 * (next s - t) + 2 * L)
  | Running => next s <= now s \/ (w + 1) * L <= 2 * (next s - t) + 2 * L
  | Stopped => True
  end.

Lemma next_flush_cases s : next (flush c s) = now s + L \/ (next (flush c s) = next s /\ now s < next s).
Proof.
  rewrite flush_b. unfold flush_buffered. destruct (queue s); cbn; [|auto].
  destruct (c_tiny c); cbn; [auto|]. destruct (Nat.leb_spec (next s) (now s)); auto.
Qed.

Lemma round_eq0 s : finalize s = false -> round c s = set_work (flush c s) (Waiting false (next (flush c s))).
Proof. intros F. unfold round. rewrite finalize_flush, F. reflexivity. Qed.

Lemma waking_flush t w s : waking t w s -> waking t w (flush c s).
Proof.
  unfold waking. rewrite now_flush, work_flush. intros (A & B & B' & C & D).
  destruct (next_flush_cases s) as [-> | [-> _]]; [|auto].
  split; [auto|]. split; [lia|]. split; [auto|]. split; [auto|].
  destruct (work s); auto; [|right; nia].
  destruct D as (D1 & D2 & D3 & D4). split; [auto|]. split; [lia|]. split; [auto|right; nia].
Qed.

Lemma waking_async t w s : waking t w s -> waking t w (async_flush s).
Proof. unfold waking. cbn. destruct (work s); cbn; auto. Qed.

Lemma waking_put t w e s : waking t w s -> waking t w (put c e s).
Proof. intros H. unfold put. destruct (Nat.leb _ _); [apply waking_async|]; exact H. Qed.

Lemma waking_woken t w s b u : work s = Waiting b u -> waking t w s -> waking t w (woken s).
Proof.
  unfold waking, woken. cbn. intros -> (A & B & B' & C & D1 & D2 & D3 & D4).
  split; [auto|]. split; [auto|]. split; [auto|]. split; [auto|].
  destruct (must_flush s || finalize s); [right; nia|]. split; [auto|]. split; [auto|]. split; [nia|auto].
Qed.

Lemma sleeps_inv t h s : run c (start t) h s -> waking t (wakes h) s.
Proof.
  revert h s. apply run_ind_r; [unfold waking; cbn; lia|].
  intros h s l s' _ I St. rewrite wakes_app.
  inversion St; subst; clear St; cbn [wakes]; try rewrite Nat.add_0_r.
  - unfold push. destruct (Nat.ltb _ _); apply waking_put; auto using waking_flush.
  - auto using waking_flush.
  - auto using waking_async.
  - apply waking_async. exact I.
  - unfold waking in *. cbn. destruct I as (A & B & B' & C & D).
    split; [lia|]. split; [auto|]. split; [lia|]. split; [lia|]. destruct (work s); auto. lia.
  - unfold waking in *. cbn. rewrite H in I. destruct I as (A & B & B' & C & D1 & D2 & D3 & D4).
    split; [auto|]. split; [auto|]. split; [auto|]. split; [nia|]. destruct D4; [left; lia|right; nia].
  - eapply waking_woken; eauto.
  - eapply waking_woken; eauto.
  - unfold waking, round in *. rewrite H in I. cbn [set_work now next work]. rewrite now_flush.
    destruct I as (A & B & B' & C & D).
    destruct (next_flush_cases s) as [-> | [-> Hlt]]; (split; [auto|]); (split; [lia|]); (split; [lia|]); (split; [auto|]);
      (destruct (_ && _); [auto|]); (split; [lia|]); (split; [auto|]); (split; [nia|auto]).
  - exact I.
Qed.

Lemma sleeps t h s : run c (start t) h s -> wakes h * L <= 2 * (now s - t) + 2 * L.
Proof. intros R. destruct (sleeps_inv R) as (_ & _ & _ & C & _). exact C. Qed.

(** Nobody uses the sink from the time [t0] on. *)
Definition quiet (t0 w : nat) (s : state) : Prop :=
  t0 <= now s /\ w * L <= now s - t0 + 2 * L /\
  match work s with
  | Waiting _ u => w = 0 \/ (u = next s /\ t0 <= u /\ w * L <= u - t0 + L)
  | Running => w <= 1 \/ next s <= now s \/ (t0 <= next s /\ w * L <= next s - t0 + L)
  | Stopped => True
  end.

Lemma quiet_step t0 w s l s' : quiet t0 w s -> unused l -> step c s l s' ->
  quiet t0 (match l with Wake => S w | _ => w end) s'.
Proof.
  intros (A & B & D) U St. inversion St; subst; clear St; try contradiction.
  - unfold quiet. cbn. split; [lia|]. split; [lia|]. destruct (work s); auto.
    destruct D as [D|[D|[D1 D2]]]; auto. right. left. lia.
  - rewrite H in D. unfold quiet. cbn. split; [auto|].
    destruct D as [->|(-> & D1 & D2)]; [split; [nia|left; lia]|]. split; [nia|]. right. left. auto.
  - rewrite H in D. unfold quiet, woken. cbn. split; [auto|]. split; [auto|].
    destruct (must_flush s || finalize s); destruct D as [->|(-> & D1 & D2)]; auto; lia.
  - rewrite H in D. unfold quiet, woken. cbn. split; [auto|]. split; [auto|].
    destruct (must_flush s || finalize s); destruct D as [->|(-> & D1 & D2)]; auto; lia.
  - rewrite H in D. unfold quiet, round. cbn [set_work now next work]. rewrite now_flush.
    split; [auto|]. split; [auto|]. destruct (_ && _); [auto|]. right. split; [auto|].
    destruct (next_flush_cases s) as [-> | [-> Hlt]]; [split; [lia|nia]|].
    destruct D as [D|[D|[D1 D2]]]; try lia. split; [lia|nia].
  - exact (conj A (conj B D)).
Qed.

Lemma sleeps_unused s h s' : run c s h s' -> only (@unused E) h -> wakes h * L <= now s' - now s + 2 * L.
Proof.
  intros R O. assert (Q : quiet (now s) (wakes h) s').
  { revert h s' R O. apply (@run_ind_r (fun h s' => only (@unused E) h -> quiet (now s) (wakes h) s')).
    - intros _. unfold quiet. cbn. split; [auto|]. split; [lia|]. destruct (work s); auto.
    - intros h s1 l s2 _ IH St O. apply Forall_app in O as [O1 O2]. inversion O2; subst.
      rewrite wakes_app. pose proof (quiet_step (IH O1) H1 St) as Q.
      replace (wakes h + wakes [(s1, l)]) with (match l with Wake => S (wakes h) | _ => wakes h end); [exact Q|].
      destruct l; cbn; lia. }
  exact (proj1 (proj2 Q)).
Qed.

(** Two wakes in a period and a tick: a client's flush moves next_flush_ while the worker waits. *)
Lemma twice_once s e : 1 < L -> c_tiny c = false -> 0 < c_capacity c -> c_size c e < c_threshold c ->
  work s = Waiting false (next s) -> next s = now s + L -> queue s = [] -> must_flush s = false -> finalize s = false ->
  exists h s', run c s h s' /\ prompt h /\ Forall (logging c) h /\ wakes h = 2 /\ now s' = now s + L + 1 /\
    work s' = Waiting false (next s') /\ next s' = now s' + L /\ queue s' = [] /\ must_flush s' = false /\ finalize s' = false.
Proof.
  intros HL Ht Hc Hs. destruct s as [n x q w d m f wk]. cbn. intros -> -> -> -> ->.
  set (S := fun n x q w k => @mkState E n x q w d false false k).
  pose (i := mkItem e (n + 1) 0).
  exists [ (S n (n + L) [] w (Waiting false (n + L)), Tick 1);
           (S (n + 1) (n + L) [] w (Waiting false (n + L)), Push e);
           (S (n + 1) (n + L) [i] w (Waiting false (n + L)), Flush);
           (S (n + 1) (n + 1 + L) [] (w ++ [(i, n + 1)]) (Waiting false (n + L)), Tick (L - 1));
           (S (n + L) (n + 1 + L) [] (w ++ [(i, n + 1)]) (Waiting false (n + L)), Wake);
           (S (n + L) (n + 1 + L) [] (w ++ [(i, n + 1)]) Running, Round);
           (S (n + L) (n + 1 + L) [] (w ++ [(i, n + 1)]) (Waiting false (n + 1 + L)), Tick 1);
           (S (n + L + 1) (n + 1 + L) [] (w ++ [(i, n + 1)]) (Waiting false (n + 1 + L)), Wake);
           (S (n + L + 1) (n + 1 + L) [] (w ++ [(i, n + 1)]) Running, Round) ],
         (S (n + L + 1) (n + L + 1 + L) [] (w ++ [(i, n + 1)]) (Waiting false (n + L + 1 + L))).
  split.
  { repeat match goal with |- run _ _ (_ :: _) _ => eapply R_cons; cycle 1 end; [apply R_nil|..].
    all: cbv beta; try apply S_tick.
    - match goal with |- step _ ?a _ ?b => replace b with (round c a); [apply S_round; reflexivity|] end.
      rewrite round_eq0, flush_b by reflexivity. unfold flush_buffered, S. cbn [queue length now next written durable must_flush finalize work].
      rewrite Ht, (proj2 (Nat.leb_le _ _)) by lia. reflexivity.
    - eapply S_wake; [reflexivity|cbn; lia].
    - match goal with |- step _ ?a _ ?b => replace b with (round c a); [apply S_round; reflexivity|] end.
      rewrite round_eq0, flush_b by reflexivity. unfold flush_buffered, S. cbn [queue length now next written durable must_flush finalize work].
      rewrite Ht, (proj2 (Nat.leb_gt _ _)) by lia. reflexivity.
    - eapply S_wake; [reflexivity|cbn; lia].
    - replace (S (n + L)) with (S (n + 1 + (L - 1))) by (f_equal; lia). apply S_tick.
    - match goal with |- step _ ?a _ ?b => replace b with (flush c a); [apply S_flush; reflexivity|] end.
      rewrite flush_b. reflexivity.
    - match goal with |- step _ ?a _ ?b => replace b with (push c e a); [apply S_push; reflexivity|] end.
      unfold push, put, S, pending, list_sum. cbn [queue length map fold_right app now next written durable must_flush finalize work i_event].
      rewrite (proj2 (Nat.ltb_lt _ _) Hc), Nat.add_0_r, (proj2 (Nat.leb_gt _ _) Hs). reflexivity. }
  split. { repeat (apply Forall_cons; [unfold fast; cbn; try lia; exact I|]). apply Forall_nil. }
  split. { repeat (apply Forall_cons; [unfold logging; cbn; try lia; exact I|]). apply Forall_nil. }
  cbn. repeat split; lia.
Qed.

Lemma twice_many e n : 1 < L -> c_tiny c = false -> 0 < c_capacity c -> c_size c e < c_threshold c -> forall s,
  work s = Waiting false (next s) -> next s = now s + L -> queue s = [] -> must_flush s = false -> finalize s = false ->
  exists h s', run c s h s' /\ prompt h /\ Forall (logging c) h /\ wakes h = 2 * n /\ now s' = now s + n * (L + 1).
Proof.
  intros HL Ht Hc Hs. induction n as [|n IH]; intros s A1 A2 A3 A4 A5.
  - exists [], s. split; [constructor|]. split; [constructor|]. split; [constructor|]. cbn. lia.
  - destruct (twice_once s e HL Ht Hc Hs A1 A2 A3 A4 A5) as (h & s1 & R & P & G & W & N & B1 & B2 & B3 & B4 & B5).
    destruct (IH s1 B1 B2 B3 B4 B5) as (h2 & s2 & R2 & P2 & G2 & W2 & N2).
    exists (h ++ h2), s2. split; [eapply run_app; eauto|]. split; [apply Forall_app; auto|].
    split; [apply Forall_app; auto|]. rewrite wakes_app. split; [lia|]. rewrite N2, N. cbn [Nat.mul]. lia.
Qed.

Lemma twice e n : 1 < L -> c_tiny c = false -> 0 < c_capacity c -> c_size c e < c_threshold c ->
  exists h s, run c (start 0) h s /\ prompt h /\ Forall (logging c) h /\ wakes h = 2 * n + 1 /\ now s = n * (L + 1).
Proof.
  intros HL Ht Hc Hs.
  assert (R0 : step c (set_work (start 0) Running) Round (mkState 0 L [] [] 0 false false (Waiting false L))).
  { match goal with |- step _ ?a _ ?b => replace b with (round c a); [apply S_round; reflexivity|] end.
    rewrite round_eq0, flush_b by reflexivity. unfold flush_buffered. cbn. rewrite Bool.orb_true_r. reflexivity. }
  destruct (@twice_many e n HL Ht Hc Hs (mkState 0 L [] [] 0 false false (Waiting false L)) eq_refl eq_refl eq_refl eq_refl eq_refl)
    as (h & s & R & P & G & W & N).
  exists ((start 0, Wake) :: (set_work (start 0) Running, Round) :: h), s.
  split. { eapply R_cons; [eapply S_wake; [reflexivity|cbn; lia]|]. eapply R_cons; [exact R0|exact R]. }
  split; [repeat (apply Forall_cons; [exact I|]); exact P|].
  split; [repeat (apply Forall_cons; [exact I|]); exact G|].
  split; [cbn; lia|exact N].
Qed.

(** ** When events are written *)

Definition deadline (i : item E) : nat := i_at i + (i_ahead i + 1) * L.

(** The k-th event of the queue is written at [next s + k * L] at the latest. *)
Definition in_time (s : state) : Prop :=
  forall k i, nth_error (queue s) k = Some i ->
    i_at i <= now s /\ (work s <> Stopped -> next s + k * L <= deadline i).

Record timed (s : state) : Prop := mkTimed {
  t_next : next s <= now s + L;
  t_wait : forall b u, work s = Waiting b u -> now s <= u /\ u <= next s;
  t_run : work s = Running -> now s <= next s;
  t_stop : work s = Stopped -> finalize s = true /\ queue s = [];
  t_queue : in_time s;
  t_written : forall i w, In (i, w) (written s) -> i_at i <= w /\ w <= deadline i
}.

Lemma timed_flush s : timed s -> work s <> Stopped -> timed (flush c s).
Proof.
  intros [A B C D Q W] NS. rewrite flush_b. unfold flush_buffered.
  destruct (queue s) as [|i q] eqn:Hq.
  - split; cbn; auto.
    + destruct (c_tiny c || _); lia.
    + intros b u Hb. specialize (B b u Hb). destruct (c_tiny c || _); lia.
    + intros H. specialize (C H). destruct (c_tiny c || _); lia.
    + intros k i Hk'. rewrite nth_error_nil in Hk' || destruct k; discriminate.
  - assert (Hn : now s <= next s).
    { destruct (work s) eqn:Hw; eauto. { destruct (B _ _ eq_refl). lia. } congruence. }
    split; cbn; auto.
    + intros b u Hb. destruct (B b u Hb). lia.
    + intros; lia.
    + intros H. congruence.
    + intros k j Hj. destruct (Q (S k) j) as [Q1 Q2]; [rewrite Hq; auto|]. cbn. split; auto. intros _. specialize (Q2 NS). lia.
    + intros j w Hj. apply in_app_or in Hj as [Hj|[Hj|[]]]; auto. injection Hj as <- <-.
      destruct (Q 0 i) as [Q1 Q2]; [rewrite Hq; auto|]. specialize (Q2 NS). lia.
Qed.

Lemma timed_put e s : timed s -> work s <> Stopped -> timed (put c e s).
Proof.
  intros [A B C D Q W] NS.
  set (s' := mkState (now s) (next s) (queue s ++ [mkItem e (now s) (length (queue s))]) (written s)
                    (durable s) (must_flush s) (finalize s) (work s)).
  assert (T : timed s').
  { split; cbn; auto; [intros; congruence|].
    intros k i Hi. cbn in Hi. destruct (Nat.lt_ge_cases k (length (queue s))) as [Hl|Hl].
    - rewrite nth_error_app1 in Hi by auto. apply Q; auto.
    - rewrite nth_error_app2 in Hi by auto. destruct (k - length (queue s)) eqn:Hz.
      + cbn in Hi. injection Hi as <-. cbn. split; auto. intros _. unfold deadline. cbn.
        assert (k = length (queue s)) by lia. subst k. nia.
      + cbn in Hi. destruct n; discriminate. }
  unfold put. fold s'. destruct (Nat.leb _ _); auto.
  destruct T as [A' B' C' D' Q' W']. split; cbn in *; auto.
  - intros b u Hb. destruct (work s) as [b0 u0| |] eqn:Hw; cbn in Hb; try discriminate. injection Hb as <- <-. eapply B; eauto.
  - intros Hb. destruct (work s) eqn:Hw; try discriminate. auto.
  - intros Hb. destruct (work s) eqn:Hw; try discriminate. congruence.
  - intros k i Hi. destruct (Q' k i Hi) as [Q1 Q2]. cbn in *. split; auto.
Qed.

Lemma timed_async s : timed s -> timed (async_flush s).
Proof.
  intros [A B C D Q W]. split; cbn; auto.
  - intros b u Hb. destruct (work s) as [b0 u0| |] eqn:Hw; cbn in Hb; try discriminate. injection Hb as <- <-. eauto.
  - intros Hb. destruct (work s) eqn:Hw; try discriminate. auto.
  - intros Hb. destruct (work s) eqn:Hw; try discriminate. auto.
  - intros k i Hi. destruct (Q k i Hi) as [Q1 Q2]. cbn in *. split; auto. intros H. apply Q2.
    intros Hw. apply H. rewrite Hw. reflexivity.
Qed.

Lemma not_stopped s : timed s -> finalize s = false -> work s <> Stopped.
Proof. intros T F H. destruct (t_stop T H). congruence. Qed.


Lemma timed_set_work s w : timed s -> work s <> Stopped -> w <> Stopped -> now s <= next s ->
  (forall b u, w = Waiting b u -> u = next s) -> timed (set_work s w).
Proof.
  intros [A B C D Q W] NS NW Hn Hu. split; cbn; auto; try (intros; congruence).
  { intros b u Hb. rewrite (Hu b u Hb). lia. }
  intros k i Hi. destruct (Q k i Hi). cbn. auto.
Qed.

Lemma timed_now s : timed s -> work s <> Stopped -> now s <= next s.
Proof. intros T H. destruct (work s) eqn:Hw; [destruct (t_wait T Hw); lia|eapply t_run; eauto|congruence]. Qed.

Lemma timed_step s l s' : timed s -> fast (s, l) -> step c s l s' -> timed s'.
Proof.
  intros T F St. inversion St; subst; clear St.
  - pose proof (not_stopped T H) as NS. unfold push. destruct (Nat.ltb _ _); [apply timed_put; auto|].
    apply timed_put; [apply timed_flush; auto|rewrite work_flush; auto].
  - apply timed_flush; auto using not_stopped.
  - apply timed_async; auto.
  - apply timed_async. pose proof (not_stopped T H) as NS. destruct T as [A B C D Q W]. split; cbn; auto. intros; congruence.
  - unfold fast in F. cbn in F. destruct T as [A B C D Q W].
    split; cbn; auto; try lia.
    + intros b u Hb. specialize (B b u Hb). rewrite Hb in F. destruct b; lia.
    + intros Hb. specialize (C Hb). rewrite Hb in F. lia.
    + intros k i Hi. destruct (Q k i Hi) as [Q1 Q2]. cbn. split; [lia|auto].
  - apply timed_set_work; auto; try congruence. destruct (t_wait T H); lia.
  - unfold woken. apply timed_set_work; auto; try congruence.
    + destruct (must_flush s || finalize s); congruence.
    + destruct (t_wait T H); lia.
    + destruct (must_flush s || finalize s); congruence.
  - unfold woken. apply timed_set_work; auto; try congruence.
    + destruct (must_flush s || finalize s); congruence.
    + destruct (t_wait T H); lia.
    + destruct (must_flush s || finalize s); congruence.
  - unfold round. assert (NS : work s <> Stopped) by congruence.
    pose proof (timed_flush T NS) as T'. set (s1 := flush c s) in *.
    assert (NS1 : work s1 <> Stopped) by (unfold s1; rewrite work_flush; auto).
    pose proof (timed_now T' NS1).
    destruct (finalize s1) eqn:Hf; cbn [andb].
    + destruct (queue s1) eqn:Hq; [|apply timed_set_work; auto; congruence].
      destruct T' as [A B C D Q W]. split; cbn; auto; try (intros; congruence).
      intros k i Hi. cbn [set_work queue] in Hi. rewrite Hq in Hi. destruct k; discriminate.
    + apply timed_set_work; auto; congruence.
  - destruct T as [A B C D Q W]. split; cbn; auto.
Qed.

Lemma timed_start t : timed (start t).
Proof.
  split; cbn; try lia; try (intros; congruence).
  - intros b u Hb. injection Hb as <- <-. auto.
  - intros k i Hi. destruct k; discriminate.
Qed.

Lemma prompt_app h h' : prompt (h ++ h' : list (state * label E)) <-> prompt h /\ prompt h'.
Proof. apply Forall_app. Qed.

Lemma timed_from s0 h s : timed s0 -> run c s0 h s -> prompt h -> timed s.
Proof.
  intros T0 R. revert h s R.
  apply (@run_ind_r (fun h s => prompt h -> timed s)).
  - auto.
  - intros h s l s' _ IH St P. apply prompt_app in P as [P1 P2]. inversion P2; subst.
    exact (timed_step (IH P1) H1 St).
Qed.

Lemma timed_run t h s : run c (start t) h s -> prompt h -> timed s.
Proof. apply timed_from. apply timed_start. Qed.

Lemma delay t h s : run c (start t) h s -> prompt h ->
  (forall i w, In (i, w) (written s) -> i_at i <= w /\ w <= i_at i + (i_ahead i + 1) * L) /\
  (forall i, In i (queue s) -> i_at i <= now s /\ now s <= i_at i + (i_ahead i + 1) * L).
Proof.
  intros R P. pose proof (timed_run R P) as T. split; [exact (t_written T)|].
  intros i Hi. apply In_nth_error in Hi as [k Hi].
  assert (NS : work s <> Stopped).
  { intros H. destruct (t_stop T H) as [_ H']. rewrite H' in Hi. destruct k; discriminate. }
  destruct (t_queue T k Hi) as [H1 H2]. specialize (H2 NS). pose proof (timed_now T NS).
  unfold deadline in H2. split; auto. nia.
Qed.

(** ** Time goes on, and the worker does its work *)

(** One round, as soon as it is due. *)
Lemma wait_round s b u : work s = Waiting b u -> timed s ->
  exists h s1, run c s h s1 /\ prompt h /\ only (@by_itself E) h /\ work s1 = Running /\
    queue s1 = queue s /\ finalize s1 = finalize s /\ now s <= now s1 /\ written s1 = written s /\
    must_flush s1 = must_flush s /\ durable s1 = durable s /\ (b = false -> now s1 = u) /\ next s1 = next s.
Proof.
  intros Hw T. destruct (t_wait T Hw) as [Hn Hu]. destruct b.
  - destruct (must_flush s || finalize s) eqn:Hm.
    + exists [(s, Notified)], (set_work s Running). repeat split; auto; try congruence.
      * econstructor; [|constructor]. replace (set_work s Running) with (woken s) by (unfold woken; rewrite Hm; auto).
        econstructor; eauto.
      * repeat constructor.
      * repeat constructor.
    + set (s1 := woken s). assert (H1 : s1 = set_work s (Waiting false (next s))) by (unfold s1, woken; rewrite Hm; auto).
      set (s2 := mkState (next s) (next s) (queue s) (written s) (durable s) (must_flush s) (finalize s) (Waiting false (next s))).
      exists [(s, Notified); (s1, Tick (next s - now s)); (s2, Wake)], (set_work s2 Running).
      repeat split; auto; try congruence; try (cbn; lia).
      * econstructor; [econstructor; eauto|]. fold s1. rewrite H1.
        econstructor; [|econstructor; [apply S_wake with (b := false) (u := next s); auto; cbn; lia|constructor]].
        assert (Ht := S_tick c (set_work s (Waiting false (next s))) (next s - now s)). cbn in Ht.
        replace (now s + (next s - now s)) with (next s) in Ht by lia. exact Ht.
      * repeat constructor. unfold fast. rewrite H1. cbn. lia.
      * repeat constructor.
  - set (s2 := mkState u (next s) (queue s) (written s) (durable s) (must_flush s) (finalize s) (Waiting false u)).
    exists [(s, Tick (u - now s)); (s2, Wake)], (set_work s2 Running).
    repeat split; auto; try congruence.
    + econstructor; [|econstructor; [apply S_wake with (b := false) (u := u); auto; cbn; lia|constructor]].
      assert (Ht := S_tick c s (u - now s)).
      replace (now s + (u - now s)) with u in Ht by lia. unfold s2. rewrite <- Hw. exact Ht.
    + repeat constructor. unfold fast. cbn. rewrite Hw. lia.
    + repeat constructor.
Qed.

Lemma only_app ok h h' : only ok (h ++ h' : list (state * label E)) <-> only ok h /\ only ok h'.
Proof. apply Forall_app. Qed.

Lemma round_eq s :
  round c s = set_work (flush c s)
    (if finalize s && (match tl (queue s) with [] => true | _ => false end) then Stopped else Waiting false (next (flush c s))).
Proof.
  unfold round. rewrite finalize_flush. f_equal. rewrite flush_b. unfold flush_buffered. destruct (queue s); auto.
Qed.

Lemma queue_flush s : queue (flush c s) = tl (queue s).
Proof. rewrite flush_b. unfold flush_buffered. destruct (queue s); auto. Qed.

Lemma written_flush s : map fst (written (flush c s)) = map fst (written s) ++ firstn 1 (queue s).
Proof. rewrite flush_b. unfold flush_buffered. destruct (queue s); cbn; [rewrite app_nil_r|rewrite map_app]; auto. Qed.

Lemma next_due s : next s <= now s -> next (flush c s) = now s + L.
Proof.
  intros H. rewrite flush_b. unfold flush_buffered. destruct (queue s); cbn; auto.
  rewrite (proj2 (Nat.leb_le _ _) H), Bool.orb_true_r. auto.
Qed.

(** From waiting to the end of the next round. *)
Lemma cycle s b u : work s = Waiting b u -> timed s ->
  exists h s', run c s h s' /\ prompt h /\ only (@by_itself E) h /\
    queue s' = tl (queue s) /\ map fst (written s') = map fst (written s) ++ firstn 1 (queue s) /\
    finalize s' = finalize s /\
    work s' = (if finalize s && (match tl (queue s) with [] => true | _ => false end) then Stopped else Waiting false (next s')) /\
    (b = false -> u = next s -> now s' = next s /\ next s' = now s' + L) /\ now s <= now s'.
Proof.
  intros Hw T. destruct (wait_round Hw T) as (h & s1 & R & P & O & W1 & Q1 & F1 & N1 & Wr & Mf & Du & Bf & Nx).
  exists (h ++ [(s1, Round)]), (round c s1). split; [eapply run_snoc; eauto; constructor; auto|].
  split; [apply prompt_app; split; auto; repeat constructor|].
  split; [apply only_app; split; auto; repeat constructor|].
  rewrite round_eq. cbn [set_work queue written finalize work now next].
  rewrite queue_flush, written_flush, finalize_flush, now_flush, Q1, Wr, F1.
  repeat split; auto.
  - rewrite (Bf H). auto.
  - rewrite (next_due s1); auto. rewrite (Bf H), Nx. lia.
Qed.

Lemma cycles n : forall s, work s = Waiting false (next s) -> timed s -> finalize s = false ->
  exists h s', run c s h s' /\ prompt h /\ only (@by_itself E) h /\ work s' = Waiting false (next s') /\
    finalize s' = false /\ queue s' = skipn n (queue s) /\
    map fst (written s') = map fst (written s) ++ firstn n (queue s) /\
    (n = 0 -> s' = s) /\ (0 < n -> now s' = next s + (n - 1) * L /\ next s' = now s' + L).
Proof.
  induction n as [|n IH]; intros s Hw T F.
  - exists [], s. repeat split; auto; try constructor; try lia. cbn. rewrite app_nil_r. auto.
  - destruct (cycle Hw T) as (h & s1 & R & P & O & Q & Wr & F1 & W1 & N & _).
    rewrite F in W1. cbn [andb] in W1. rewrite F in F1. destruct (N eq_refl eq_refl) as [N1 N2].
    pose proof (timed_from T R P) as T1.
    destruct (IH s1 W1 T1 F1) as (h2 & s2 & R2 & P2 & O2 & W2 & F2 & Q2 & Wr2 & Z & NN).
    exists (h ++ h2), s2. split; [eapply run_app; eauto|].
    split; [apply prompt_app; auto|]. split; [apply only_app; auto|].
    repeat split; auto; try lia.
    + rewrite Q2, Q. destruct (queue s); [rewrite skipn_nil|]; auto.
    + rewrite Wr2, Wr, Q, <- app_assoc. f_equal. destruct (queue s); cbn; [rewrite firstn_nil|]; auto.
    + destruct n; [rewrite (Z eq_refl), N1; cbn; lia|].
      destruct NN as [NN _]; [lia|]. rewrite NN, N2, N1. cbn. lia.
    + destruct n; [rewrite (Z eq_refl); auto|]. apply NN. lia.
Qed.

(** A running worker first ends its round. *)
Lemma to_waiting s : timed s -> finalize s = false ->
  exists h s', run c s h s' /\ prompt h /\ only (@by_itself E) h /\ timed s' /\ work s' = Waiting false (next s') /\
    finalize s' = false /\ map fst (written s') ++ queue s' = map fst (written s) ++ queue s.
Proof.
  intros T F. pose proof (not_stopped T F) as NS.
  assert (X : forall q : list (item E), firstn 1 q ++ tl q = q) by (intros [|]; auto).
  destruct (work s) as [b u| |] eqn:Hw; [| |congruence].
  - destruct (cycle Hw T) as (h & s1 & R & P & O & Q & Wr & F1 & W1 & _). rewrite F in W1. cbn in W1.
    exists h, s1. split; auto. split; auto. split; auto. split; [exact (timed_from T R P)|].
    split; auto. split; [congruence|]. rewrite Wr, Q, <- app_assoc, X. auto.
  - exists [(s, Round)], (round c s).
    assert (R : run c s [(s, Round)] (round c s)) by (econstructor; [constructor; auto|constructor]).
    split; auto. split; [repeat constructor|]. split; [repeat constructor|].
    split. { eapply timed_from; [exact T|exact R|]. repeat constructor. }
    rewrite round_eq. cbn [set_work queue written finalize work]. rewrite F. cbn [andb].
    rewrite finalize_flush, written_flush, queue_flush, <- app_assoc, X. repeat split; auto.
Qed.

Lemma goes_on s T0 : 0 < L -> timed s -> finalize s = false ->
  exists h s', run c s h s' /\ prompt h /\ only (@by_itself E) h /\ T0 <= now s' /\ queue s' = [] /\
    map fst (written s') = map fst (written s) ++ queue s.
Proof.
  intros HL T F. destruct (to_waiting T F) as (h & s1 & R & P & O & T1 & W1 & F1 & E1).
  set (n := S (T0 + length (queue s1))).
  destruct (cycles n W1 T1 F1) as (h2 & s2 & R2 & P2 & O2 & W2 & F2 & Q2 & Wr2 & _ & N).
  exists (h ++ h2), s2. split; [eapply run_app; eauto|].
  split; [apply prompt_app; auto|]. split; [apply only_app; auto|].
  split. { destruct N as [N _]; [unfold n; lia|]. rewrite N. unfold n. nia. }
  split. { rewrite Q2. apply skipn_all2. unfold n. lia. }
  rewrite Wr2, firstn_all2 by (unfold n; lia). exact E1.
Qed.

(** ** A burst *)

Lemma push_many n : forall s e, c_capacity c >= length (queue s) + n ->
  pending c (queue s) + n * c_size c e < c_threshold c -> finalize s = false ->
  exists h s', run c s h s' /\ prompt h /\ only (fun l => l = Push e) h /\ Forall (logging c) h /\
    now s' = now s /\ next s' = next s /\ work s' = work s /\ finalize s' = false /\ written s' = written s /\
    exists l, queue s' = queue s ++ l /\ length l = n /\ forall i, In i l -> i_event i = e /\ i_at i = now s.
Proof.
  induction n as [|n IH]; intros s e Hc Ht F.
  - exists [], s. repeat split; auto; try constructor. exists []. rewrite app_nil_r. repeat split; auto; contradiction.
  - set (s1 := push c e s).
    assert (Hs1 : s1 = mkState (now s) (next s) (queue s ++ [mkItem e (now s) (length (queue s))]) (written s)
                    (durable s) (must_flush s) (finalize s) (work s)).
    { unfold s1, push. rewrite (proj2 (Nat.ltb_lt _ _)) by lia. unfold put. cbn [queue].
      replace (pending c (queue s ++ _)) with (pending c (queue s) + c_size c e).
      - rewrite (proj2 (Nat.leb_gt _ _)) by (cbn in Ht; lia). auto.
      - unfold pending. rewrite map_app, list_sum_app. cbn. lia. }
    destruct (IH s1 e) as (h & s2 & R & P & O & Lg & N & Nx & W & F2 & Wr & l & Q & Hl & Hi).
    + rewrite Hs1. cbn. rewrite app_length. cbn. lia.
    + rewrite Hs1. unfold pending in *. cbn [queue]. rewrite map_app, list_sum_app. cbn in *. lia.
    + rewrite Hs1. auto.
    + exists ((s, Push e) :: h), s2. split; [econstructor; eauto; constructor; auto|].
      split; [constructor; [constructor|auto]|]. split; [constructor; auto|].
      split; [constructor; auto; unfold logging; cbn in *; lia|].
      rewrite Hs1 in N, Nx, W, Wr, Q, Hi. cbn in N, Nx, W, Wr, Q, Hi.
      repeat split; auto. exists (mkItem e (now s) (length (queue s)) :: l).
      rewrite Q, <- app_assoc. cbn. repeat split; auto.
      * destruct H as [<-|H]; auto. apply Hi; auto.
      * destruct H as [<-|H]; auto. apply Hi; auto.
Qed.

(** The last of n + 2 events is still there n + 1 periods later. *)
Lemma burst n e : n + 2 <= c_capacity c -> (n + 2) * c_size c e < c_threshold c ->
  exists h s i, run c (start 0) h s /\ prompt h /\
    only (fun l => l = Push e \/ by_itself l) h /\ In i (queue s) /\ i_event i = e /\ i_at i = 0 /\
    now s = (n + 1) * L.
Proof.
  intros Hc Ht.
  destruct (@push_many (n + 2) (start 0) e) as (h & s & R & P & O & Lg & N & Nx & W & F & Wr & l & Q & Hl & Hi); try (cbn; lia).
  pose proof (timed_run R P) as T. cbn [start now next work queue] in *. subst.
  rewrite <- Nx in W. destruct (cycles (n + 1) W T F) as (h2 & s2 & R2 & P2 & O2 & W2 & F2 & Q2 & _ & _ & NN).
  destruct NN as [N2 Nx2]; [lia|]. rewrite Nx in N2.
  cbn [app] in Q. rewrite Q in Q2.
  destruct (skipn (n + 1) l) as [|i q] eqn:Hs.
  { apply (f_equal (@length _)) in Hs. rewrite skipn_length, Hl in Hs. cbn in Hs. lia. }
  set (s3 := mkState (now s2 + L) (next s2) (queue s2) (written s2) (durable s2) (must_flush s2) (finalize s2) (work s2)).
  exists (h ++ h2 ++ [(s2, Tick L)]), s3, i.
  assert (In i l). { rewrite <- (firstn_skipn (n + 1) l), Hs. apply in_or_app. right. left. auto. }
  split. { eapply run_app; eauto. eapply run_snoc; eauto. constructor. }
  split. { apply prompt_app. split; auto. apply prompt_app. split; auto. repeat constructor.
           unfold fast. cbn. rewrite W2. lia. }
  split. { apply only_app. split. { eapply Forall_impl; [|exact O]. cbn. intros; auto. }
           apply only_app. split. { eapply Forall_impl; [|exact O2]. cbn. intros; auto. }
           constructor; [right; constructor|constructor]. }
  cbn [s3 queue now]. rewrite Q2. split; [left; auto|]. destruct (Hi i H) as [H1 H2].
  split; auto. split; auto. unfold s3. cbn. rewrite N2. nia.
Qed.

(** ** The destructor *)

Definition ending (t0 n : nat) (s : state) : Prop :=
  finalize s = true /\ length (queue s) <= n /\
  match work s with
  | Waiting true _ | Running => now s + (length (queue s) - 1) * L <= t0 + (n - 1) * L
  | Waiting false u => 0 < length (queue s) /\ u + (length (queue s) - 1) * L <= t0 + (n - 1) * L
  | Stopped => True
  end.

Lemma ending_step t0 n s l s' : timed s -> ending t0 n s -> fast (s, l) -> step c s l s' -> ending t0 n s'.
Proof.
  intros T (F & Hn & Hw) Fa St. inversion St; subst; clear St; try congruence.
  - unfold ending. cbn. split; auto. split; auto. unfold fast in Fa. cbn in Fa. destruct (work s) as [[]| |]; lia.
  - unfold ending. cbn. split; auto. split; auto. pose proof (t_wait T H).
    rewrite H in Hw. destruct b; [lia|]. nia.
  - unfold ending, woken. cbn. rewrite F, Bool.orb_true_r. split; auto. split; auto. rewrite H in Hw. lia.
  - unfold ending, woken. cbn. rewrite F, Bool.orb_true_r. split; auto. split; auto. rewrite H in Hw.
    pose proof (t_wait T H). destruct b; [lia|]. nia.
  - rewrite H in Hw. unfold ending. rewrite round_eq. cbn [set_work finalize queue work now next].
    rewrite finalize_flush, queue_flush, now_flush, F. cbn [andb].
    split; auto. destruct (queue s) as [|i [|j q]] eqn:Hq; cbn [tl length] in *.
    + split; auto; lia.
    + split; auto; lia.
    + split; [lia|]. split; [lia|].
      rewrite flush_b. unfold flush_buffered. rewrite Hq. cbn [next]. nia.
  - unfold ending. cbn. auto.
Qed.

Lemma ending_destroy s s' : timed s -> step c s Destroy s' -> ending (now s) (length (queue s)) s' /\ timed s'.
Proof.
  intros T St. assert (T' : timed s') by (eapply timed_step; eauto; constructor).
  split; auto. inversion St; subst. unfold ending. cbn. split; auto. split; auto.
  pose proof (not_stopped T H). destruct (work s); cbn; auto; lia.
Qed.

Lemma destruction_bound t h s s1 h2 s2 : run c (start t) h s -> step c s Destroy s1 -> run c s1 h2 s2 ->
  prompt h -> prompt h2 ->
  (work s2 <> Stopped -> now s2 <= now s + (length (queue s) - 1) * L) /\
  (work s2 = Stopped -> queue s2 = []).
Proof.
  intros R D R2 P P2. pose proof (timed_run R P) as T. destruct (ending_destroy T D) as [En T1].
  assert (X : ending (now s) (length (queue s)) s2 /\ timed s2).
  { revert h2 s2 R2 P2. apply (@run_ind_r (fun h2 s2 => prompt h2 -> ending (now s) (length (queue s)) s2 /\ timed s2)).
    - auto.
    - intros h' x l x' _ IH St P'. apply prompt_app in P' as [Pa Pb]. inversion Pb; subst.
      destruct (IH Pa) as [I1 I2]. split; [exact (ending_step I2 I1 H1 St)|exact (timed_step I2 H1 St)]. }
  destruct X as [(F & Hn & Hw) T2]. split; [|intros H; apply (t_stop T2 H)].
  intros NS. destruct (work s2) as [[] u| |] eqn:Hw2; try congruence; try nia.
  destruct (t_wait T2 Hw2). nia.
Qed.

(** It does end. *)
Lemma destruction_ends m : forall t0 n s, length (queue s) <= m -> ending t0 n s -> timed s ->
  exists h s', run c s h s' /\ prompt h /\ only (@by_itself E) h /\ work s' = Stopped /\ queue s' = [] /\
    map fst (written s') = map fst (written s) ++ queue s.
Proof.
  induction m as [m IH] using lt_wf_ind. intros t0 n s Hm En T.
  destruct En as (F & Hn & Hw).
  (* to the end of the next round *)
  assert (X : work s <> Stopped -> exists h s', run c s h s' /\ prompt h /\ only (@by_itself E) h /\
     queue s' = tl (queue s) /\ map fst (written s') = map fst (written s) ++ firstn 1 (queue s) /\
     work s' = (match tl (queue s) with [] => Stopped | _ => Waiting false (next s') end)).
  { intros NS. destruct (work s) as [b u| |] eqn:Hb; [| |congruence].
    - destruct (cycle Hb T) as (h & s1 & R & P & O & Q & Wr & F1 & W1 & _). rewrite F in W1. cbn in W1.
      exists h, s1. repeat split; auto. rewrite W1. destruct (tl (queue s)); auto.
    - exists [(s, Round)], (round c s). split; [econstructor; [constructor; auto|constructor]|].
      split; [repeat constructor|]. split; [repeat constructor|].
      rewrite round_eq. cbn [set_work queue written work]. rewrite F, queue_flush, written_flush. cbn.
      repeat split; auto. destruct (tl (queue s)); auto. }
  destruct (work s) as [b u| |] eqn:Hb.
  3: { destruct (t_stop T Hb) as [_ Q]. exists [], s. repeat split; auto; try constructor. rewrite Q, app_nil_r. auto. }
  all: destruct X as (h & s1 & R & P & O & Q & Wr & W1); [congruence|].
  all: destruct (tl (queue s)) as [|j q] eqn:Ht.
  1, 3: exists h, s1; repeat split; auto; rewrite Wr; f_equal; destruct (queue s) as [|i [|]]; auto; discriminate.
  all: assert (Hl : length (queue s) = S (S (length q))) by (destruct (queue s); [discriminate|cbn in Ht; subst; auto]).
  all: pose proof (timed_from T R P) as T1.
  all: assert (En1 : ending t0 n s1)
    by (assert (En : ending t0 n s) by (unfold ending; rewrite Hb; repeat split; auto; destruct b; auto; tauto);
        clear - En T R P Hk; revert h s1 R P;
        apply (@run_ind_r (fun h s1 => prompt h -> ending t0 n s1)); [auto|];
        intros h x l x' Rx IH St Px; apply prompt_app in Px as [Pa Pb]; inversion Pb; subst;
        exact (ending_step (timed_from T Rx Pa) (IH Pa) H1 St)).
  all: assert (Hlt : length (queue s1) < m) by (rewrite Q; cbn; lia).
  all: destruct (IH (length (queue s1)) Hlt t0 n s1 (le_n _) En1 T1) as (h2 & s2 & R2 & P2 & O2 & W2 & Q2 & Wr2).
  all: exists (h ++ h2), s2; split; [eapply run_app; eauto|]; split; [apply prompt_app; auto|];
    split; [apply only_app; auto|]; split; auto; split; auto; rewrite Wr2, Wr, Q, <- app_assoc; f_equal;
    destruct (queue s); [discriminate|cbn in Ht; subst; auto].
Qed.

(** Lower bound: the worker sleeps between the events. *)
Definition slowly (t0 n : nat) (s : state) : Prop :=
  finalize s = true /\ length (queue s) <= n /\
  match work s with
  | Waiting true _ | Running => t0 + (n - length (queue s)) * L <= now s
  | Waiting false u => t0 + (n - length (queue s)) * L <= u
  | Stopped => t0 + (n - 1) * L <= now s
  end.

Lemma slowly_step t0 n s l s' : slowly t0 n s -> not_spurious l -> step c s l s' -> slowly t0 n s'.
Proof.
  intros (F & Hn & Hw) Ns St. inversion St; subst; clear St; try congruence.
  - unfold slowly. cbn. split; auto. split; auto. destruct (work s) as [[]| |]; lia.
  - unfold slowly. cbn. split; auto. split; auto. rewrite H in Hw. destruct b; lia.
  - unfold slowly, woken. cbn. rewrite F, Bool.orb_true_r. split; auto. split; auto. rewrite H in Hw. lia.
  - contradiction.
  - rewrite H in Hw. unfold slowly. rewrite round_eq. cbn [set_work finalize queue work now next].
    rewrite finalize_flush, queue_flush, now_flush, F. cbn [andb].
    split; auto. destruct (queue s) as [|i [|j q]] eqn:Hq; cbn [tl length] in *.
    + split; [lia|]. nia.
    + split; [lia|]. auto.
    + split; [lia|]. rewrite flush_b. unfold flush_buffered. rewrite Hq. cbn [next]. nia.
  - unfold slowly. cbn. auto.
Qed.

Lemma alive_reach t h s : run c (start t) h s -> finalize s = false -> work s <> Stopped.
Proof.
  revert h s. apply (@run_ind_r (fun h s => finalize s = false -> work s <> Stopped)).
  - cbn. congruence.
  - intros h s l s' _ IH St. inversion St; subst; clear St; cbn; try congruence.
    + specialize (IH H). intros _. unfold push, put.
      destruct (Nat.ltb _ _); destruct (Nat.leb _ _); cbn; unfold notify; rewrite ?work_flush; auto; destruct (work s); congruence.
    + rewrite work_flush. auto.
    + specialize (IH H). intros _. destruct (work s); cbn; congruence.
    + auto.
    + intros; destruct (must_flush s || finalize s); congruence.
    + intros; destruct (must_flush s || finalize s); congruence.
    + rewrite finalize_flush. intros ->. cbn. congruence.
    + auto.
Qed.

Lemma destruction_slow t h s s1 h2 s2 : run c (start t) h s -> step c s Destroy s1 -> run c s1 h2 s2 ->
  only (@not_spurious E) h2 -> work s2 = Stopped -> now s + (length (queue s) - 1) * L <= now s2.
Proof.
  intros R D R2 O W.
  assert (S1 : slowly (now s) (length (queue s)) s1).
  { inversion D; subst. unfold slowly. cbn. split; auto. split; auto.
    pose proof (alive_reach R H). destruct (work s); cbn; try congruence; lia. }
  assert (S2 : slowly (now s) (length (queue s)) s2).
  { revert h2 s2 R2 O W. intros h2 s2 R2 O _. revert h2 s2 R2 O.
    apply (@run_ind_r (fun h2 s2 => only (@not_spurious E) h2 -> slowly (now s) (length (queue s)) s2)).
    - auto.
    - intros h' x l x' _ IH St P'. apply only_app in P' as [Pa Pb]. inversion Pb; subst.
      exact (slowly_step (IH Pa) H1 St). }
  destruct S2 as (_ & _ & S2). rewrite W in S2. auto.
Qed.

(** ** Nobody tells the stream to flush *)

Lemma pending_tl q : pending c (tl q : list (item E)) <= pending c q.
Proof. destruct q; unfold pending; cbn; lia. Qed.

Lemma not_flushed_from s0 h s : must_flush s0 = false -> run c s0 h s -> Forall (logging c) h ->
  must_flush s = false /\ durable s = durable s0.
Proof.
  intros M0. revert h s. apply (@run_ind_r (fun h s => Forall (logging c) h -> must_flush s = false /\ durable s = durable s0)).
  - auto.
  - intros h s l s' _ IH St Lg. apply Forall_app in Lg as [La Lb]. inversion Lb; subst. clear Lb H2.
    specialize (IH La) as [M D].
    assert (FM : must_flush (flush c s) = false /\ durable (flush c s) = durable s0).
    { rewrite flush_b. unfold flush_buffered. destruct (queue s); cbn; rewrite ?M; auto. }
    unfold logging in H1. cbn in H1.
    inversion St; subst; clear St; cbn; auto; try contradiction.
    assert (PP : forall x, must_flush x = false /\ durable x = durable s0 -> pending c (queue x) + c_size c e < c_threshold c ->
                 must_flush (put c e x) = false /\ durable (put c e x) = durable s0).
    { intros x [A B] Hp. unfold put. cbn [queue].
      replace (pending c (queue x ++ _)) with (pending c (queue x) + c_size c e)
        by (unfold pending; rewrite map_app, list_sum_app; cbn; lia).
      rewrite (proj2 (Nat.leb_gt _ _)) by lia. auto. }
    unfold push. destruct (Nat.ltb _ _); apply PP; auto.
    rewrite queue_flush. pose proof (pending_tl (queue s)). lia.
Qed.

Lemma not_flushed t h s : run c (start t) h s -> Forall (logging c) h ->
  must_flush s = false /\ durable s = 0.
Proof. apply (@not_flushed_from (start t) h s eq_refl). Qed.

(** A request is answered once. *)
Lemma answered s l s1 h s2 : queue s <> [] -> l = Flush \/ l = Round -> step c s l s1 ->
  run c s1 h s2 -> Forall (logging c) h -> durable s2 = durable s1.
Proof.
  intros Q Hl St R Lg.
  assert (M : must_flush s1 = false).
  { destruct Hl as [-> | ->]; inversion St; subst; unfold round; cbn [set_work must_flush];
      rewrite flush_b; unfold flush_buffered; destruct (queue s); try contradiction; reflexivity. }
  exact (proj2 (not_flushed_from M R Lg)).
Qed.

(** An event written, but not given to the operating system for as long as one likes. *)
Lemma invisible T0 e : 0 < L -> 1 <= c_capacity c -> c_size c e < c_threshold c ->
  exists h s i w, run c (start 0) h s /\ prompt h /\ Forall (logging c) h /\
    In (i, w) (written s) /\ i_event i = e /\ i_at i = 0 /\ T0 <= now s /\ durable s = 0.
Proof.
  intros HL Hc Ht.
  destruct (@push_many 1 (start 0) e) as (h & s & R & P & O & Lg & N & Nx & W & F & Wr & l & Q & Hl & Hi); try (cbn; lia).
  pose proof (timed_run R P) as T.
  destruct (goes_on T0 HL T F) as (h2 & s2 & R2 & P2 & O2 & N2 & Q2 & Wr2).
  assert (Lg2 : Forall (logging c) (h ++ h2)).
  { apply Forall_app. split; auto. eapply Forall_impl; [|exact O2]. intros [x []]; cbn; auto; contradiction. }
  pose proof (run_app R R2) as R3.
  destruct (not_flushed R3 Lg2) as [_ D].
  destruct l as [|i [|]]; try discriminate. cbn [start queue app] in Q. rewrite Q, Wr in Wr2. cbn in Wr2.
  destruct (written s2) as [|[j w] ws] eqn:Hw2; try discriminate. cbn in Wr2. injection Wr2 as -> _.
  destruct (Hi i (or_introl eq_refl)) as [H1 H2]. cbn in H2.
  exists (h ++ h2), s2, i, w. rewrite Hw2. repeat split; auto.
  - apply prompt_app. auto.
  - left. auto.
Qed.

End Buffered.

(** ** Syslog *)

Section Sys.
Hypothesis Hk : c_kind c = Syslog.

Lemma spin_gen n : forall s, work s = Waiting false (next s) -> next s <= now s -> finalize s = false -> queue s = [] ->
  exists h s', run c s h s' /\ prompt h /\ only (fun l => l = Wake \/ l = Round) h /\ wakes h = n /\
    now s' = now s /\ written s' = written s /\ work s' = Waiting false (next s).
Proof.
  induction n as [|n IH]; intros s W N F Q.
  - exists [], s. repeat split; auto; constructor.
  - set (s1 := set_work s Running).
    destruct (IH (round c s1)) as (h & s2 & R & P & O & Wk & N2 & Wr & W2).
    + unfold round, flush. rewrite Hk. unfold flush_syslog, s1. cbn. rewrite F. auto.
    + unfold round, flush. rewrite Hk. cbn. auto.
    + unfold round, flush. rewrite Hk. cbn. auto.
    + unfold round, flush. rewrite Hk. cbn. auto.
    + exists ((s, Wake) :: (s1, Round) :: h), s2.
      split; [econstructor; [eapply S_wake; eauto|econstructor; [constructor; auto|auto]]|].
      split; [repeat constructor; auto|]. split; [constructor; [left|constructor; [right|]]; auto|].
      unfold round, flush in N2, Wr, W2. rewrite Hk in N2, Wr, W2. cbn in N2, Wr, W2. rewrite Q, app_nil_r in Wr.
      split; [cbn; auto|]. split; [auto|]. split; [auto|]. exact W2.
Qed.

Lemma syslog_round s s' : step c s Round s' -> queue s' = [] /\
  map fst (written s') = map fst (written s) ++ queue s.
Proof.
  intros St. inversion St; subst. unfold round, flush. rewrite Hk. cbn. split; auto.
  rewrite map_app, map_map, map_id. auto.
Qed.

(** The time of waiting is always over. *)
Definition over (t : nat) (s : state) : Prop :=
  next s = t /\ t <= now s /\ match work s with Waiting _ u => u = t | _ => True end.

Lemma over_flush t s : over t s -> over t (flush c s).
Proof. unfold over, flush. rewrite Hk. cbn. auto. Qed.
Lemma over_async t s : over t s -> over t (async_flush s).
Proof. unfold over, async_flush, notify. cbn. destruct (work s); auto. Qed.
Lemma over_put t e s : over t s -> over t (put c e s).
Proof. intros H. unfold put. destruct (Nat.leb _ _); [apply over_async|]; exact H. Qed.

Lemma syslog_due t h s : run c (start t) h s -> over t s.
Proof.
  revert h s. apply (@run_ind_r (fun h s => over t s)); [unfold over; cbn; auto|].
  intros h s l s' _ I St. inversion St; subst; clear St.
  - unfold push. destruct (Nat.ltb _ _); auto using over_put, over_flush.
  - auto using over_flush.
  - auto using over_async.
  - apply over_async. exact I.
  - destruct I as (A & B & C). unfold over. cbn. split; [auto|]. split; [lia|auto].
  - destruct I as (A & B & C). unfold over. cbn. auto.
  - destruct I as (A & B & C). unfold over, woken. cbn. destruct (_ || _); auto.
  - destruct I as (A & B & C). unfold over, woken. cbn. destruct (_ || _); auto.
  - destruct (over_flush I) as (A & B & C). unfold over, round. cbn. destruct (_ && _); auto.
  - exact I.
Qed.

End Sys.
End Proofs.

(** ** Logging by loggers, one at a time *)
Definition at_once (E : Type) (s : state E) : Prop :=
  queue s = [] /\ forall i w, In (i, w) (written s) -> w = i_at i.

Lemma at_once_flush (E : Type) (c : cfg E) (s : state E) : at_once s -> at_once (flush c s).
Proof.
  intros [Q W]. unfold flush, flush_buffered, flush_syslog. rewrite Q.
  destruct (c_kind c); split; cbn; auto. rewrite app_nil_r. exact W.
Qed.

Lemma at_once_push_flush (E : Type) (c : cfg E) e (s : state E) :
  at_once s -> at_once (flush c (push c e s)).
Proof.
  intros A.
  assert (P : forall s, at_once s -> at_once (flush c (put c e s))).
  { clear s A. intros s [Q W]. unfold put. rewrite Q. cbn [app length].
    destruct (Nat.leb _ _); unfold flush, flush_buffered, flush_syslog, async_flush; cbn;
      destruct (c_kind c); cbn; (split; [reflexivity|]); intros i w H; apply in_app_or in H;
      (destruct H as [H|[H|[]]]; [exact (W i w H)|inversion H; reflexivity]). }
  unfold push. destruct (Nat.ltb _ _); [exact (P s A)|exact (P _ (at_once_flush c A))].
Qed.

Lemma at_once_run (E : Type) (c : cfg E) n : forall h, length h <= n -> forall (s s' : state E),
  run c s h s' -> paired h -> at_once s -> at_once s'.
Proof.
  induction n as [|n IH]; intros h L s s' R P A.
  - destruct h; [|cbn in L; lia]. inversion R; subst. exact A.
  - inversion R as [|? l s1 h0 ? St R0]; subst; [exact A|]. cbn in L.
    assert (Hl : length h0 <= n) by lia.
    inversion St; subst.
    + inversion R0 as [|? l1 s2 h1 ? St1 R1]; subst; [cbn in P; contradiction|]. cbn in P, Hl.
      destruct l1; try contradiction. inversion St1; subst.
      eapply (IH h1); [lia|exact R1|exact P|]. exact (at_once_push_flush c e A).
    + eapply (IH h0); [exact Hl|exact R0|exact P|exact (at_once_flush c A)].
    + eapply (IH h0); [exact Hl|exact R0|exact P|exact A].
    + eapply (IH h0); [exact Hl|exact R0|exact P|exact A].
    + eapply (IH h0); [exact Hl|exact R0|exact P|exact A].
    + eapply (IH h0); [exact Hl|exact R0|exact P|exact A].
    + eapply (IH h0); [exact Hl|exact R0|exact P|exact A].
    + eapply (IH h0); [exact Hl|exact R0|exact P|exact A].
    + eapply (IH h0); [exact Hl|exact R0|exact P|]. exact (at_once_flush c A).
    + eapply (IH h0); [exact Hl|exact R0|exact P|exact A].
Qed.
