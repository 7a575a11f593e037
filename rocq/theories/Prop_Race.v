(** * C87, C88: calls from several threads *)

From Coq Require Import List Arith Bool Lia.
From Verif Require Import RaceModel RaceSpec RaceSys RaceProofs RaceRun RaceLink RaceAtomic.
From Verif Require SysModel GroupModel.
Import ListNotations.

(** ** C87: data races *)

(** Exactly when calls can race: two threads make conflicting calls. *)
Theorem C87_races_exactly :
  forall (n : nat) (ok : nat -> api -> Prop) (x : loc),
  (exists s, reaches n ok s /\ race_on s x) <->
  (exists t u a b, t < n /\ u < n /\ t <> u /\ ok t a /\ ok u b /\ conflict a b x).
Proof. exact race_iff. Qed.
Print Assumptions C87_races_exactly.

(** Functions of the logging system but getFallbackGroup() and makeGroup() with a parent
    never race with one another, however many threads call them. *)
Theorem C87_system_race_free_partial :
  forall n (ok : nat -> api -> Prop) s x,
  (forall t a, ok t a -> of_system a /\ a <> aGetFallbackGroup /\ forall p k, a <> aMakeGroup (Some p) k) ->
  reaches n ok s -> ~ race_on s x.
Proof.
  intros n ok s x H R C. destruct (race_conflict n ok s x R C)
    as (t & u & a & b & _ & _ & _ & A & B & k & k' & _ & _ & _ & [U|U]).
  - destruct (H t a A) as (S & N & M).
    destruct a; simpl in S, U; try contradiction; try congruence. destruct parent; [eapply M; reflexivity|exact U].
  - destruct (H u b B) as (S & N & M).
    destruct b; simpl in S, U; try contradiction; try congruence. destruct parent; [eapply M; reflexivity|exact U].
Qed.
Print Assumptions C87_system_race_free_partial.

(** Logging and making groups, sinks and loggers never race with one another. *)
Theorem C111_logging_race_free :
  forall n (ok : nat -> api -> Prop) s x,
  (forall t a, ok t a -> logging a \/ adding a) -> reaches n ok s -> ~ race_on s x.
Proof.
  intros n ok s x H R C. destruct (race_conflict n ok s x R C)
    as (t & u & a & b & _ & _ & _ & A & B & k & k' & Ka & Kb & W & U).
  assert (G : forall c y, (logging c \/ adding c) -> may_write c y -> exists e, y = e /\ (e = LGroups \/ e = LSinks \/ e = LLoggers)).
  { intros c y [L|L] Q; destruct c; simpl in L, Q; try contradiction; subst; eauto. }
  assert (G2 : forall c k y, (logging c \/ adding c) -> In (k, y) (unguarded c) -> k = RaceModel.R /\ (exists g f, y = LGrp g f) \/ k = RaceModel.R /\ (exists g f, y = LLog g f)).
  { intros c j y [L|L] Q; destruct c; simpl in L, Q; try contradiction;
      try (destruct parent; simpl in Q; try contradiction);
      repeat destruct Q as [Q|Q]; try contradiction; inversion Q; subst; eauto 6. }
  assert (G3 : forall c j y, (logging c \/ adding c) -> may_access c j y -> (exists g f, y = LGrp g f) \/ (exists g f, y = LLog g f) -> j = RaceModel.R).
  { intros c j y L Q Z. destruct j; auto. destruct (G c y L Q) as (e & -> & E).
    destruct Z as [(g & f & ->)|(g & f & ->)]; destruct E as [E|[E|E]]; discriminate. }
  specialize (H t a A) as Ha. specialize (H u b B) as Hb.
  assert (Z : (exists g f, x = LGrp g f) \/ (exists g f, x = LLog g f)).
  { destruct U as [U|U].
    - destruct (G2 a k x Ha U) as [[_ Z]|[_ Z]]; auto.
    - destruct (G2 b k' x Hb U) as [[_ Z]|[_ Z]]; auto. }
  pose proof (G3 a k x Ha Ka Z). pose proof (G3 b k' x Hb Kb Z). destruct W; congruence.
Qed.
Print Assumptions C111_logging_race_free.

(** The whole claim - functions of the logging system never race with one another, nor
    with logging - is false.  Each pair below races, in two threads that do nothing else. *)
Definition two (a b : api) : nat -> api -> Prop := fun t c => (t = 0 /\ c = a) \/ (t = 1 /\ c = b).
Definition racing (a b : api) (x : loc) : Prop := exists s, reaches 2 (two a b) s /\ race_on s x.

Theorem C87_thread_safe_refuted :
  forall g h p l : nat, forall k : bool,
  (* makeGroup reads the parent after it has released the lock *)
  racing (aMakeGroup (Some p) k) (aSetLevelOfGroup g) (LGrp p GLevel) /\
  racing (aMakeGroup (Some p) k) (aSetSinkOfGroup g) (LGrp p GSink) /\
  racing (aMakeGroup (Some p) k) (aSetParentOfGroup g h) (LGrp p GLevel) /\
  racing (aMakeGroup (Some p) k) aConfigure (LGrp p GLevel) /\
  (* getFallbackGroup takes no lock *)
  racing aGetFallbackGroup (aMakeGroup None k) LGroups /\
  racing aGetFallbackGroup aSetFallbackGroup LGroups /\
  (* a logger in use is changed: its level, its sink (a shared_ptr) *)
  racing (aLog l) (aSetLevelOfLogger l) (LLog l FLevel) /\
  racing (aLog l) (aSetSinkOfLogger l) (LLog l FSink) /\
  racing (aLog l) (aSetLevelOfGroup g) (LLog l FLevel) /\
  racing (aLog l) (aSetSinkOfGroup g) (LLog l FSink) /\
  racing (aFlush l) (aSetSinkOfGroup g) (LLog l FSink) /\
  racing (aLog l) (aLogSetLevel l) (LLog l FLevel).
Proof.
  intros g h p l k.
  assert (G : forall a b x k k', In (k, x) (unguarded a) -> may_access b k' x -> (k = W \/ k' = W) -> racing a b x).
  { intros a b x j j' U B Wr. apply (conflict_race' 2 (two a b) 0 1 a b x j j'); auto; unfold two; auto. }
  repeat apply conj; eapply G with (k := RaceModel.R) (k' := W); simpl; auto.
Qed.
Print Assumptions C87_thread_safe_refuted.

(** The calls of [SysModel] and [GroupModel] change nothing else than what RaceModel has
    them write. *)
Theorem C87_system_writes :
  forall ord fuel dbg s c a x,
  api_of s c = Some a -> ~ may_write a x -> same_at s (fst (SysModel.step ord fuel dbg s c)) x.
Proof. exact step_keep. Qed.
Print Assumptions C87_system_writes.
Theorem C87_group_writes :
  forall s c x, ~ may_write (gapi_of s c) x -> same_at s (fst (GroupModel.gstep s c)) x.
Proof. exact gstep_keep. Qed.
Print Assumptions C87_group_writes.

(** Non-vacuity: threads that are inside their calls at once, one of them with the lock. *)
Example C87_busy : exists s,
  reaches 3 (fun _ a => a = aSetLevelOfGroup 0 \/ a = aGetLogger) s /\
  in_call s 0 /\ in_call s 1 /\ in_call s 2 /\ owner s = Some (1, 2) /\
  about_to s 1 W (LLog 5 FLevel) /\ ~ (exists x, race_on s x).
Proof.
  set (ms := [MStart 0 aGetLogger; MStart 1 (aSetLevelOfGroup 0); MStart 2 aGetLogger;
              MGo 1; MGo 1; MGo 1; MGo 0; MGo 1; MGo 1; MGo 1; MGo 1; MGo 2]).
  exists (exec (init 3) ms).
  assert (R : reaches 3 (fun _ a => a = aSetLevelOfGroup 0 \/ a = aGetLogger) (exec (init 3) ms)).
  { exists ms. split; [|reflexivity]. unfold ms. repeat (apply Forall_cons; [simpl; auto|]). apply Forall_nil. }
  split; [exact R|].
  split; [|split; [|split; [|split; [|split]]]].
  - cbn. do 3 eexists. reflexivity.
  - cbn. do 3 eexists. reflexivity.
  - cbn. do 3 eexists. reflexivity.
  - reflexivity.
  - cbn. do 3 eexists. split; reflexivity.
  - intros [x C]. refine (C87_system_race_free_partial 3 _ _ x _ R C).
    intros t a [->| ->]; repeat split; simpl; auto; discriminate.
Qed.

(** ** C88: no deadlock on the lock of the system *)

(** Whenever calls are in progress, one of them can take its next step. *)
Theorem C88_no_deadlock :
  forall n (ok : nat -> api -> Prop) s t, reaches n ok s -> in_call s t -> exists u, in_call s u /\ step s (MGo u) <> s.
Proof. exact no_deadlock. Qed.
Print Assumptions C88_no_deadlock.

(** Calls in progress can all run to their ends ... *)
Theorem C88_calls_finish :
  forall n (ok : nat -> api -> Prop) s, reaches n ok s -> exists ts, forall t, ~ in_call (exec s (map MGo ts)) t.
Proof. exact can_finish. Qed.
Print Assumptions C88_calls_finish.

(** ... and no scheduler can keep them going for ever: there are only so many moves that
    are not just waiting for the lock. *)
Theorem C88_progress :
  forall s ts, all_move s ts -> length ts <= items_left s.
Proof. exact all_move_bound. Qed.
Print Assumptions C88_progress.

(** At most one thread has the lock, and exactly as often as its call has taken it. *)
Theorem C88_lock_is_balanced :
  forall n (ok : nat -> api -> Prop) s u d, reaches n ok s -> owner s = Some (u, d) ->
  in_call s u /\
  (exists a p l, nth_error (ths s) u = Some (mkTh a l) /\ prog a = p ++ l /\
     count_occ Bool.bool_dec (map (fun i => match i with Lock => true | _ => false end) p) true =
     d + count_occ Bool.bool_dec (map (fun i => match i with Unlock => true | _ => false end) p) true).
Proof. exact lock_balanced. Qed.
Print Assumptions C88_lock_is_balanced.

Example C88_waiting : exists s,
  reaches 2 (fun _ a => a = aGetGroup) s /\ in_call s 0 /\ step s (MGo 0) = s /\ step s (MGo 1) <> s.
Proof.
  exists (exec (init 2) [MStart 0 aGetGroup; MStart 1 aGetGroup; MGo 1]).
  split; [|split; [|split]].
  - eexists. split; [|reflexivity]. repeat constructor.
  - cbn. do 3 eexists. reflexivity.
  - reflexivity.
  - cbn. congruence.
Qed.

(** ** C92: one call of the system at a time *)

(** Functions of the logging system that take the lock once: nobody else touches anything
    between two accesses of one call. *)
Theorem C92_one_at_a_time_partial :
  forall n (ok : nat -> api -> Prop) s m ms m' ms' m'' t u,
  (forall t a, ok t a -> one_section a) -> reaches n ok s -> Forall (starts_ok ok) (m :: ms ++ m' :: ms') ->
  Forall (fun m => forall a, m <> MStart t a) (ms ++ m' :: ms') ->
  accesses s m t -> accesses (exec s (m :: ms)) m' u -> accesses (exec s (m :: ms ++ m' :: ms')) m'' t -> u = t.
Proof. exact one_at_a_time. Qed.
Print Assumptions C92_one_at_a_time_partial.

(** False for makeGroup with a parent or a sink: another call of the system takes place
    in the middle of it. *)
Theorem C92_make_group_refuted :
  forall p k, (p, k) <> (None, false) ->
  exists s m ms m' ms' m'', reaches 2 (two (aMakeGroup p k) aMakeSink) s /\
    Forall (starts_ok (two (aMakeGroup p k) aMakeSink)) (m :: ms ++ m' :: ms') /\
    Forall (fun m => forall a, m <> MStart 0 a) (ms ++ m' :: ms') /\
    accesses s m 0 /\ accesses (exec s (m :: ms)) m' 1 /\ accesses (exec s (m :: ms ++ m' :: ms')) m'' 0.
Proof.
  intros p k N.
  exists (exec (init 2) [MStart 0 (aMakeGroup p k); MGo 0]), (MGo 0), [MGo 0; MStart 1 aMakeSink; MGo 1], (MGo 1).
  assert (T : two (aMakeGroup p k) aMakeSink 1 aMakeSink) by (right; auto).
  assert (Rc : reaches 2 (two (aMakeGroup p k) aMakeSink) (exec (init 2) [MStart 0 (aMakeGroup p k); MGo 0])).
  { eexists. split; [|reflexivity]. repeat constructor. }
  destruct p as [p|].
  - exists [MGo 1], (MGo 0). split; [exact Rc|]. split; [|split].
    + repeat (apply Forall_cons; [first [exact I|exact T]|]). apply Forall_nil.
    + repeat (apply Forall_cons; [discriminate|]). apply Forall_nil.
    + split; [|split]; cbn; (split; [reflexivity|]).
      * exists RaceModel.R, LGroups. do 3 eexists. split; reflexivity.
      * exists W, LSinks. do 3 eexists. split; reflexivity.
      * exists RaceModel.R, (LGrp p GSink). do 3 eexists. split; [reflexivity|]. cbn. rewrite Nat.eqb_refl. reflexivity.
  - destruct k; [|congruence].
    exists [MGo 1; MGo 0], (MGo 0). split; [exact Rc|]. split; [|split].
    + repeat (apply Forall_cons; [first [exact I|exact T]|]). apply Forall_nil.
    + repeat (apply Forall_cons; [discriminate|]). apply Forall_nil.
    + split; [|split]; cbn; (split; [reflexivity|]).
      * exists RaceModel.R, LSinks. do 3 eexists. split; reflexivity.
      * exists W, LSinks. do 3 eexists. split; reflexivity.
      * exists RaceModel.R, LGroups. do 3 eexists. split; reflexivity.
Qed.
Print Assumptions C92_make_group_refuted.

(** Non-vacuity: a call in its middle, with another access to come, while another thread
    is in a call too. *)
Example C92_nonvacuous : exists s ms,
  reaches 2 (two (aSetLevelOfGroup 0) aGetLogger) s /\ accesses s (MGo 0) 0 /\
  in_call (exec s (MGo 0 :: ms)) 1 /\ accesses (exec s (MGo 0 :: ms)) (MMay 0 W (LLog 3 FLevel)) 0.
Proof.
  exists (exec (init 2) [MStart 0 (aSetLevelOfGroup 0); MStart 1 aGetLogger; MGo 0]), [MGo 1; MGo 0; MGo 0; MGo 0; MGo 0; MGo 0].
  split; [|split; [|split]].
  - eexists. split; [|reflexivity]. repeat (apply Forall_cons; [cbn; unfold two; auto|]). apply Forall_nil.
  - cbn. split; [reflexivity|]. exists RaceModel.R, LGroups. do 3 eexists. split; reflexivity.
  - cbn. do 3 eexists. reflexivity.
  - cbn. split; [reflexivity|]. do 3 eexists. split; reflexivity.
Qed.
