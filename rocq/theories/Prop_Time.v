(** * Properties C74-C77: the worker in time

    [start t]: a sink with its worker, constructed at time [t].  [prompt h]: in the history
    [h] the machine is fast (see TimeSpec): no time passes but while the worker sleeps, and
    it is woken on time.  Times are in the units of the latency. *)

From Coq Require Import List Arith Bool Lia.
From Verif Require Import TimeModel TimeSpec TimeProofs.
Import ListNotations.

(** A small console sink: latency 200, capacity 64, four fifths of 1250 bytes, messages of
    as many bytes as their number says. *)
Definition ex_console : cfg nat := mkCfg Buffered 200 64 1000 false (fun n => n).
Definition ex_syslog : cfg nat := mkCfg Syslog 200 64 1000 false (fun n => n).

(** ** C74: an accepted event is handed over within the latency

    False for file and console sinks: a round of the worker writes one event.  For any
    number of periods there is an event that waits longer, on a fast machine with nothing
    else going on. *)
Theorem C74_within_latency_refuted :
  forall (E : Type) (c : cfg E), c_kind c = Buffered -> forall n e,
    n + 2 <= c_capacity c -> (n + 2) * c_size c e < c_threshold c ->
    exists h s i, run c (start 0) h s /\ prompt h /\
      only (fun l => l = Push e \/ by_itself l) h /\ In i (queue s) /\ i_event i = e /\ i_at i = 0 /\
      now s = (n + 1) * c_latency c.
Proof. exact @burst. Qed.
Print Assumptions C74_within_latency_refuted.

(** The 52nd event of a burst is not yet written 51 periods later. *)
Example C74_burst_example :
  exists h s i, run ex_console (start 0) h s /\ prompt h /\ In i (queue s) /\ i_at i = 0 /\ now s = 51 * 200.
Proof.
  destruct (C74_within_latency_refuted nat ex_console eq_refl 50 5) as (h & s & i & R & P & _ & I & _ & A & N);
    try (cbn; lia).
  exists h, s, i. repeat split; auto.
Qed.

(** What holds: an event accepted behind [k] others is written at most [k + 1] periods later. *)
Theorem C74_delay_partial :
  forall (E : Type) (c : cfg E), c_kind c = Buffered -> forall t h s, run c (start t) h s -> prompt h ->
    (forall i w, In (i, w) (written s) ->
       i_at i <= w /\ w <= i_at i + (i_ahead i + 1) * c_latency c) /\
    (forall i, In i (queue s) ->
       i_at i <= now s /\ now s <= i_at i + (i_ahead i + 1) * c_latency c).
Proof. exact @delay. Qed.
Print Assumptions C74_delay_partial.

(** Time does go on, and the worker alone writes all there is. *)
Theorem C74_all_written :
  forall (E : Type) (c : cfg E), c_kind c = Buffered -> 0 < c_latency c ->
    forall t h s T0, run c (start t) h s -> prompt h -> finalize s = false ->
    exists h' s', run c s h' s' /\ prompt h' /\ only (@by_itself E) h' /\ T0 <= now s' /\ queue s' = [] /\
      map fst (written s') = map fst (written s) ++ queue s.
Proof. intros E c K HL t h s T0 R P F. exact (goes_on K T0 HL (timed_run K R P) F). Qed.
Print Assumptions C74_all_written.

(** Loggers flush after each event they push; used by one thread at a time, no event waits.
    (Threads that log at the same time skip the flush, C21, and events pile up.) *)
Theorem C74_loggers :
  forall (E : Type) (c : cfg E) t h s, run c (start t) h s -> paired h ->
    queue s = [] /\ forall i w, In (i, w) (written s) -> w = i_at i.
Proof.
  intros E c t h s R P. refine (at_once_run (le_n (length h)) R P _). split; [reflexivity|intros i w []].
Qed.
Print Assumptions C74_loggers.

(** Syslog sinks: the worker never sleeps, and a round writes everything. *)
Theorem C74_syslog :
  forall (E : Type) (c : cfg E), c_kind c = Syslog -> forall t h s, run c (start t) h s ->
    (forall b u, work s = Waiting b u -> u <= now s) /\
    (forall s', step c s Round s' -> queue s' = [] /\ map fst (written s') = map fst (written s) ++ queue s).
Proof.
  intros E c K t h s R. destruct (syslog_due K R) as (_ & H & W). split; [|exact (@syslog_round _ _ K s)].
  intros b u Hb. rewrite Hb in W. rewrite W. exact H.
Qed.
Print Assumptions C74_syslog.

(** Three events; the first goes out at once, the others one per period. *)
Example C74_nonvacuous :
  exists h s, run ex_console (start 0) h s /\ prompt h /\
    map (fun x => (i_event (fst x), i_at (fst x), i_ahead (fst x), snd x)) (written s) = [(7, 0, 0, 0); (8, 0, 1, 200)] /\
    map (@i_event nat) (queue s) = [9] /\ now s = 350.
Proof.
  eexists _, _. split.
  - eapply R_cons. { apply (S_push ex_console _ 7). reflexivity. }
    eapply R_cons. { apply (S_push ex_console _ 8). reflexivity. }
    eapply R_cons. { apply (S_push ex_console _ 9). reflexivity. }
    eapply R_cons. { eapply S_wake; [reflexivity|cbn; lia]. }
    eapply R_cons. { apply S_round. reflexivity. }
    eapply R_cons. { apply (S_tick ex_console _ 200). }
    eapply R_cons. { eapply S_wake; [reflexivity|cbn; lia]. }
    eapply R_cons. { apply S_round. reflexivity. }
    eapply R_cons. { apply (S_tick ex_console _ 150). }
    apply R_nil.
  - split; [|split; [|split]; reflexivity].
    repeat (apply Forall_cons; [first [exact I | apply Nat.leb_le; reflexivity]|]). apply Forall_nil.
Qed.

Example C74_loggers_nonvacuous :
  exists h s, run ex_console (start 0) h s /\ paired h /\
    map (fun x => (i_event (fst x), i_at (fst x), snd x)) (written s) = [(7, 30, 30); (8, 60, 60)].
Proof.
  eexists _, _. split.
  - eapply R_cons. { apply (S_tick ex_console _ 30). }
    eapply R_cons. { apply (S_push ex_console _ 7). reflexivity. }
    eapply R_cons. { apply S_flush. reflexivity. }
    eapply R_cons. { apply (S_tick ex_console _ 30). }
    eapply R_cons. { apply (S_push ex_console _ 8). reflexivity. }
    eapply R_cons. { apply S_flush. reflexivity. }
    apply R_nil.
  - split; [exact I|reflexivity].
Qed.

(** ** C75: destroying a sink takes no longer than a latency period

    False for file and console sinks: with [n] events queued the destructor returns
    [n - 1] periods later or after that, unless the worker wakes for no reason. *)
Theorem C75_destruction_slow_refuted :
  forall (E : Type) (c : cfg E), c_kind c = Buffered ->
    forall t h s s1 h2 s2, run c (start t) h s -> step c s Destroy s1 -> run c s1 h2 s2 ->
      only (@not_spurious E) h2 -> work s2 = Stopped ->
      now s + (length (queue s) - 1) * c_latency c <= now s2.
Proof. exact @destruction_slow. Qed.
Print Assumptions C75_destruction_slow_refuted.

(** On a fast machine that is also the longest it takes, and then everything is written. *)
Theorem C75_destruction_time_partial :
  forall (E : Type) (c : cfg E), c_kind c = Buffered ->
    forall t h s s1 h2 s2, run c (start t) h s -> step c s Destroy s1 -> run c s1 h2 s2 ->
      prompt h -> prompt h2 ->
      (work s2 <> Stopped -> now s2 <= now s + (length (queue s) - 1) * c_latency c) /\
      (work s2 = Stopped -> queue s2 = []).
Proof. exact @destruction_bound. Qed.
Print Assumptions C75_destruction_time_partial.

Theorem C75_destruction_ends :
  forall (E : Type) (c : cfg E), c_kind c = Buffered ->
    forall t h s s1, run c (start t) h s -> prompt h -> step c s Destroy s1 ->
      exists h2 s2, run c s1 h2 s2 /\ prompt h2 /\ only (@by_itself E) h2 /\ work s2 = Stopped /\ queue s2 = [] /\
        map fst (written s2) = map fst (written s) ++ queue s.
Proof.
  intros E c K t h s s1 R P D. pose proof (timed_run K R P) as T.
  destruct (ending_destroy K T D) as [En T1].
  destruct (destruction_ends K (le_n _) En T1) as (h2 & s2 & R2 & P2 & O & W & Q & Wr).
  exists h2, s2. repeat split; auto. rewrite Wr. inversion D; subst. reflexivity.
Qed.
Print Assumptions C75_destruction_ends.

(** Destroying the small console with 50 events in the queue takes 49 periods. *)
Example C75_example :
  exists s s1, (exists h, run ex_console (start 0) h s /\ prompt h) /\ step ex_console s Destroy s1 /\ length (queue s) = 50 /\
    (exists h2 s2, run ex_console s1 h2 s2 /\ prompt h2 /\ work s2 = Stopped) /\
    (forall h2 s2, run ex_console s1 h2 s2 -> only (@not_spurious nat) h2 -> work s2 = Stopped -> 49 * 200 <= now s2).
Proof.
  assert (H0 : length (queue (start 0 : state nat)) + 50 <= c_capacity ex_console) by (cbn; lia).
  assert (H1 : pending ex_console (queue (start 0)) + 50 * c_size ex_console 5 < c_threshold ex_console) by (apply Nat.ltb_lt; reflexivity).
  destruct (@push_many nat ex_console 50 (start 0) 5 H0 H1 eq_refl)
    as (h & s & R & P & _ & _ & N & _ & W & F & _ & l & Q & Hl & _).
  eexists s, _. split; [exists h; auto|]. split; [apply S_destroy; exact F|].
  assert (HQ : length (queue s) = 50) by (rewrite Q; exact Hl). split; [exact HQ|].
  split.
  - destruct (C75_destruction_ends nat ex_console eq_refl 0 h s _ R P (S_destroy ex_console s F)) as (h2 & s2 & R2 & P2 & _ & W2 & _).
    exists h2, s2. auto.
  - intros h2 s2 R2 O W2.
    pose proof (C75_destruction_slow_refuted nat ex_console eq_refl 0 h s _ h2 s2 R (S_destroy ex_console s F) R2 O W2) as X.
    rewrite N, HQ in X. exact X.
Qed.

(** ** C76: an idle sink sleeps

    File and console sinks: while nobody uses the sink the worker wakes by itself once per
    period (and once more in the first), on whatever machine. *)
Theorem C76_unused_sleeps :
  forall (E : Type) (c : cfg E), c_kind c = Buffered ->
    forall t h s h2 s2, run c (start t) h s -> run c s h2 s2 -> only (@unused E) h2 ->
      wakes h2 * c_latency c <= now s2 - now s + 2 * c_latency c.
Proof. intros E c K t h s h2 s2 _. exact (@sleeps_unused E c K s h2 s2). Qed.
Print Assumptions C76_unused_sleeps.

(** While it is used, twice per period, whatever happens. *)
Theorem C76_sleeps_partial :
  forall (E : Type) (c : cfg E), c_kind c = Buffered -> forall t h s, run c (start t) h s ->
    wakes h * c_latency c <= 2 * (now s - t) + 2 * c_latency c.
Proof. exact @sleeps. Qed.
Print Assumptions C76_sleeps_partial.

(** Once would be false: the worker waits for the time it has read before, while the flush
    after a logged event moves next_flush_; it wakes in vain and waits for the rest. *)
Theorem C76_wakes_twice_refuted :
  forall (E : Type) (c : cfg E), c_kind c = Buffered -> forall e n,
    1 < c_latency c -> c_tiny c = false -> 0 < c_capacity c -> c_size c e < c_threshold c ->
    exists h s, run c (start 0) h s /\ prompt h /\ Forall (logging c) h /\
      wakes h = 2 * n + 1 /\ now s = n * (c_latency c + 1).
Proof. exact @twice. Qed.
Print Assumptions C76_wakes_twice_refuted.

(** False for syslog sinks: next_flush_ is never set again, so the worker wakes any number
    of times at one and the same instant, with nothing to do. *)
Theorem C76_syslog_spins_refuted :
  forall (E : Type) (c : cfg E), c_kind c = Syslog -> forall t n,
    exists h s, run c (start t) h s /\ prompt h /\ only (fun l => l = Wake \/ l = Round) h /\ wakes h = n /\
      now s = t /\ written s = [] /\ work s = Waiting false t.
Proof. intros E c K t n. exact (@spin_gen _ _ K n (start t) eq_refl (le_n _) eq_refl eq_refl). Qed.
Print Assumptions C76_syslog_spins_refuted.

(** The small console, used once per period: 2001 wakes in a thousand periods. *)
Example C76_twice_example :
  exists h s, run ex_console (start 0) h s /\ prompt h /\ Forall (logging ex_console) h /\
    wakes h = 2001 /\ now s = 1000 * 201.
Proof.
  destruct (C76_wakes_twice_refuted nat ex_console eq_refl 5 1000) as (h & s & R & P & G & W & N);
    [cbn; lia|reflexivity|cbn; lia|apply Nat.ltb_lt; reflexivity|].
  exists h, s. repeat (split; [assumption|]). exact N.
Qed.

Example C76_nonvacuous :
  exists h s, run ex_console (start 0) h s /\ only (@unused nat) h /\ wakes h = 2 /\ now s = 200.
Proof.
  eexists _, _. split.
  - eapply R_cons. { eapply S_wake; [reflexivity|cbn; lia]. }
    eapply R_cons. { apply S_round. reflexivity. }
    eapply R_cons. { apply (S_tick ex_console _ 200). }
    eapply R_cons. { eapply S_wake; [reflexivity|cbn; lia]. }
    apply R_nil.
  - split; [|split; reflexivity]. repeat (apply Forall_cons; [exact I|]). apply Forall_nil.
Qed.

(** ** C77: what was logged gets visible in bounded time

    False: as long as nobody calls async_flush() or rotate(), and the buffer is not four
    fifths full, neither flush() nor the worker ever tells the stream to flush. *)
Theorem C77_visible_refuted :
  forall (E : Type) (c : cfg E), c_kind c = Buffered -> forall T0 e,
    0 < c_latency c -> 1 <= c_capacity c -> c_size c e < c_threshold c ->
    exists h s i w, run c (start 0) h s /\ prompt h /\ Forall (logging c) h /\
      In (i, w) (written s) /\ i_event i = e /\ i_at i = 0 /\ T0 <= now s /\ durable s = 0.
Proof. exact @invisible. Qed.
Print Assumptions C77_visible_refuted.

Theorem C77_never_flushed :
  forall (E : Type) (c : cfg E), c_kind c = Buffered -> forall t h s, run c (start t) h s ->
    Forall (logging c) h -> durable s = 0.
Proof. intros E c K t h s R L. exact (proj2 (not_flushed K R L)). Qed.
Print Assumptions C77_never_flushed.

(** What holds: after async_flush() a flush that finds an event hands over all that was written. *)
Theorem C77_async_flush_partial :
  forall (E : Type) (c : cfg E) s, must_flush (async_flush s) = true /\
    (must_flush s = true -> queue s <> [] -> durable (flush c s) = length (written (flush c s))).
Proof.
  intros E c s. split; [reflexivity|]. intros M Q. unfold flush, flush_buffered, flush_syslog.
  destruct (c_kind c); [|reflexivity]. destruct (queue s); [contradiction|]. cbn. rewrite M. reflexivity.
Qed.
Print Assumptions C77_async_flush_partial.

(** ... and the request is used up: without another one (async_flush, destruction, a buffer
    four fifths full) the stream is not told to flush again. *)
Theorem C77_answered_once :
  forall (E : Type) (c : cfg E), c_kind c = Buffered -> forall s l s1 h s2,
    queue s <> [] -> l = Flush \/ l = Round -> step c s l s1 ->
    run c s1 h s2 -> Forall (logging c) h -> durable s2 = durable s1.
Proof. exact @answered. Qed.
Print Assumptions C77_answered_once.

(** Asked once, the stream is flushed with the first event, and not with the second. *)
Example C77_answered_nonvacuous :
  exists (s s1 : state nat) h (s2 : state nat), (exists h0, run ex_console (start 0) h0 s) /\ queue s <> [] /\ must_flush s = true /\
    step ex_console s Flush s1 /\ run ex_console s1 h s2 /\ Forall (logging ex_console) h /\
    durable s1 = 1 /\ length (written s2) = 2 /\ durable s2 = 1.
Proof.
  eexists _, _, _, _. split.
  { eexists. eapply R_cons. { apply (S_push ex_console _ 7). reflexivity. }
    eapply R_cons. { apply S_async. reflexivity. } apply R_nil. }
  split; [discriminate|]. split; [reflexivity|]. split; [apply S_flush; reflexivity|]. split.
  { eapply R_cons. { apply (S_push ex_console _ 8). reflexivity. }
    eapply R_cons. { apply S_flush. reflexivity. } apply R_nil. }
  split; [|repeat split].
  apply Forall_cons; [apply Nat.ltb_lt; reflexivity|]. apply Forall_cons; [exact I|apply Forall_nil].
Qed.

Example C77_nonvacuous :
  exists h s i w, run ex_console (start 0) h s /\ prompt h /\ Forall (logging ex_console) h /\
    In (i, w) (written s) /\ i_event i = 100 /\ 5000 <= now s /\ durable s = 0.
Proof.
  destruct (C77_visible_refuted nat ex_console eq_refl 5000 100) as (h & s & i & w & R & P & L & I & Ev & _ & N & D);
    [cbn; lia|cbn; lia|apply Nat.ltb_lt; reflexivity|].
  exists h, s, i, w. repeat split; auto.
Qed.
