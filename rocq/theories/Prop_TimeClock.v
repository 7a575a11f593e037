(** * Property C125: the bounds on delays, destruction and wakes are met in the code with its threads *)
From Coq Require Import String List Arith NArith Bool Lia.
From Verif Require Import Base LevelModel SinkModel SinkSpec SinkWitness ClockModel ClockSpec ClockWitness TimeClockSpec TimeClock.
From Verif Require TimeModel TimeSpec.
Import ListNotations.

(** One thread pushes [n + 2] events at time 0, nobody flushes, the machine is fast: one of them
    is not yet written [n + 1] periods later (C89: each is written after at most one period more
    than there were events before it). *)
Theorem C125_delay_tight :
  forall (E : Type) (T : tcfg E), usable T -> forall n e,
    n + 2 <= c_cap (t_sink T) -> (N.of_nat (n + 2) * c_msize (t_sink T) e < c_threshold (t_sink T))%N ->
    exists h x tr k, crun T (cstart T 1 0) h x tr /\ quick h /\ steady h /\
      nth_error (accepted_at tr) k = Some (0, e) /\ length (written_at tr) <= k /\ now x = (n + 1) * t_lat T.
Proof. exact @delay_tight. Qed.
Print Assumptions C125_delay_tight.

(** [n] events queued, the destructor has been called at time 0: the worker ends [n - 1] periods
    later, on a fast machine (C75: not later than [n] periods). *)
Theorem C125_destruction_tight :
  forall (E : Type) (T : tcfg E), usable T -> forall n e, 1 <= n -> n <= c_cap (t_sink T) ->
    (N.of_nat n * c_msize (t_sink T) e < c_threshold (t_sink T))%N ->
    exists h1 x1 t1 h2 x2 t2, crun T (cstart T 1 0) h1 x1 t1 /\ crun T x1 h2 x2 t2 /\ quick (h1 ++ h2) /\ steady (h1 ++ h2) /\
      now x1 = 0 /\ nth_error (thr (base x1)) 1 = Some DJoin /\ accepted_at t1 = repeat (0, e) n /\ written_at t1 = [] /\
      nth_error (thr (base x2)) 0 = Some WDone /\ (n - 1) * t_lat T <= now x2.
Proof. exact @destruction_tight. Qed.
Print Assumptions C125_destruction_tight.

(** The worker wakes twice per period, on and on (C76, C90: not more often, unless another
    thread is in flush() meanwhile). *)
Theorem C125_wakes_tight :
  forall (E : Type) (T : tcfg E), usable T -> forall n e, 1 < t_lat T -> t_tiny T = false -> 1 <= c_cap (t_sink T) ->
    (c_msize (t_sink T) e < c_threshold (t_sink T))%N ->
    exists h x tr, crun T (cstart T 1 0) h x tr /\ quick h /\ steady h /\ wakes h = 2 * n + 1 /\ now x = n * (t_lat T + 1).
Proof. exact @wakes_tight. Qed.
Print Assumptions C125_wakes_tight.

(** In general: every history of the model in time (C74-C77), in which calls are moments, is an
    execution of the model with threads, one of which makes the calls: the same times of acceptance
    and of writing, the same wakes, and in the end the same clock, next_flush_, flags, queue, file
    and stream. *)
Theorem C125_time_included :
  forall (E : Type) (c : TimeModel.cfg E) (T : tcfg E), same_sink c T -> countable c ->
  forall t hs s, TimeModel.run c (TimeModel.start t) hs s ->
    exists h x tr, crun T (cstart T 1 t) h x tr /\ same_state T s x /\ steady h /\ (TimeSpec.prompt hs -> quick h) /\
      wakes h = TimeSpec.wakes hs /\
      accepted_at tr = map (fun i => (TimeModel.i_at i, TimeModel.i_event i)) (map fst (TimeModel.written s) ++ TimeModel.queue s) /\
      written_at tr = map (fun w => (snd w, TimeModel.i_event (fst w))) (TimeModel.written s).
Proof. exact @time_in_clock. Qed.
Print Assumptions C125_time_included.

(** A console sink with 64 places, latency 200, four fifths of a buffer of 1250 bytes and
    messages of 5 bytes. *)
Definition tc125 : tcfg bool :=
  mkTcfg (@mkCfg bool KConsole 64 false 1000%N INFO (fun _ => 5%N) (fun b => bs (if b then "yes" else "no")%string)) 200 false.
Definition tm125 : TimeModel.cfg bool := as_time tc125.

Lemma usable125 : usable tc125.
Proof. split; [discriminate|]. split; [reflexivity|]. split; [exists INFO; reflexivity|]. intros e. vm_compute. reflexivity. Qed.

(** The last of a burst of 52 events, 51 periods later; the destructor with 40 events: 39 periods;
    21 wakes in 10 periods and 10 ticks. *)
Example C125_nonvacuous :
  usable tc125 /\
  (exists h x tr k, crun tc125 (cstart tc125 1 0) h x tr /\ quick h /\ steady h /\
     nth_error (accepted_at tr) k = Some (0, true) /\ length (written_at tr) <= k /\ now x = 51 * 200) /\
  (exists h1 x1 t1 h2 x2 t2, crun tc125 (cstart tc125 1 0) h1 x1 t1 /\ crun tc125 x1 h2 x2 t2 /\
     length (accepted_at t1) = 40 /\ nth_error (thr (base x2)) 0 = Some WDone /\ 39 * 200 <= now x2) /\
  (exists h x tr, crun tc125 (cstart tc125 1 0) h x tr /\ quick h /\ wakes h = 21 /\ now x = 2010).
Proof.
  split; [exact usable125|]. split; [|split].
  - destruct (C125_delay_tight _ _ usable125 50 true) as (h & x & tr & k & R & Q & S & A & W & N);
      [vm_compute; lia|vm_compute; reflexivity|].
    exists h, x, tr, k. exact (conj R (conj Q (conj S (conj A (conj W N))))).
  - destruct (C125_destruction_tight _ _ usable125 40 true) as (h1 & x1 & t1 & h2 & x2 & t2 & R1 & R2 & _ & _ & _ & _ & A & _ & D & L);
      [lia|vm_compute; lia|vm_compute; reflexivity|].
    exists h1, x1, t1, h2, x2, t2. rewrite A, repeat_length. exact (conj R1 (conj R2 (conj eq_refl (conj D L)))).
  - destruct (C125_wakes_tight _ _ usable125 10 true) as (h & x & tr & R & Q & _ & W & N);
      [cbn; lia|reflexivity|vm_compute; lia|vm_compute; reflexivity|].
    exists h, x, tr. exact (conj R (conj Q (conj W N))).
Qed.

(** The premises of the inclusion, for that sink, and a history of the model in time: two events
    pushed, the worker wakes, and a round of it writes one of them. *)
Example C125_same_sink : same_sink tm125 tc125 /\ countable tm125.
Proof. apply as_same; [exact usable125|vm_compute; lia]. Qed.
Example C125_history :
  exists hs s, TimeModel.run tm125 (TimeModel.start 7) hs s /\ TimeSpec.prompt hs /\
    map (fun w => (TimeModel.i_event (fst w), snd w)) (TimeModel.written s) = [(true, 7); (false, 207)] /\
    length (TimeModel.queue s) = 1 /\ TimeModel.now s = 207.
Proof.
  eexists _, _. split.
  - eapply TimeModel.R_cons. { apply (TimeModel.S_push tm125 _ true). reflexivity. }
    eapply TimeModel.R_cons. { apply (TimeModel.S_push tm125 _ false). reflexivity. }
    eapply TimeModel.R_cons. { apply (TimeModel.S_push tm125 _ true). reflexivity. }
    eapply TimeModel.R_cons. { eapply TimeModel.S_wake; [reflexivity|apply Nat.leb_le; reflexivity]. }
    eapply TimeModel.R_cons. { apply TimeModel.S_round. reflexivity. }
    eapply TimeModel.R_cons. { apply (TimeModel.S_tick tm125 _ 200). }
    eapply TimeModel.R_cons. { eapply TimeModel.S_wake; [reflexivity|apply Nat.leb_le; vm_compute; reflexivity]. }
    eapply TimeModel.R_cons. { apply TimeModel.S_round. reflexivity. }
    apply TimeModel.R_nil.
  - split; [|vm_compute; auto].
    repeat (apply Forall_cons; [vm_compute; try exact I; try lia|]). apply Forall_nil.
Qed.
