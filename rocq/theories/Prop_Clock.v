(** * Properties C89, C90, C93 (and C75 again): threads and the clock

    [SinkModel] with a clock: any number of threads, every interleaving.  [cstart T n t]: a
    file or console sink with its worker, constructed at time [t], and [n] client threads.
    [quick h]: time passes only while nobody is in flush() and the worker sleeps. *)

From Coq Require Import List Arith NArith Bool Lia String.
From Verif Require Import SinkModel SinkSpec SinkWitness ClockModel ClockSpec ClockProofs ClockEnd ClockRotate ClockRotateGo ClockSleep ClockWitness CoverProofs.
Import ListNotations.

(** ** C89: an event is handed over one period per event before it, in every schedule

    The event accepted as number [i] (from 0) at time [t], when [k] accepted events were not
    yet handed over, is handed over between [t] and [t + (k + 1) * latency]. *)
Theorem C89_delay_every_schedule :
  forall (E : Type) (T : tcfg E), sizes_ok (t_sink T) -> c_kind (t_sink T) <> KSyslog -> c_lat0 (t_sink T) = false ->
    forall n t0 h s tr, crun T (cstart T n t0) h s tr -> quick h ->
    forall pre t th e post, tr = pre ++ (t, LAccept th e) :: post ->
      let i := List.length (accepted (labels pre)) in
      let k := i - List.length (written (labels pre)) in
      match nth_error (write_times tr) i with
      | Some w => t <= w /\ w <= t + (k + 1) * t_lat T
      | None => t <= now s /\ now s <= t + (k + 1) * t_lat T
      end.
Proof. intros E T Hs Hk Hl n t0 h s tr R Q pre t th e post. exact (delay T Hs Hk Hl n t0 h s tr pre t th e post R Q). Qed.
Print Assumptions C89_delay_every_schedule.

(** Every execution of a sink with a worker (C18-C27, from any time on) is one in time, if
    time may pass anywhere. *)
Theorem C89_every_execution :
  forall (E : Type) (T : tcfg E) n t0 ms s ls, exec (t_sink T) (init (t_sink T) true n) ms = (s, ls) ->
    exists h x tr, crun T (cstart T n t0) h x tr /\ base x = s /\ labels tr = ls.
Proof. exact @timed_execution. Qed.
Print Assumptions C89_every_execution.

(** It is that very event: records come out in the order of acceptance. *)
Theorem C89_same_event :
  forall (E : Type) (T : tcfg E), sizes_ok (t_sink T) -> c_kind (t_sink T) <> KSyslog ->
    forall n t0 h s tr, crun T (cstart T n t0) h s tr ->
    (forall pre t th e post, tr = pre ++ (t, LAccept th e) :: post ->
       nth_error (accepted (labels tr)) (List.length (accepted (labels pre))) = Some e) /\
    (forall i e, nth_error (written (labels tr)) i = Some e -> nth_error (accepted (labels tr)) i = Some e) /\
    List.length (write_times tr) = List.length (written (labels tr)).
Proof.
  intros E T Hs Hk n t0 h s tr R. split; [|split; [|exact (nwr_times tr)]].
  - intros pre t th e post ->. unfold labels. rewrite map_app. cbn [map snd].
    unfold accepted at 1, accepts. rewrite flat_map_app, map_app. cbn [flat_map app map snd].
    rewrite nth_error_app2 by (unfold accepted, accepts; apply le_n).
    unfold accepted, accepts. rewrite Nat.sub_diag. reflexivity.
  - intros i e H. destruct (SinkProps.output_is_accepted (t_sink T) n _ _ Hs Hk (crun_reach T n t0 h s tr R)) as (A & _ & _).
    rewrite A. rewrite nth_error_app1; [exact H|]. apply nth_error_Some. congruence.
Qed.
Print Assumptions C89_same_event.

(** Two clients, three events at time 0: the first goes out at once, the second at 200; the
    third, accepted behind one other, is still there at 350 and due at 400. *)
Example C89_nonvacuous : exists h s tr, crun ctc (cstart ctc 2 0) h s tr /\ quick h /\ now s = 350 /\
  events_of tr = [(0, LAccept 1 "one"%string); (0, LAccept 2 "two"%string); (0, LWrite 2 "one"%string);
                  (0, LAccept 1 "three"%string); (200, LWrite 0 "two"%string)].
Proof. exact C89_witness. Qed.

Example C89_config : sizes_ok (t_sink ctc) /\ c_kind (t_sink ctc) <> KSyslog /\ c_lat0 (t_sink ctc) = false.
Proof. split; [exact (wsizes KConsole false)|]. split; [discriminate|reflexivity]. Qed.

(** ** C75: in every schedule, the worker ends one period per pending event after the
    destructor has announced the end (or one period, if there is none). *)
Theorem C75_every_schedule_partial :
  forall (E : Type) (T : tcfg E), sizes_ok (t_sink T) -> c_kind (t_sink T) <> KSyslog -> c_lat0 (t_sink T) = false ->
    forall n t h s1 tr h2 s2 tr2, crun T (cstart T n t) h s1 tr -> crun T s1 h2 s2 tr2 ->
      quick (h ++ h2) -> Forall sees_end h2 -> fin (base s1) = true ->
      nth_error (thr (base s2)) 0 = Some WDone \/
      now s2 <= now s1 + Nat.max 1 (List.length (pending (base s1))) * t_lat T.
Proof. exact @destruction_time. Qed.
Print Assumptions C75_every_schedule_partial.

Example C75_every_schedule_nonvacuous :
  exists h s1 tr h2 s2 tr2, crun ctc (cstart ctc 2 0) h s1 tr /\ crun ctc s1 h2 s2 tr2 /\
  quick (h ++ h2) /\ Forall sees_end h2 /\ fin (base s1) = true /\ pending (base s1) = ["three"%string] /\
  nth_error (thr (base s2)) 0 = Some WDone /\ now s1 = 350 /\ now s2 = 400 /\ written (labels tr2) = ["three"%string].
Proof. exact C75_clock_witness. Qed.

(** ** C90: the worker sleeps while somebody else is flushing

    False: the worker's flush() returns at once, the time it waits for is over, and it goes
    round and round, any number of times at one instant. *)
Theorem C90_worker_spins_refuted :
  forall (E : Type) (T : tcfg E), c_lat0 (t_sink T) = false -> forall n t,
    exists h s tr, crun T (cstart T 1 t) h s tr /\ quick h /\ wakes h = n /\ now s = t /\
      written (labels tr) = [] /\ nth_error (thr (base s)) 1 = Some (FGet KReturn).
Proof. exact @spins. Qed.
Print Assumptions C90_worker_spins_refuted.

(** What holds, for any number of threads, in every schedule and at every speed: the worker
    wakes by itself at most twice per period, not counting the times its flush() was turned
    away because somebody else was inside. *)
Theorem C90_sleeps_partial :
  forall (E : Type) (T : tcfg E), c_kind (t_sink T) <> KSyslog -> forall n t h s tr, crun T (cstart T n t) h s tr ->
    wakes h * t_lat T <= 2 * (now s - t) + (2 + turned_away h) * t_lat T.
Proof. exact @sleeps_always. Qed.
Print Assumptions C90_sleeps_partial.

(** A client is inside flush() while the worker wakes at once and then again; the next wakes are at 200 and 400. *)
Definition w90 : list (event string) :=
  Move (MThread 1 CFlush) :: mv 1 1 ++ Read :: Move (MThread 0 (CWake true)) :: mv 0 2 ++ Read :: Move (MThread 0 (CWake true)) :: mv 0 2 ++
  mv 1 3 ++ Read :: Tick 200 :: Move (MThread 0 (CWake true)) :: mv 0 5 ++ Read :: Tick 200 :: [Move (MThread 0 (CWake true))].
Example C90_nonvacuous :
  exists h s tr, crun ctc (cstart ctc 1 0) h s tr /\ quick h /\ wakes h = 4 /\ turned_away h = 2 /\ now s = 400.
Proof.
  destruct (cgo ctc (cstart ctc 1 0) w90) as [[[h s] tr]|] eqn:H; [|vm_compute in H; discriminate].
  exists h, s, tr. split; [apply (cgo_run ctc w90); exact H|].
  assert (Q : forallb calmb h = true) by (vm_compute in H; injection H as <- <- <-; reflexivity).
  split; [apply quickb; exact Q|]. vm_compute in H. injection H as <- <- <-. repeat split; reflexivity.
Qed.

(** ** C93: a requested rotation is carried out at once

    [prompt]: a worker that is notified in its sleep wakes before any time passes.
    [steady]: no spurious failure of compare_exchange_weak.

    Within one period in every schedule, as long as the sink is not being destroyed.
    Missing: at once. *)
Theorem C93_within_a_period_partial :
  forall (E : Type) (T : tcfg E), sizes_ok (t_sink T) -> c_kind (t_sink T) = KFile -> c_lat0 (t_sink T) = false ->
    forall n t0 h s tr pre t th post, crun T (cstart T n t0) h s tr -> quick h -> steady h ->
      tr = pre ++ (t, LRotate th) :: post -> no_reopen post -> fin (base s) = false -> now s <= t + t_lat T.
Proof. exact @rotation_delay. Qed.
Print Assumptions C93_within_a_period_partial.

(** At once if, when rotate() notifies the worker, it is asleep and nobody is in flush(). *)
Theorem C93_at_once_partial :
  forall (E : Type) (T : tcfg E), sizes_ok (t_sink T) -> c_kind (t_sink T) = KFile -> c_lat0 (t_sink T) = false ->
    forall n t0 h s1 tr pre t th post c h2 s2 tr2, crun T (cstart T n t0) h s1 tr ->
      tr = pre ++ (t, LRotate th) :: post -> no_reopen post ->
      nth_error (thr (base s1)) th = Some RAsync -> fip (base s1) = false -> asleep s1 = true ->
      crun T s1 ((s1, Move (MThread th c)) :: h2) s2 tr2 ->
      let h' := h ++ (s1, Move (MThread th c)) :: h2 in
      quick h' -> prompt (t_sink T) h' -> steady h' -> no_reopen tr2 -> fin (base s2) = false -> now s2 = now s1.
Proof. exact @rotation_at_once. Qed.
Print Assumptions C93_at_once_partial.

(** And then it does happen: without any time passing, the worker can go on and re-open the
    file, if the oldest event in the queue, if any, has been put completely. *)
Theorem C93_happens_partial :
  forall (E : Type) (T : tcfg E), sizes_ok (t_sink T) -> c_kind (t_sink T) = KFile -> c_lat0 (t_sink T) = false ->
    forall n t0 h s1 tr pre t th post, crun T (cstart T n t0) h s1 tr ->
      tr = pre ++ (t, LRotate th) :: post -> no_reopen post -> quick h -> steady h ->
      nth_error (thr (base s1)) th = Some RAsync -> fip (base s1) = false -> asleep s1 = true -> fin (base s1) = false ->
      match q (base s1) with [] => True | x :: _ => q_stage x = Published end ->
      exists h2 s2 tr2, crun T s1 h2 s2 tr2 /\ Forall (fun x => exists m, snd x = Move m) h2 /\ steady h2 /\
        now s2 = now s1 /\ In (now s1, LReopen 0 ROFresh) tr2.
Proof. exact @rotation_happens. Qed.
Print Assumptions C93_happens_partial.

(** False in general: rotate() returns while the worker is on its way to sleep; the
    notification is lost, and a whole period later nothing has happened. *)
Theorem C93_at_once_refuted :
  exists h s tr t, crun ctf (cstart ctf 1 0) h s tr /\ quick h /\ prompt (t_sink ctf) h /\ steady h /\
    fin (base s) = false /\ tr = [(0, LLock 0); (0, LUnlock 0); (t, LRotate 1); (t, LReturn 1)] /\
    t_lat ctf = 200 /\ now s = t + 200.
Proof. destruct C93_lost_witness as (h & s & tr & t & H). exists h, s, tr, t. intuition. Qed.
Print Assumptions C93_at_once_refuted.

(** The period is used up entirely. *)
Example C93_tight : exists h s tr, crun ctf (cstart ctf 1 0) h s tr /\ quick h /\ steady h /\
  tr = [(0, LLock 0); (0, LUnlock 0); (0, LRotate 1); (0, LReturn 1); (200, LLock 0); (200, LReopen 0 ROFresh)].
Proof. exact C93_tight_witness. Qed.

Example C93_at_once_nonvacuous : exists h s1 tr h2 s2 tr2, crun ctf (cstart ctf 1 0) h s1 (tr ++ [(50, LRotate 1)]) /\
  nth_error (thr (base s1)) 1 = Some RAsync /\ fip (base s1) = false /\ asleep s1 = true /\
  crun ctf s1 ((s1, Move (MThread 1 (CGo false))) :: h2) s2 tr2 /\
  quick (h ++ (s1, Move (MThread 1 (CGo false))) :: h2) /\ prompt (t_sink ctf) (h ++ (s1, Move (MThread 1 (CGo false))) :: h2) /\
  steady (h ++ (s1, Move (MThread 1 (CGo false))) :: h2) /\ fin (base s2) = false /\
  tr2 = [(50, LReturn 1); (50, LLock 0); (50, LReopen 0 ROFresh)].
Proof. exact C93_asleep_witness. Qed.

Example C93_config : sizes_ok (t_sink ctf) /\ c_kind (t_sink ctf) = KFile /\ c_lat0 (t_sink ctf) = false.
Proof. split; [exact (wsizes KFile false)|]. split; reflexivity. Qed.
