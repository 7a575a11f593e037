(** * Model of the background worker in time
      (sink.hpp:116-155, sink_to_file.cpp:99-277, sink_to_console.cpp:160-349,
      sink_to_syslog.cpp:105-282), for sinks with non-zero latency

    Time is a number of clock ticks (steady_clock) and passes in steps of its own
    ([Tick]).  The worker waits on the condition variable until the instant that
    next_flush_ was when the wait began, or until it is notified; a notification reaches
    it only while it waits.

    Simplifications:
    - push() and flush() are atomic and take no time: flush() is used by one thread at a
      time (C21), the events are queued in order (C19).
    - The size counter is the sum of the sizes of the queued messages (C24).
    - compare_exchange_weak does not fail spuriously.
    - Rotation is left out.  The output goes to the stream; the stream hands it to the
      operating system when it is told to flush, or when it likes to ([Spill]). *)

From Coq Require Import List Arith Bool.
Import ListNotations.

Set Implicit Arguments.

(** File and console sinks have the same flush() and run(), up to the text. *)
Inductive kind := Buffered | Syslog.

(** Settings fixed at construction. *)
Record cfg (E : Type) := mkCfg {
  c_kind : kind;
  c_latency : nat;              (* latency_, in ticks; not zero *)
  c_capacity : nat;             (* capacity of events_ *)
  c_threshold : nat;            (* max_buffer_size_ * 4 / 5, sink.hpp:147 *)
  c_tiny : bool;                (* buff_.size() < sizeof(Event) *)
  c_size : E -> nat             (* message().size() *)
}.

Section Time.
Context {E : Type}.

(** An event in the queue: when it was accepted, and behind how many others. *)
Record item := mkItem { i_event : E; i_at : nat; i_ahead : nat }.

(** run(): waiting (was it notified? until when: next_flush_ is read once, before the wait,
    sink_to_file.cpp:261), on the way to flush(), or returned. *)
Inductive worker := Waiting (notified : bool) (until : nat) | Running | Stopped.

Record state := mkState {
  now : nat;
  next : nat;                   (* next_flush_ *)
  queue : list item;            (* events_ *)
  written : list (item * nat);  (* given to the stream, and when *)
  durable : nat;                (* how many of them were given to the operating system *)
  must_flush : bool;            (* need_to_flush_ *)
  finalize : bool;              (* need_to_finalize_ *)
  work : worker
}.

Variable c : cfg E.

Definition pending (q : list item) : nat := list_sum (map (fun i => c_size c (i_event i)) q).

(** condvar_.notify_one() *)
Definition notify (w : worker) : worker :=
  match w with Waiting _ u => Waiting true u | _ => w end.

(** async_flush (sink_to_file.cpp:112-119, sink_to_console.cpp:173-180, sink_to_syslog.cpp:120-127) *)
Definition async_flush (s : state) : state :=
  mkState (now s) (next s) (queue s) (written s) (durable s) true (finalize s) (notify (work s)).

(** flush (sink_to_file.cpp:121-244, sink_to_console.cpp:182-321): at most one event, as the
    loop ends with break (file 221, console 317).  The stream is flushed only if
    need_to_flush_ was set. *)
Definition flush_buffered (s : state) : state :=
  match queue s with
  | i :: q =>
      let w := written s ++ [(i, now s)] in
      mkState (now s) (now s + c_latency c) q w
              (if must_flush s then length w else durable s) false (finalize s) (work s)
  | [] =>
      mkState (now s) (if c_tiny c || Nat.leb (next s) (now s) then now s + c_latency c else next s)
              [] (written s) (durable s) (must_flush s) (finalize s) (work s)
  end.

(** flush (sink_to_syslog.cpp:129-254): all events; next_flush_ is left alone. *)
Definition flush_syslog (s : state) : state :=
  let w := written s ++ map (fun i => (i, now s)) (queue s) in
  mkState (now s) (next s) [] w (length w) false (finalize s) (work s).

Definition flush (s : state) : state :=
  match c_kind c with Buffered => flush_buffered s | Syslog => flush_syslog s end.

(** events_.put and size_ += ... (sink.hpp:127-138), and the test of line 147. *)
Definition put (e : E) (s : state) : state :=
  let s' := mkState (now s) (next s) (queue s ++ [mkItem e (now s) (length (queue s))]) (written s)
                    (durable s) (must_flush s) (finalize s) (work s) in
  if Nat.leb (c_threshold c) (pending (queue s')) then async_flush s' else s'.

(** push (sink.hpp:124-149) of an admitted event; if the queue is full, flush() and again. *)
Definition push (e : E) (s : state) : state :=
  if Nat.ltb (length (queue s)) (c_capacity c) then put e s else put e (flush s).

(** What happens.  [Wake]: wait_until returns timeout, at its time or later; [Notified]:
    it returns no_timeout because of notify_one; [Spurious]: for no reason; [Round]: the
    worker flushes and looks whether it has to end.  [Flush]: somebody calls flush();
    a logger does so after each push (logger.hpp:50-52).  [Destroy]: the destructor up
    to the join (sink_to_file.cpp:101-102). *)
Inductive label := Push (e : E) | Flush | AsyncFlush | Destroy | Tick (d : nat) | Wake | Notified | Spurious | Round | Spill (n : nat).

Definition set_work (s : state) (w : worker) : state :=
  mkState (now s) (next s) (queue s) (written s) (durable s) (must_flush s) (finalize s) w.

(** After no_timeout: continue, unless there is something to do (sink_to_file.cpp:263-266). *)
Definition woken (s : state) : state :=
  set_work s (if must_flush s || finalize s then Running else Waiting false (next s)).

(** The end of a round (sink_to_file.cpp:270-275). *)
Definition round (s : state) : state :=
  let s' := flush s in
  set_work s' (if finalize s' && (match queue s' with [] => true | _ => false end) then Stopped else Waiting false (next s')).

Inductive step : state -> label -> state -> Prop :=
| S_push s e : finalize s = false -> step s (Push e) (push e s)
| S_flush s : finalize s = false -> step s Flush (flush s)
| S_async s : finalize s = false -> step s AsyncFlush (async_flush s)
| S_destroy s : finalize s = false ->
    step s Destroy (async_flush (mkState (now s) (next s) (queue s) (written s) (durable s)
                                         (must_flush s) true (work s)))
| S_tick s d : step s (Tick d) (mkState (now s + d) (next s) (queue s) (written s) (durable s)
                                        (must_flush s) (finalize s) (work s))
| S_wake s b u : work s = Waiting b u -> u <= now s -> step s Wake (set_work s Running)
| S_notified s u : work s = Waiting true u -> step s Notified (woken s)
| S_spurious s b u : work s = Waiting b u -> step s Spurious (woken s)
| S_round s : work s = Running -> step s Round (round s)
| S_spill s n : durable s <= n -> n <= length (written s) ->
    step s (Spill n) (mkState (now s) (next s) (queue s) (written s) n (must_flush s) (finalize s) (work s)).

(** The worker has started (sink_to_file.cpp:251-256) at time [t]. *)
Definition start (t : nat) : state := mkState t t [] [] 0 false false (Waiting false t).

(** Histories, with the state before each event. *)
Inductive run : state -> list (state * label) -> state -> Prop :=
| R_nil s : run s [] s
| R_cons s l s1 h s2 : step s l s1 -> run s1 h s2 -> run s ((s, l) :: h) s2.

End Time.
Arguments state : clear implicits.
Arguments item : clear implicits.
Arguments label : clear implicits.
