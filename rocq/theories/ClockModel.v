(** * Model of a leaf sink under concurrency, with a clock
      (sink_to_file.cpp:99-277, sink_to_console.cpp:160-349, sink.hpp:116-155)

    The steps are those of [SinkModel]; added are the clock (steady_clock, a number of
    ticks) and next_flush_.  For file and console sinks with a worker.

    Simplifications:
    - The clock is read and next_flush_ is compared and stored in one step (file 204-208,
      console 300-304); next_flush_ is read at its latest value.
    - wait_until returns timeout at its time or later; it may return no_timeout at any time. *)

From Coq Require Import List Arith Bool.
From Verif Require Import SinkModel.
Import ListNotations.

Set Implicit Arguments.

(** Settings. *)
Record tcfg (E : Type) := mkTcfg {
  t_sink : cfg E;
  t_lat : nat;              (* latency_, in ticks; not zero *)
  t_tiny : bool             (* buff_.size() < sizeof(Event): file 204, console 300 *)
}.

Section Clock.
Context {E : Type}.

Record cstate := mkC {
  base : state E;
  now : nat;
  next : nat;               (* next_flush_ *)
  until : option nat        (* the time the worker waits for: next_flush_ as it was read
                               before the wait (file 260-261, console 332-333); [None]: not read yet *)
}.

Variable T : tcfg E.

(** Where thread [t] is. *)
Definition at_pc (s : state E) (t : nat) : option (pc E) := nth_error (thr s) t.

(** next_flush_ after a step of a thread (file 204-208, console 300-304): set if an event was
    appended, if the buffer is tiny, or if the time has come. *)
Definition next_after (s : cstate) (m : move E) : nat :=
  match m with
  | MThread t _ =>
      match at_pc (base s) t with
      | Some (FWrite _ (Some _)) => now s + t_lat T
      | Some (FWrite _ None) =>
          if t_tiny T || Nat.leb (next s) (now s) then now s + t_lat T else next s
      | _ => next s
      end
  | MDrain _ => next s
  end.

(** wait_until returns: it waits (the time has been read), and timeout comes at its time. *)
Definition may (s : cstate) (m : move E) : bool :=
  match m with
  | MThread t c =>
      match at_pc (base s) t, c, until s with
      | Some WWait, CWake true, Some u => Nat.leb u (now s)
      | Some WWait, CWake false, Some _ => true
      | Some WWait, _, _ => false
      | _, _, _ => true
      end
  | MDrain _ => true
  end.

(** Whenever the worker leaves the wait (or finds it has nothing to do, file 263-266: continue)
    the time has to be read again. *)
Definition until_after (s : cstate) (m : move E) : option nat :=
  match m with
  | MThread t _ => match at_pc (base s) t with Some WWait => None | _ => until s end
  | MDrain _ => until s
  end.

Definition cstep (s : cstate) (m : move E) : cstate * list (label E) :=
  let '(b, ls) := step (t_sink T) (base s) m in
  (mkC b (now s) (next_after s m) (until_after s m), ls).

(** What happens: a step of a thread, the worker reads next_flush_, time passes. *)
Inductive event := Move (m : move E) | Read | Tick (d : nat).

Inductive cnext : cstate -> event -> cstate -> list (label E) -> Prop :=
| N_move s m s' ls : may s m = true -> cstep s m = (s', ls) -> cnext s (Move m) s' ls
| N_read s : at_pc (base s) 0 = Some WWait -> until s = None ->
    cnext s Read (mkC (base s) (now s) (next s) (Some (next s))) []
| N_tick s d : cnext s (Tick d) (mkC (base s) (now s + d) (next s) (until s)) [].

(** The worker has started at time [t] (file 251-256, console 323-328); [clients] threads. *)
Definition cstart (clients t : nat) : cstate := mkC (init (t_sink T) true clients) t t None.

(** Executions, with the states before each event and the observations with their times. *)
Inductive crun (s0 : cstate) : list (cstate * event) -> cstate -> list (nat * label E) -> Prop :=
| R_start : crun s0 [] s0 []
| R_snoc h s tr ev s' ls : crun s0 h s tr -> cnext s ev s' ls ->
    crun s0 (h ++ [(s, ev)]) s' (tr ++ map (fun l => (now s, l)) ls).

End Clock.
Arguments cstate : clear implicits.
Arguments event : clear implicits.
