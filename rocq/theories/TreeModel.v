(** * Model of composite sinks, the null sink, loggers' push and the macros
      (sink.hpp:116-155, multisink.cpp:16-34, multisink.hpp:36, sink_to_nowhere.cpp:14-39,
      logger.hpp:38-72, macro.hpp)

    A composite sink's level and members are fixed at construction, so the sinks
    below it form a tree; a sink used twice occurs twice, with the same number.
    What a call on the root does is the list of calls it makes on leaf sinks,
    whose effects are modelled in SinkModel. *)

From Coq Require Import List Arith Bool.
From Verif Require Import Base LevelModel.
Import ListNotations.

Set Implicit Arguments.

Inductive tree :=
| Leaf (id : nat) (lv : level)              (* file, console, syslog *)
| Nowhere (id : nat)                        (* SinkToNowhere *)
| Multi (lv : level) (members : list tree). (* Multisink *)

(** level_; SinkToNowhere passes Level::OFF (sink_to_nowhere.cpp:14-21). *)
Definition tlevel (t : tree) : level :=
  match t with Leaf _ lv => lv | Nowhere _ => OFF | Multi lv _ => lv end.

(** Calls on leaf sinks. *)
Inductive call (E : Type) :=
| Put (id : nat) (l : level) (e : E)   (* the queue of the leaf gets the event *)
| Async (id : nat)
| Flush (id : nat)
| Rotate (id : nat).

Arguments Async {E} id.
Arguments Flush {E} id.
Arguments Rotate {E} id.

Section Tree.
Context {E : Type}.

(** Outcome of a call: the leaf calls it makes, or undefined behaviour after some. *)
Inductive outcome := Done (cs : list (call E)) | UB.
Definition andthen (a b : outcome) : outcome :=
  match a, b with Done x, Done y => Done (x ++ y) | _, _ => UB end.

(** Sink::push (sink.hpp:116-155), for every kind of sink.  The queue of a composite
    has capacity 0 (sink.hpp:92): putting into it is undefined (a node of an
    empty vector is used, then a division by zero). *)
Fixpoint push (t : tree) (l : level) (e : E) : outcome :=
  if llt (tlevel t) l || leqb l OFF || leqb l IGNORE then Done []
  else match t with
       | Leaf id _ | Nowhere id => Done [Put id l e]
       | Multi _ [] => UB
       | Multi _ ms => (fix go (ms : list tree) : outcome :=
                          match ms with
                          | [] => Done []
                          | m :: ms' => andthen (push m l e) (go ms')
                          end) ms
       end.

(** async_flush: Multisink does nothing (multisink.hpp:36). *)
Definition async_flush (t : tree) : list (call E) :=
  match t with
  | Leaf id _ | Nowhere id => [Async id]
  | Multi _ _ => []
  end.

(** flush (multisink.cpp:21-28). *)
Fixpoint flush (t : tree) : list (call E) :=
  match t with
  | Leaf id _ | Nowhere id => [Flush id]
  | Multi _ ms => flat_map async_flush ms ++ flat_map flush ms
  end.

(** rotate (multisink.cpp:30-34). *)
Fixpoint rotate (t : tree) : list (call E) :=
  match t with
  | Leaf id _ | Nowhere id => [Rotate id]
  | Multi _ ms => flat_map rotate ms
  end.

(** ** The null sink *)

(** Its queue, as far as it matters. *)
Definition nowhere := list E.

(** push (sink.hpp:116-155) with level_ = OFF; the queue has 1024 places. *)
Definition nowhere_push (s : nowhere) (l : level) (e : E) : nowhere :=
  if llt OFF l || leqb l OFF || leqb l IGNORE then s
  else if Nat.ltb (length s) 1024 then s ++ [e] else s.

(** flush: while (events_.size() > 0) events_.get() (sink_to_nowhere.cpp:27-31);
    [None]: the loop has not ended after [fuel] rounds. *)
Fixpoint nowhere_flush (fuel : nat) (s : nowhere) : option nowhere :=
  match s with
  | [] => Some []
  | _ :: rest => match fuel with O => None | S f => nowhere_flush f rest end
  end.

(** async_flush, rotate and the destructor flush (sink_to_nowhere.cpp:23-25, 33-39). *)
Definition nowhere_async (fuel : nat) (s : nowhere) : option nowhere := nowhere_flush fuel s.
Definition nowhere_rotate (fuel : nat) (s : nowhere) : option nowhere := nowhere_flush fuel s.

(** ** Loggers *)

(** Logger::push (logger.hpp:43-55); [lv] is level_, [t] is sink_. *)
Definition logger_push (lv : level) (t : tree) (l : level) (e : E) : outcome :=
  if lle l lv then
    if negb (leqb l OFF) && negb (leqb l IGNORE) then
      andthen (push t l e)
              (if lle CRITICAL lv then Done (flush t) else Done [])
    else Done []
  else Done [].

(** trace, debug, verbose, info, warn, error, critical (logger.hpp:74-185), log (69-72). *)
Inductive named := MTrace | MDebug | MVerbose | MInfo | MWarn | MError | MCritical.
Definition named_level (m : named) : level :=
  match m with
  | MTrace => TRACE | MDebug => DEBUG | MVerbose => VERBOSE | MInfo => INFO
  | MWarn => WARN | MError => ERROR | MCritical => CRITICAL
  end.
Definition log (lv : level) (t : tree) (l : level) (e : E) : outcome := logger_push lv t l e.
Definition method (lv : level) (t : tree) (m : named) (e : E) : outcome :=
  logger_push lv t (named_level m) e.

(** ** Macros *)

(** _SL_LOG_IF_LEVEL (macro.hpp:23-30): are the arguments evaluated, and what happens. *)
Definition sl_log_if_level (lv : level) (t : tree) (l : level) (e : E) : bool * outcome :=
  if lle l lv then (true, log lv t l e) else (false, Done []).

(** SL_LOG, SL_LOG_DF (macro.hpp:32-41). *)
Definition sl_log (df : bool) (lv : level) (t : tree) (l : level) (e : E) : bool * outcome :=
  sl_log_if_level lv t l e.

(** SL_TRACE ... SL_CRITICAL and their _DF variants (macro.hpp:60-128).  [wt], [wd]:
    WITHOUT_TRACE_LOG_LEVEL, WITHOUT_DEBUG_LOG_LEVEL are defined; lines 60-63 undefine
    the latter if only it is defined. *)
Definition sl_named (wt wd : bool) (df : bool) (m : named) (lv : level) (t : tree) (e : E) : bool * outcome :=
  let wd := if wd && negb wt then false else wd in
  match m with
  | MTrace => if wt then (false, Done []) else sl_log_if_level lv t TRACE e
  | MDebug => if wd then (false, Done []) else sl_log_if_level lv t DEBUG e
  | MVerbose => sl_log_if_level lv t VERBOSE e
  | MInfo => sl_log_if_level lv t INFO e
  | MWarn => sl_log_if_level lv t WARN e
  | MError => sl_log_if_level lv t ERROR e
  | MCritical => sl_log_if_level lv t CRITICAL e
  end.

End Tree.
Arguments outcome : clear implicits.
Arguments nowhere : clear implicits.
