(** * Model of Logger::push running while the system is reconfigured
      (include/soralog/logger.hpp:43-55; src/logging_system.cpp)

    A call of the logging system, or of a setter of a logger, is one step of some
    thread ([SysModel.step]).  Logger::push takes no lock, and does not copy sink_: its
    reads of level_ and sink_ are steps of their own, and so are the calls of the sink,
    which may last as long as they like ([LPushing], [LFlushing]; what happens inside
    is in SinkModel).

    Simplified: a read or an assignment of level_ or sink_ is atomic (in C++ the
    unsynchronised accesses are a data race). *)

From Coq Require Import String List Arith Bool.
From Verif Require Import Base LevelModel SysModel SysSpec.
Import ListNotations.

(** Where a thread is in Logger::push (logger.hpp:46-54), called on logger [i] with
    level [lv]. *)
Inductive lpc :=
| LIdle                                 (* not in a call *)
| LTest (i : nat) (lv : level)          (* 46: level_ >= level *)
| LDeref (i : nat) (lv : level)         (* 48: sink_-> *)
| LPushing (i : nat) (lv : level) (k : nat)  (* 48: inside push of sink [k] *)
| LTest2 (i : nat)                      (* 49: level_ >= Level::CRITICAL *)
| LDeref2 (i : nat)                     (* 50: sink_-> *)
| LFlushing (i k : nat)                 (* 50: inside flush of sink [k] *)
| LNull (i : nat).                      (* a null sink_ was dereferenced *)

(** [held]: the sinks the program holds itself (what makeSink and getSink returned). *)
Record lst := mkL { lsys : sys; held : list nat; pc : nat -> lpc }.

Definition upd (f : nat -> lpc) (t : nat) (p : lpc) : nat -> lpc :=
  fun u => if Nat.eqb u t then p else f u.

(** The next step of the thread (logger.hpp:46-54). *)
Definition advance (s : sys) (p : lpc) : lpc :=
  match p with
  | LIdle => LIdle
  | LTest i lv =>
      match nth_error (loggers s) i with
      | Some L => if lle lv (l_level L)
                  then if negb (leqb lv OFF) && negb (leqb lv IGNORE) then LDeref i lv else LIdle
                  else LIdle
      | None => LNull i
      end
  | LDeref i lv =>
      match nth_error (loggers s) i with
      | Some L => match l_sink L with Some k => LPushing i lv k | None => LNull i end
      | None => LNull i
      end
  | LPushing i lv k => LTest2 i
  | LTest2 i =>
      match nth_error (loggers s) i with
      | Some L => if lle CRITICAL (l_level L) then LDeref2 i else LIdle
      | None => LNull i
      end
  | LDeref2 i =>
      match nth_error (loggers s) i with
      | Some L => match l_sink L with Some k => LFlushing i k | None => LNull i end
      | None => LNull i
      end
  | LFlushing i k => LIdle
  | LNull i => LNull i
  end.

(** The logger a thread is in a call of. *)
Definition in_logger (p : lpc) : option nat :=
  match p with
  | LIdle => None
  | LTest i _ | LDeref i _ | LPushing i _ _ | LTest2 i | LDeref2 i | LFlushing i _ | LNull i => Some i
  end.

(** What the program must do: no logger is destroyed while a thread is in a call of it. *)
Definition fair_call (a : lst) (c : call) : Prop :=
  match c with
  | LDrop i => forall t, in_logger (pc a t) <> Some i
  | _ => True
  end.

(** Sinks returned are held (logging_system.hpp:117-123). *)
Definition returned (o : out) (h : list nat) : list nat :=
  match o with RSink k => k :: h | _ => h end.

Inductive lmove :=
| Call (c : call)                        (* a call of the system *)
| Configured                             (* configure() marks the system, logging_system.cpp:66 *)
| Hold (n : string)                      (* getSink, logging_system.cpp:156-164 *)
| Release (k : nat)                      (* the program drops a sink it held *)
| Log (t i : nat) (lv : level)           (* thread [t] calls push of logger [i] *)
| Go (t : nat).                          (* thread [t] goes on *)

Section Log.
Variable ord : list nat -> list nat.
Variable dbg : bool.
Variable ok : sys -> call -> Prop.       (* which calls are made *)

Inductive lstep (a : lst) : lmove -> lst -> Prop :=
| l_call c s o : step ord (enough (lsys a)) dbg (lsys a) c = (s, o) -> o <> RHang -> o <> RUB ->
    ok (lsys a) c -> fair_call a c ->
    lstep a (Call c) (mkL s (returned o (held a)) (pc a))
| l_configured : lstep a Configured (mkL (with_configured (lsys a)) (held a) (pc a))
| l_hold n k : find (smap (lsys a)) n = Some k -> lstep a (Hold n) (mkL (lsys a) (k :: held a) (pc a))
| l_release k : lstep a (Release k) (mkL (lsys a) (remove Nat.eq_dec k (held a)) (pc a))
| l_log t i lv L : pc a t = LIdle -> nth_error (loggers (lsys a)) i = Some L -> l_alive L = true ->
    lstep a (Log t i lv) (mkL (lsys a) (held a) (upd (pc a) t (LTest i lv)))
| l_go t : lstep a (Go t) (mkL (lsys a) (held a) (upd (pc a) t (advance (lsys a) (pc a t)))).

(** At first: the system of SysModel, and no thread in a call. *)
Definition lstart : lst := mkL init [] (fun _ => LIdle).

Inductive lreach : lst -> Prop :=
| lr_start : lreach lstart
| lr_step a m b : lreach a -> lstep a m b -> lreach b.

(** The states from [a] to [b], both included. *)
Inductive path (a : lst) : list lst -> lst -> Prop :=
| path_one : path a [a] a
| path_snoc sts b m c : path a sts b -> lstep b m c -> path a (sts ++ [c]) c.
End Log.
