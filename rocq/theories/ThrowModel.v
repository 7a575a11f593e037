(** * Exceptions that are no std::exception while a message is formatted
      (circular_buffer.hpp:134-170, event.hpp:88-106, sink.hpp:116-155)

    The constructor of Event catches std::exception (event.hpp:97: C08).  Anything else a
    user's formatter throws leaves the constructor, Node::init and put() - if they may: built
    with NDEBUG put() and push() are noexcept (circular_buffer.hpp:135, sink.hpp:120,
    IF_RELEASE), and std::terminate ends the process.  Without NDEBUG the exception reaches the
    caller of the logging method; put() has taken the place (push_index_, size_) and has set
    node.busy, and no NodeRef exists yet that would clear it (circular_buffer.hpp:161-166).

    The steps are those of [SinkModel]; a thread whose event is being constructed ([PAdd]: the
    place is taken, the size not yet added, sink.hpp:127-137) may throw. *)

From Coq Require Import List Arith Bool.
From Verif Require Import Base LevelModel SinkModel.
Import ListNotations.

Set Implicit Arguments.

Section Throw.
Context {E : Type}.

Record tstate := mkT {
  base : state E;
  over : bool                 (* std::terminate has been called *)
}.

Variable C : cfg E.
Variable ndebug : bool.

Inductive tmove := TMove (m : move E) | TThrow (t : nat).

Inductive tlabel :=
| TL (l : label E)
| TThrown (t : nat) (e : E)   (* the logging call of [e] ends with the exception *)
| TTerminate (t : nat).

Definition tstep (w : tstate) (m : tmove) : tstate * list tlabel :=
  if over w then (w, [])
  else match m with
  | TMove m => let '(s, ls) := step C (base w) m in (mkT s false, map TL ls)
  | TThrow t =>
      match nth_error (thr (base w)) t with
      | Some (PAdd _ e) =>
          if ndebug then (mkT (base w) true, [TTerminate t])
          else (mkT (s_thr (base w) t Idle) false, [TThrown t e])
      | _ => (w, [])
      end
  end.

Fixpoint texec (w : tstate) (ms : list tmove) : tstate * list tlabel :=
  match ms with
  | [] => (w, [])
  | m :: ms' => let '(w1, l1) := tstep w m in
                let '(w2, l2) := texec w1 ms' in (w2, l1 ++ l2)
  end.

Definition tinit (op : bool) (clients : nat) : tstate := mkT (init C op clients) false.

End Throw.
Arguments tstate : clear implicits.
Arguments tmove : clear implicits.
Arguments tlabel : clear implicits.
