(** * The time stamps of events
      (include/soralog/event.hpp:52, circular_buffer.hpp:159-169, sink.hpp:116-155)

    The steps are those of [SinkModel]; added are the wall clock (system_clock, a number of
    ticks) and the stamp of every accepted event: the member timestamp_ is initialised by the
    constructor of [Event], which put() runs after it has given the event its place in the
    queue (circular_buffer.hpp:159-164: place; 167: construction) and before push() goes on
    (sink.hpp:136).  Events are numbered in the order of their places.

    Simplification: the wall clock is not set back. *)

From Coq Require Import List Arith Bool.
From Verif Require Import SinkModel.
Import ListNotations.

Set Implicit Arguments.

Section Stamp.
Context {E : Type}.

Record wstate := mkW {
  base : state E;
  wall : nat;                     (* system_clock::now() *)
  stamps : list (option nat)      (* timestamp_ of the events accepted so far, once constructed *)
}.

Variable C : cfg E.

(** What happens: a step of a thread, the constructor of the event of thread [t] reads the
    clock, time passes. *)
Inductive wmove := WMove (m : move E) | WStamp (t : nat) | WTick (d : nat).

(** The event whose construction thread [t] is running (event.hpp:46-112, called from
    circular_buffer.hpp:167, sink.hpp:127). *)
Definition constructing (s : state E) (t : nat) : option nat :=
  match nth_error (thr s) t with
  | Some (PAdd n _) => Some n
  | _ => None
  end.

Definition stamp_of (w : wstate) (n : nat) : option nat := nth n (stamps w) None.

(** push() goes on only when the event has been constructed (circular_buffer.hpp:167-169,
    sink.hpp:127-136). *)
Definition wmay (w : wstate) (m : move E) : bool :=
  match m with
  | MThread t _ =>
      match constructing (base w) t with
      | Some n => match stamp_of w n with Some _ => true | None => false end
      | None => true
      end
  | MDrain _ => true
  end.

Fixpoint set_nth {A} (l : list A) (n : nat) (a : A) : list A :=
  match l, n with
  | [], _ => []
  | _ :: l', O => a :: l'
  | x :: l', S n' => x :: set_nth l' n' a
  end.

(** Every accepted event has a place for its stamp (event.hpp:157). *)
Definition grow (ls : list (label E)) : list (option nat) :=
  flat_map (fun l => match l with LAccept _ _ => [None] | _ => [] end) ls.

(** One step.  Observations carry the time. *)
Definition wstep (w : wstate) (m : wmove) : wstate * list (nat * label E) :=
  match m with
  | WMove b =>
      if wmay w b then
        let '(s, ls) := step C (base w) b in
        (mkW s (wall w) (stamps w ++ grow ls), map (pair (wall w)) ls)
      else (w, [])
  | WStamp t =>                                    (* timestamp_(system_clock::now()), event.hpp:52 *)
      match constructing (base w) t with
      | Some n =>
          match stamp_of w n with
          | None => (mkW (base w) (wall w) (set_nth (stamps w) n (Some (wall w))), [])
          | Some _ => (w, [])
          end
      | None => (w, [])
      end
  | WTick d => (mkW (base w) (wall w + d) (stamps w), [])
  end.

Fixpoint wexec (w : wstate) (ms : list wmove) : wstate * list (nat * label E) :=
  match ms with
  | [] => (w, [])
  | m :: ms' => let '(w1, l1) := wstep w m in
                let '(w2, l2) := wexec w1 ms' in (w2, l1 ++ l2)
  end.

(** The sink has just been made, at time [t0]. *)
Definition winit (op : bool) (clients t0 : nat) : wstate := mkW (init C op clients) t0 [].

End Stamp.
Arguments wstate : clear implicits.
Arguments wmove : clear implicits.
