(** * Vocabulary for statements about the worker in time *)

From Coq Require Import List Arith Bool.
From Verif Require Import TimeModel.
Import ListNotations.

Set Implicit Arguments.

Section Spec.
Context {E : Type}.
Variable c : cfg E.

(** The machine is fast: time does not pass while the worker has something to do, and the
    operating system wakes it when its time has come. *)
Definition fast (x : state E * label E) : Prop :=
  match snd x with
  | Tick d =>
      match work (fst x) with
      | Waiting false u => now (fst x) + d <= u
      | Waiting true _ | Running => d = 0
      | Stopped => True
      end
  | _ => True
  end.
Definition prompt (h : list (state E * label E)) : Prop := Forall fast h.

(** Which kinds of events occur in a history. *)
Definition only (ok : label E -> Prop) (h : list (state E * label E)) : Prop := Forall (fun x => ok (snd x)) h.

(** The worker and the clock. *)
Definition by_itself (l : label E) : Prop :=
  match l with Tick _ | Wake | Notified | Round => True | _ => False end.

(** The worker, the clock, the system: nobody uses the sink. *)
Definition unused (l : label E) : Prop :=
  match l with Tick _ | Wake | Notified | Spurious | Round | Spill _ => True | _ => False end.

Definition not_spurious (l : label E) : Prop := match l with Spurious => False | _ => True end.

(** Logging by loggers, one thread at a time: each push is followed by flush() at once
    (logger.hpp:48-52). *)
Fixpoint paired (h : list (state E * label E)) : Prop :=
  match h with
  | [] => True
  | (_, Push _) :: (_, Flush) :: h' => paired h'
  | (_, Push _) :: _ => False
  | _ :: h' => paired h'
  end.

(** How often the worker woke because its time had come. *)
Fixpoint wakes (h : list (state E * label E)) : nat :=
  match h with
  | [] => 0
  | (_, Wake) :: h' => S (wakes h')
  | _ :: h' => wakes h'
  end.

(** Logging as most programs do: pushes, each followed by flush() or not, of so little
    text that the buffer is not four fifths full. *)
Definition logging (x : state E * label E) : Prop :=
  match snd x with
  | Push e => pending c (queue (fst x)) + c_size c e < c_threshold c
  | Flush | Tick _ | Wake | Notified | Round | Spurious => True
  | AsyncFlush | Destroy | Spill _ => False
  end.

End Spec.
