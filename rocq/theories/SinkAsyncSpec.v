(** * Vocabulary: a call of async_flush() *)
From Coq Require Import List.
From Verif Require Import Base SinkModel SinkSpec.
Import ListNotations.

(** Thread [t], not in a call, calls async_flush() in [s]; whatever the others do meanwhile,
    the call has just returned in [s']; [ls]: what was observed. *)
Definition calls_async {E} (C : cfg E) (t : nat) (s s' : state E) (ls : list (label E)) : Prop :=
  t <> 0 /\ nth_error (thr s) t = Some Idle /\ alive s = true /\
  exists ms m s1 l1 l2, exec C s (MThread t CAsync :: ms) = (s1, l1) /\ ~ In (LReturn t) l1 /\
    step C s1 m = (s', l2) /\ In (LReturn t) l2 /\ ls = l1 ++ l2.

(** No spurious failures of compare_exchange_weak. *)
Definition steady_moves {E} (ms : list (move E)) : Prop := Forall (fun m => spurious m = false) ms.

(** A flush() in which an event was written has ended. *)
Definition write_ended {E} (ls : list (label E)) : Prop :=
  exists u e a b, ls = a ++ LWrite u e :: b /\ In (LUnlock u) b.
