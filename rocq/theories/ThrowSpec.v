(** * Vocabulary for foreign exceptions (C106) *)
From Coq Require Import List Arith Bool.
From Verif Require Import Base SinkModel SinkSpec ThrowModel.
Import ListNotations.

Section Spec.
Context {E : Type}.

(** What is observed of the sink. *)
Definition plain (ls : list (tlabel E)) : list (label E) :=
  flat_map (fun l => match l with TL x => [x] | _ => [] end) ls.

(** Only std::exceptions are thrown. *)
Definition throws (m : tmove E) : bool := match m with TThrow _ => true | TMove _ => false end.
Definition no_throw (ms : list (tmove E)) : Prop := Forall (fun m => throws m = false) ms.
Definition moves_of (ms : list (tmove E)) : list (move E) :=
  flat_map (fun m => match m with TMove m => [m] | TThrow _ => [] end) ms.

(** A thread is constructing the event [e], the [k]-th one accepted. *)
Definition constructing (s : state E) (t k : nat) (e : E) : Prop := nth_error (thr s) t = Some (PAdd k e).

End Spec.
