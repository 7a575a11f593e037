(** * Vocabulary for streams that refuse (C105) *)
From Coq Require Import List Arith Bool.
From Verif Require Import Base SinkModel SinkSpec IoModel.
Import ListNotations.

Section Spec.
Context {E : Type}.

Definition ioreach (C : cfg E) (op : bool) (clients : nat) (w : iostate E) (ls : list (label E)) : Prop :=
  exists ms, ioexec C (ioinit C op clients) ms = (w, ls).

(** The files as the operating system has them. *)
Definition on_disk (w : iostate E) : list bytes := i_closed w ++ [i_cur w].

(** The operating system refuses nothing. *)
Definition refuses (m : iomove E) : bool := match m with IRefuse _ _ => true | _ => false end.
Definition no_refusal (ms : list (iomove E)) : Prop := Forall (fun m => refuses m = false) ms.

(** The file was not opened again. *)
Definition not_reopened (ls : list (label E)) : Prop := forall t r, In (LReopen t r) ls -> r = ROFail.

(** The schedule without what the operating system does. *)
Definition thread_moves (ms : list (iomove E)) : list (move E) :=
  flat_map (fun m => match m with IMove t c => [MThread t c] | _ => [] end) ms.

End Spec.
