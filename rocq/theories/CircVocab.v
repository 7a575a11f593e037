(** * Vocabulary of the progress properties of the buffer *)

From Coq Require Import List Arith.
From Verif Require Import CircSpec CircModel.
Import ListNotations.

Set Implicit Arguments.

Section Vocab.
Context {A : Type}.
Notation state := (state A).

(** The operation a choice starts. *)
Definition op_of (c : choice A) : option (op A) :=
  match c with
  | CPut a => Some (OPut a)
  | CGet => Some OGet
  | CQuery q => Some (OQuery q)
  | _ => None
  end.

(** Thread [t] starts [c], nobody else moves, and within [n] further steps of
    its own the call has returned. *)
Definition returns_alone (cap : nat) (s : state) (t : nat) (c : choice A) (n : nat) : Prop :=
  exists k s' r o, k <= n /\ op_of c = Some o /\
    exec cap s ((t, c) :: repeat (t, c) k) = Ok s' [LInv t o; LLin t; LRet t r] /\
    t_pc (thr s' t) = Idle.

(** Nobody is inside a call and no reference is alive. *)
Definition quiescent (s : state) : Prop :=
  forall t, t_pc (thr s t) = Idle /\ t_refs (thr s t) = [].

End Vocab.
