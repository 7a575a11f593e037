(** * What is said about threads *)
From Coq Require Import Ascii String NArith Arith List Bool.
From Verif Require Import Base UtilModel.
Import ListNotations.
Local Open Scope N_scope.

(** Names an operating system keeps. *)
Definition os_name (b : bytes) : Prop := (length b <= 15)%nat /\ ~ In nul b.
Definition sane (h : list (nat * op)) : Prop := forall t b, In (t, OOther b) h -> os_name b.

(** In the history [h], the threads that called getThreadNumber, in order of their first
    steps. *)
Fixpoint firsts_from (seen : list nat) (h : list (nat * op)) : list nat :=
  match h with
  | [] => []
  | (t, ONumber) :: h' => if in_dec Nat.eq_dec t seen then firsts_from seen h' else t :: firsts_from (t :: seen) h'
  | _ :: h' => firsts_from seen h'
  end.
Definition firsts (h : list (nat * op)) : list nat := firsts_from [] h.

(** [b] cut to 15 bytes, and at a zero byte. *)
Definition cut_of (name b : bytes) : Prop :=
  os_name b /\ exists rest, firstn 15 name = b ++ rest /\ (rest = [] \/ exists r, rest = nul :: r).

(** After [h], [b] is the name of the thread. *)
Inductive called (name0 : nat -> bytes) (t : nat) : list (nat * op) -> bytes -> Prop :=
| ca_start : called name0 t [] (name0 t)
| ca_set h name b : cut_of name b -> called name0 t (h ++ [(t, OSet name)]) b
| ca_os h b : called name0 t (h ++ [(t, OOther b)]) b
| ca_other h b u o : called name0 t h b -> (u <> t \/ o = ONumber \/ o = OName) -> called name0 t (h ++ [(u, o)]) b.

(** The thread has not asked for its name in [h]. *)
Definition no_name (t : nat) (h : list (nat * op)) : Prop := ~ In (t, OName) h.
