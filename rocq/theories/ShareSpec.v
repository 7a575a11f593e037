(** * Vocabulary for several sinks writing to one file (C107) *)
From Coq Require Import List Arith Bool.
From Verif Require Import Base SinkModel SinkSpec ShareModel.
Import ListNotations.

Section Spec.
Context {E : Type}.

Definition sreach (cf : nat -> cfg E) (n : nat -> nat) (w : shared E) (tr : list (nat * label E)) : Prop :=
  exists ms, sexec cf (sinit cf n) ms = (w, tr).

(** The file. *)
Definition the_file (w : shared E) : bytes := concat (map snd (chunks w)).

(** What is of sink [i]: of the file, of the observations, of a list of records. *)
Definition of_sink {A} (i : nat) (l : list (nat * A)) : list A :=
  map snd (filter (fun x => Nat.eqb (fst x) i) l).

(** The streams pass on their contents only when they are flushed or closed, not of their own
    accord because their buffer is full. *)
Definition spills (x : smove E) : bool := match x with SMove _ (MDrain _) => true | _ => false end.

(** All sinks write to files. *)
Definition file_sinks (cf : nat -> cfg E) : Prop := forall i, c_kind (cf i) = KFile.

(** The text of records of several sinks. *)
Definition text (cf : nat -> cfg E) (rs : list (nat * E)) : bytes :=
  concat (map (fun r => c_render (cf (fst r)) (snd r)) rs).

End Spec.
