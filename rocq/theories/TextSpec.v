(** * Vocabulary for statements about messages *)

From Coq Require Import Ascii String List.
From Verif Require Import Base TextModel.
Import ListNotations.

(** The text a programmer sees in the argument. *)
Inductive says : arg -> bytes -> Prop :=
| Says_array l rest : ~ In nul l -> says (TArray (l ++ nul :: rest)) l
| Says_pointer l : says (TPointer l) l
| Says_string l : says (TString l) l
| Says_view l : says (TView l) l
| Says_value t : says (TValue t) t.

(** A literal: the array ends with its text. *)
Definition literal (s : bytes) : arg := TArray (s ++ [nul]).

Definition brace (c : byte) : Prop := c = "{"%char \/ c = "}"%char.

(** Every brace doubled. *)
Inductive doubled : bytes -> bytes -> Prop :=
| D_nil : doubled [] []
| D_plain c t f : ~ brace c -> doubled t f -> doubled (c :: t) (c :: f)
| D_brace c t f : brace c -> doubled t f -> doubled (c :: t) (c :: c :: f).
