(** * Vocabulary: what can be read on a console (C117, C126) *)
From Coq Require Import Ascii String NArith List.
From Verif Require Import Base LevelModel RecordSpec PaintSpec EndModel EndSpec.

(** Texts without the byte that begins a terminal sequence, at a level that has a colour. *)
Definition paintable (e : logged) : Prop :=
  no_byte esc (before_nul (g_tname e)) /\ no_byte esc (says_name e) /\ no_byte esc (says_text e) /\ says_level e <> IGNORE.

(** What is left of the output when a terminal has taken the sequences for colours and styles
    out of it. *)
Definition on_terminal (color : bool) (out : bytes) : bytes := if color then strip out else out.
