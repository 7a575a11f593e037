(** * Vocabulary for the sizes of the sinks (C58) *)
From Coq Require Import NArith.
From Verif Require Import YamlModel.
Local Open Scope N_scope.

(** What was given, or else the default. *)
Definition given (o : option N) (default : N) : N := match o with Some x => x | None => default end.

(** The sink is a console sink. *)
Definition on_console (k : kind) : bool := match k with KConsole _ _ _ _ => true | _ => false end.
