(** * Model of the calls on Group objects (include/soralog/group.hpp, src/group.cpp)

    makeGroup and getGroup hand out the groups themselves (logging_system.hpp:97-111), so
    a program can call their setters directly, past the logging system.  The bodies are
    those of SysModel; here they are calls of their own.  A null argument where the
    function asserts one is undefined ([RUB]). *)

From Coq Require Import String List Arith Bool.
From Verif Require Import Base LevelModel SysModel.
Import ListNotations.

Inductive gcall :=
| GSetLevel (g : nat) (l : level)               (* group.cpp:51-56 *)
| GResetLevel (g : nat)                         (* 44-49 *)
| GSetLevelFromGroup (g h : nat)                (* 58-62 *)
| GSetLevelFromNamed (g : nat) (n : string)     (* 64-68 *)
| GSetSink (g k : nat)                          (* 79-85 *)
| GSetSinkNamed (g : nat) (n : string)          (* 87-91 *)
| GResetSink (g : nat)                          (* 72-77 *)
| GSetSinkFromGroup (g h : nat)                 (* 93-97 *)
| GSetSinkFromNamed (g : nat) (n : string)      (* 99-103 *)
| GSetParentGroup (g : nat) (p : option nat)    (* 111-121; null allowed *)
| GSetParentNamed (g : nat) (n : string)        (* 123-127 *)
| GUnsetParentGroup (g : nat).                  (* 107-109 *)

(** The group a shared_ptr points to. *)
Definition from_group (s : sys) (h : nat) (f : nat -> group -> group -> group) (g : nat) : sys * out :=
  match nth_error (groups s) h with
  | Some y => (mod_group s g (f h y), RUnit)
  | None => (s, RUB)
  end.
(** if (auto group = system_.getGroup(group_name)) ... *)
Definition from_named (s : sys) (n : string) (f : nat -> group -> group -> group) (g : nat) : sys * out :=
  match find (gmap s) n with
  | Some h => from_group s h f g
  | None => (s, RUnit)
  end.
Definition set_parent (h : nat) (y : group) (x : group) : group := g_set_parent (Some (h, y)) x.

Definition gstep (s : sys) (c : gcall) : sys * out :=
  match c with
  | GSetLevel g l => (mod_group s g (g_set_level l), RUnit)
  | GResetLevel g => (mod_group s g (g_reset_level (parent_of (groups s) g)), RUnit)
  | GSetLevelFromGroup g h => from_group s h g_level_from g
  | GSetLevelFromNamed g n => from_named s n g_level_from g
  | GSetSink g k => if Nat.ltb k (length (sinks s)) then (mod_group s g (g_set_sink k), RUnit) else (s, RUB)
  | GSetSinkNamed g n =>
      match find (smap s) n with
      | Some k => (mod_group s g (g_set_sink k), RUnit)
      | None => (s, RUnit)
      end
  | GResetSink g => (mod_group s g (g_reset_sink (parent_of (groups s) g)), RUnit)
  | GSetSinkFromGroup g h => from_group s h g_sink_from g
  | GSetSinkFromNamed g n => from_named s n g_sink_from g
  | GSetParentGroup g (Some p) => from_group s p set_parent g
  | GSetParentGroup g None => (mod_group s g (g_set_parent None), RUnit)
  | GSetParentNamed g n => from_named s n set_parent g
  | GUnsetParentGroup g => (mod_group s g g_unset_parent, RUnit)
  end.
