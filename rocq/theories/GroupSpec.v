(** * Vocabulary for the calls on groups *)

From Coq Require Import String List Arith Bool.
From Verif Require Import Base LevelModel SysModel SysSpec GroupModel.
Import ListNotations.

(** Only group [g] differs, and is now [X']. *)
Definition only_group (s s' : sys) (g : nat) (X' : group) : Prop :=
  loggers s' = loggers s /\ sinks s' = sinks s /\ gmap s' = gmap s /\ lmap s' = lmap s /\ smap s' = smap s /\
  configured s' = configured s /\ length (groups s') = length (groups s) /\
  nth_error (groups s') g = Some X' /\
  forall h, h <> g -> nth_error (groups s') h = nth_error (groups s) h.

(** [X] with another level / sink / parent. *)
Definition with_level (X : group) (l : level) (own : bool) : group :=
  mkGroup (g_name X) (g_parent X) (g_sink X) (g_sov X) l own.
Definition with_sink (X : group) (k : option nat) (own : bool) : group :=
  mkGroup (g_name X) (g_parent X) k own (g_level X) (g_lov X).
Definition with_parent (X : group) (p : option nat) : group :=
  mkGroup (g_name X) p (g_sink X) (g_sov X) (g_level X) (g_lov X).

(** A child [X] of [Y] shows [Y]'s level and sink where they are not its own. *)
Definition child_of (X Y : group) : group :=
  mkGroup (g_name X) (g_parent X) (if g_sov X then g_sink X else g_sink Y) (g_sov X)
          (if g_lov X then g_level X else g_level Y) (g_lov X).

Definition is_root (X : group) : bool := match g_parent X with None => true | Some _ => false end.

(** Calls that are about the level (the sink) of group [g]. *)
Definition sets_level (g : nat) (c : gcall) : bool :=
  match c with
  | GSetLevel h _ | GResetLevel h | GSetLevelFromGroup h _ | GSetLevelFromNamed h _ => Nat.eqb h g
  | _ => false
  end.
Definition sets_sink (g : nat) (c : gcall) : bool :=
  match c with
  | GSetSink h _ | GSetSinkNamed h _ | GResetSink h | GSetSinkFromGroup h _ | GSetSinkFromNamed h _ => Nat.eqb h g
  | _ => false
  end.
(** One call after the other. *)
Definition gcalls (s : sys) (cs : list gcall) : sys := fold_left (fun s c => fst (gstep s c)) cs s.
