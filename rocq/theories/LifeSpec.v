(** * Vocabulary for C96, C97 *)
From Coq Require Import String List Arith Bool.
From Verif Require Import Base LevelModel SysModel SysSpec GroupModel LifeModel.
Import ListNotations.

(** Nobody has anything any more. *)
Definition abandoned (a : life) : Prop :=
  lf_up a = false /\ own_groups a = [] /\ own_sinks a = [] /\ forall i, ~ is_live (lf_sys a) i.

(** Everything that can be destroyed has been. *)
Definition settled (a : life) : Prop :=
  (forall g, g < length (groups (lf_sys a)) -> ~ In g (gone_groups a) -> holds_group a g) /\
  (forall k, k < length (sinks (lf_sys a)) -> ~ In k (gone_sinks a) -> holds_sink a k).

(** What can be got at: starting from what the program has, the system, and the loggers. *)
Inductive useful_group (a : life) : nat -> Prop :=
| ug_own g : In g (own_groups a) -> useful_group a g
| ug_name n g : lf_up a = true -> In (n, g) (gmap (lf_sys a)) -> useful_group a g
| ug_logger i L : nth_error (loggers (lf_sys a)) i = Some L -> l_alive L = true -> useful_group a (l_group L)
| ug_parent x X g : useful_group a x -> nth_error (groups (lf_sys a)) x = Some X -> g_parent X = Some g -> useful_group a g.
Inductive useful_sink (a : life) : nat -> Prop :=
| us_own k : In k (own_sinks a) -> useful_sink a k
| us_name n k : lf_up a = true -> In (n, k) (smap (lf_sys a)) -> useful_sink a k
| us_logger i L k : nth_error (loggers (lf_sys a)) i = Some L -> l_alive L = true -> l_sink L = Some k -> useful_sink a k
| us_group x X k : useful_group a x -> nth_error (groups (lf_sys a)) x = Some X -> g_sink X = Some k -> useful_sink a k
| us_part m k : useful_sink a m -> In (m, k) (parts a) -> useful_sink a k.

(** [n] destructions of groups and sinks, one after the other. *)
Inductive frees ord dbg : nat -> life -> life -> Prop :=
| fr_none a : frees ord dbg 0 a a
| fr_group n a b c g : frees ord dbg n a b -> lfstep ord dbg b (FreeGroup g) c -> frees ord dbg (S n) a c
| fr_sink n a b c k : frees ord dbg n a b -> lfstep ord dbg b (FreeSink k) c -> frees ord dbg (S n) a c.

(** Later. *)
Inductive later ord dbg (a : life) : life -> Prop :=
| la_now : later ord dbg a a
| la_step b m c : later ord dbg a b -> lfstep ord dbg b m c -> later ord dbg a c.

(** A call of a logger that names no group or sink. *)
Definition logger_call (c : call) : Prop :=
  match c with
  | LSetLevel _ _ | LResetLevel _ | LSetLevelFromGroup _ _ | LSetSink _ _ | LResetSink _
  | LSetSinkFromGroup _ _ | LSetGroup _ _ => True
  | _ => False
  end.

(** A call of a group that is given the name of a group or sink. *)
Inductive given_name : gcall -> Prop :=
| gn_level g n : given_name (GSetLevelFromNamed g n)
| gn_sink g n : given_name (GSetSinkNamed g n)
| gn_sink_from g n : given_name (GSetSinkFromNamed g n)
| gn_parent g n : given_name (GSetParentNamed g n).

(** Systems with the same objects. *)
Definition same_objects (s s' : sys) : Prop :=
  groups s = groups s' /\ loggers s = loggers s' /\ sinks s = sinks s'.

(** Histories in which no group is made its own parent, none with a parent loses its last name
    (as in C47), and groups are changed through the system only. *)
Definition usual_move (a : life) (m : fmove) : Prop :=
  match m with FCall c => usual (lf_sys a) c | FGroup _ => False | _ => True end.
Inductive usual_life ord dbg : life -> Prop :=
| ul_start : usual_life ord dbg newborn
| ul_step a m b : usual_life ord dbg a -> lfstep ord dbg a m b -> usual_move a m -> usual_life ord dbg b.
