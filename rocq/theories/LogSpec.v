(** * Vocabulary for C83-C85: logging while the system is reconfigured *)
From Coq Require Import String List Arith Bool.
From Verif Require Import Base LevelModel SysModel SysSpec LogModel.
Import ListNotations.

(** The level and the sink a logger has in a state. *)
Definition has_level (a : lst) (i : nat) (l : level) : Prop :=
  exists L, nth_error (loggers (lsys a)) i = Some L /\ l_level L = l.
Definition has_sink (a : lst) (i : nat) (k : option nat) : Prop :=
  exists L, nth_error (loggers (lsys a)) i = Some L /\ l_sink L = k.

(** An event of level [lv] passes a logger of level [l]. *)
Definition passes (l lv : level) : Prop := lcode lv <= lcode l /\ lv <> OFF /\ lv <> IGNORE.

(** [sts] are the states during a call of thread [t] that logs an event of level [lv] by
    logger [i]: from its beginning in [a], up to [b]. *)
Definition during ord dbg ok (t i : nat) (lv : level) (a : lst) (sts : list lst) (b : lst) : Prop :=
  path ord dbg ok a sts b /\ pc a t = LTest i lv /\ Forall (fun s => pc s t <> LIdle) sts.

(** In state [a] thread [t] is inside push / flush of sink [k]. *)
Definition pushing (a : lst) (t i : nat) (lv : level) (k : nat) : Prop := pc a t = LPushing i lv k.
Definition flushing (a : lst) (t k : nat) : Prop := exists i, pc a t = LFlushing i k.
Definition inside (a : lst) (t k : nat) : Prop := (exists i lv, pushing a t i lv k) \/ flushing a t k.

(** Who keeps objects alive.  A group: the system under a name, a group whose parent it
    is, a logger.  (The program is supposed not to keep groups.) *)
Inductive group_owned (s : sys) : nat -> Prop :=
| go_name n g : In (n, g) (gmap s) -> group_owned s g
| go_child x X g : group_owned s x -> nth_error (groups s) x = Some X -> g_parent X = Some g -> group_owned s g
| go_logger i L : nth_error (loggers s) i = Some L -> l_alive L = true -> group_owned s (l_group L).

(** A sink: the program, the system under a name, a logger, a group. *)
Inductive sink_owned (a : lst) (k : nat) : Prop :=
| so_held : In k (held a) -> sink_owned a k
| so_name n : In (n, k) (smap (lsys a)) -> sink_owned a k
| so_logger i L : nth_error (loggers (lsys a)) i = Some L -> l_alive L = true -> l_sink L = Some k -> sink_owned a k
| so_group g G : group_owned (lsys a) g -> nth_error (groups (lsys a)) g = Some G -> g_sink G = Some k -> sink_owned a k.

(** No sink is made with the name of another. *)
Definition new_sinks (s : sys) (c : call) : Prop :=
  match c with MakeSink n => find (smap s) n = None | _ => True end.
Definition usual_new (s : sys) (c : call) : Prop := usual s c /\ new_sinks s c.
