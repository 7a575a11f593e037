(** * Model of the lifetimes of groups, sinks and the logging system
      (logging_system.hpp:276-281, group.hpp:154-164, logger.hpp:295-306, sink.hpp:182)

    The calls are those of [SysModel] (system and loggers) and [GroupModel] (groups).  Added
    here: the program's own shared_ptrs, the destruction of the LoggingSystem, and that of
    groups and sinks, which happens when no shared_ptr to them is left.  In C++ that is at
    once, here at any later moment ([FreeGroup], [FreeSink]); a state in which nothing can be
    freed is one in which everything due has been done.

    Loggers are not owned by the system (loggers_ holds weak_ptrs); the last owner's release is
    the call [LDrop].  Simplified: calls are atomic (see RaceModel, LogModel). *)

From Coq Require Import String List Arith Bool.
From Verif Require Import Base LevelModel SysModel SysSpec GroupModel.
Import ListNotations.

Record life := mkLife {
  lf_sys : sys;
  lf_up : bool;                  (* the LoggingSystem exists *)
  own_groups : list nat;         (* shared_ptrs the program has *)
  own_sinks : list nat;
  parts : list (nat * nat);      (* (m, k): multisink [m] has sink [k] (sink.hpp:182) *)
  gone_groups : list nat;        (* destroyed *)
  gone_sinks : list nat
}.

Definition with_sys (a : life) (s : sys) : life :=
  mkLife s (lf_up a) (own_groups a) (own_sinks a) (parts a) (gone_groups a) (gone_sinks a).

(** Who has a shared_ptr to group [g]: the program, groups_, a group (parent_group_), a logger
    (group_). *)
Inductive holds_group (a : life) (g : nat) : Prop :=
| hg_own : In g (own_groups a) -> holds_group a g
| hg_name n : In (n, g) (gmap (lf_sys a)) -> holds_group a g
| hg_child x X : nth_error (groups (lf_sys a)) x = Some X -> ~ In x (gone_groups a) -> g_parent X = Some g ->
    holds_group a g
| hg_logger i L : nth_error (loggers (lf_sys a)) i = Some L -> l_alive L = true -> l_group L = g -> holds_group a g.

(** Who has one to sink [k]: the program, sinks_, a group (sink_), a logger (sink_), a
    multisink (underlying_sinks_). *)
Inductive holds_sink (a : life) (k : nat) : Prop :=
| hs_own : In k (own_sinks a) -> holds_sink a k
| hs_name n : In (n, k) (smap (lf_sys a)) -> holds_sink a k
| hs_group x X : nth_error (groups (lf_sys a)) x = Some X -> ~ In x (gone_groups a) -> g_sink X = Some k ->
    holds_sink a k
| hs_logger i L : nth_error (loggers (lf_sys a)) i = Some L -> l_alive L = true -> l_sink L = Some k -> holds_sink a k
| hs_part m : In (m, k) (parts a) -> ~ In m (gone_sinks a) -> holds_sink a k.

(** What the getters return: getGroup (logging_system.cpp:166-174), Logger::group
    (logger.hpp:279), Group::parent (group.hpp:131), for objects the program has; getSink
    (156-164), Logger::sink (logger.hpp:236), Group::sink (group.hpp:88). *)
Inductive gets_group (a : life) (g : nat) : Prop :=
| gg_name n : lf_up a = true -> find (gmap (lf_sys a)) n = Some g -> gets_group a g
| gg_logger i L : nth_error (loggers (lf_sys a)) i = Some L -> l_alive L = true -> l_group L = g -> gets_group a g
| gg_parent x X : In x (own_groups a) -> nth_error (groups (lf_sys a)) x = Some X -> g_parent X = Some g ->
    gets_group a g.
Inductive gets_sink (a : life) (k : nat) : Prop :=
| gs_name n : lf_up a = true -> find (smap (lf_sys a)) n = Some k -> gets_sink a k
| gs_logger i L : nth_error (loggers (lf_sys a)) i = Some L -> l_alive L = true -> l_sink L = Some k -> gets_sink a k
| gs_group x X : In x (own_groups a) -> nth_error (groups (lf_sys a)) x = Some X -> g_sink X = Some k -> gets_sink a k.

(** A logger somebody has. *)
Definition is_live (s : sys) (i : nat) : Prop := exists L, nth_error (loggers s) i = Some L /\ l_alive L = true.

(** Which calls the program can make: functions of the system if there is one, of loggers it
    has; with arguments it has. *)
Definition can_call (a : life) (c : call) : Prop :=
  match c with
  | LSetLevel i _ | LResetLevel i | LResetSink i | LDrop i => is_live (lf_sys a) i
  | LSetLevelFromGroup i g | LSetSinkFromGroup i g | LSetGroup i g => is_live (lf_sys a) i /\ In g (own_groups a)
  | LSetSink i k => is_live (lf_sys a) i /\ In k (own_sinks a)
  | _ => lf_up a = true
  end.
(** The same for groups. *)
Definition can_gcall (a : life) (c : gcall) : Prop :=
  match c with
  | GSetLevel g _ | GResetLevel g | GResetSink g | GUnsetParentGroup g
  | GSetLevelFromNamed g _ | GSetSinkNamed g _ | GSetSinkFromNamed g _ | GSetParentNamed g _
  | GSetParentGroup g None => In g (own_groups a)
  | GSetLevelFromGroup g h | GSetSinkFromGroup g h | GSetParentGroup g (Some h) => In g (own_groups a) /\ In h (own_groups a)
  | GSetSink g k => In g (own_groups a) /\ In k (own_sinks a)
  end.

(** The setters of Group and Logger that take a name use system_, a reference
    (group.hpp:155, logger.hpp:296). *)
Definition by_name (c : gcall) : bool :=
  match c with
  | GSetLevelFromNamed _ _ | GSetSinkNamed _ _ | GSetSinkFromNamed _ _ | GSetParentNamed _ _ => true
  | _ => false
  end.
Definition group_call (a : life) (c : gcall) : sys * out :=
  if by_name c && negb (lf_up a) then (lf_sys a, RUB) else gstep (lf_sys a) c.

Inductive ncall := NLevelFrom (i : nat) (n : string)   (* setLevelFromGroup, logger.cpp:43-47 *)
                 | NSink (i : nat) (n : string)        (* setSink, 56-60 *)
                 | NSinkFrom (i : nat) (n : string)    (* setSinkFromGroup, 76-80 *)
                 | NGroup (i : nat) (n : string).      (* setGroup, 95-99 *)
Definition nlogger (c : ncall) : nat := match c with NLevelFrom i _ | NSink i _ | NSinkFrom i _ | NGroup i _ => i end.

(** What a call hands to the program. *)
Definition took_sink (o : out) (l : list nat) : list nat := match o with RSink k => k :: l | _ => l end.
Definition took_group (o : out) (l : list nat) : list nat := match o with RGroup g => g :: l | _ => l end.

(** ~LoggingSystem (implicit): its maps are destroyed. *)
Definition without_maps (s : sys) : sys := mkSys (groups s) (loggers s) (sinks s) [] [] [] (configured s).

Inductive fmove :=
| FCall (c : call)
| FGroup (c : gcall)
| FNamed (c : ncall)
| FMulti (n : string) (ks : list nat)   (* makeSink<Multisink>(n, ..., sinks) *)
| FConfigured
| FTakeGroup (g : nat)
| FTakeSink (k : nat)
| FDropGroup (g : nat)
| FDropSink (k : nat)
| FDestroySystem
| FreeGroup (g : nat)
| FreeSink (k : nat).

Section Life.
Variable ord : list nat -> list nat.
Variable dbg : bool.

Definition named_call (a : life) (c : ncall) : sys * out :=
  if negb (lf_up a) then (lf_sys a, RUB) else
  let st := step ord (enough (lf_sys a)) dbg (lf_sys a) in
  match c with
  | NLevelFrom i n => match find (gmap (lf_sys a)) n with Some g => st (LSetLevelFromGroup i g) | None => (lf_sys a, RUnit) end
  | NSink i n => match find (smap (lf_sys a)) n with Some k => st (LSetSink i k) | None => (lf_sys a, RUnit) end
  | NSinkFrom i n => match find (gmap (lf_sys a)) n with Some g => st (LSetSinkFromGroup i g) | None => (lf_sys a, RUnit) end
  | NGroup i n => match find (gmap (lf_sys a)) n with Some g => st (LSetGroup i g) | None => (lf_sys a, RUnit) end
  end.

(** What a call does, and its outcome. *)
Inductive acts (a : life) : fmove -> sys -> out -> Prop :=
| a_call c s o : can_call a c -> step ord (enough (lf_sys a)) dbg (lf_sys a) c = (s, o) -> acts a (FCall c) s o
| a_group c s o : can_gcall a c -> group_call a c = (s, o) -> acts a (FGroup c) s o
| a_named c s o : is_live (lf_sys a) (nlogger c) -> named_call a c = (s, o) -> acts a (FNamed c) s o.

Inductive lfstep (a : life) : fmove -> life -> Prop :=
| f_acts m s o : acts a m s o -> o <> RHang -> o <> RUB ->
    lfstep a m (mkLife s (lf_up a) (took_group o (own_groups a)) (took_sink o (own_sinks a)) (parts a)
                  (gone_groups a) (gone_sinks a))
| f_multi n ks s k : lf_up a = true -> (forall x, In x ks -> In x (own_sinks a)) ->
    step ord (enough (lf_sys a)) dbg (lf_sys a) (MakeSink n) = (s, RSink k) ->
    lfstep a (FMulti n ks) (mkLife s true (own_groups a) (k :: own_sinks a) (map (pair k) ks ++ parts a)
                              (gone_groups a) (gone_sinks a))
| f_configured : lf_up a = true -> lfstep a FConfigured (with_sys a (with_configured (lf_sys a)))
| f_take_group g : gets_group a g ->
    lfstep a (FTakeGroup g) (mkLife (lf_sys a) (lf_up a) (g :: own_groups a) (own_sinks a) (parts a) (gone_groups a) (gone_sinks a))
| f_take_sink k : gets_sink a k ->
    lfstep a (FTakeSink k) (mkLife (lf_sys a) (lf_up a) (own_groups a) (k :: own_sinks a) (parts a) (gone_groups a) (gone_sinks a))
| f_drop_group g :
    lfstep a (FDropGroup g) (mkLife (lf_sys a) (lf_up a) (remove Nat.eq_dec g (own_groups a)) (own_sinks a) (parts a)
                              (gone_groups a) (gone_sinks a))
| f_drop_sink k :
    lfstep a (FDropSink k) (mkLife (lf_sys a) (lf_up a) (own_groups a) (remove Nat.eq_dec k (own_sinks a)) (parts a)
                              (gone_groups a) (gone_sinks a))
| f_destroy : lf_up a = true ->
    lfstep a FDestroySystem (mkLife (without_maps (lf_sys a)) false (own_groups a) (own_sinks a) (parts a)
                               (gone_groups a) (gone_sinks a))
| f_free_group g : g < length (groups (lf_sys a)) -> ~ In g (gone_groups a) -> ~ holds_group a g ->
    lfstep a (FreeGroup g) (mkLife (lf_sys a) (lf_up a) (own_groups a) (own_sinks a) (parts a) (g :: gone_groups a) (gone_sinks a))
| f_free_sink k : k < length (sinks (lf_sys a)) -> ~ In k (gone_sinks a) -> ~ holds_sink a k ->
    lfstep a (FreeSink k) (mkLife (lf_sys a) (lf_up a) (own_groups a) (own_sinks a) (parts a) (gone_groups a) (k :: gone_sinks a)).

(** At first: a system, as constructed. *)
Definition newborn : life := mkLife init true [] [] [] [] [].

Inductive lives : life -> Prop :=
| lv_start : lives newborn
| lv_step a m b : lives a -> lfstep a m b -> lives b.
End Life.
