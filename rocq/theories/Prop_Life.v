(** * Properties C96, C97: lifetimes

    Model: LifeModel (calls, the program's own pointers, destruction of the system, of groups
    and sinks); vocabulary: LifeSpec. *)
From Coq Require Import String List Arith Bool Lia.
From Verif Require Import Base LevelModel SysModel SysSpec SysBase SysProps SysWitness GroupModel LifeModel LifeSpec LifeProofs LifeWitness.
Import ListNotations.
Open Scope string_scope.

(** ** C96: what nobody needs any more is destroyed *)

(** As stated: false; a group that is its own ancestor keeps itself and its sink. *)
Theorem C96_all_destroyed_refuted :
  ~ (forall ord dbg a, lives ord dbg a -> settled a -> abandoned a ->
       forall k, k < length (sinks (lf_sys a)) -> In k (gone_sinks a)).
Proof.
  intros H. assert (R : 1 < length (sinks (lf_sys ring_end))) by (cbn; lia).
  specialize (H idord true ring_end ring_end_lives ring_settled ring_abandoned 1 R). cbn in H. destruct H as [H|[]]. discriminate H.
Qed.
Print Assumptions C96_all_destroyed_refuted.

(** Once nobody has anything: such a group, and its sink, is never destroyed. *)
Theorem C96_ring_stays :
  forall ord dbg a x X, lives ord dbg a -> abandoned a -> ancestor (lf_sys a) x x -> ~ In x (gone_groups a) ->
    nth_error (groups (lf_sys a)) x = Some X ->
    forall b, later ord dbg a b -> ~ In x (gone_groups b) /\ forall k, g_sink X = Some k -> ~ In k (gone_sinks b).
Proof. exact ring_forever. Qed.
Print Assumptions C96_ring_stays.

(** Without rings: destroyed is exactly what cannot be got at. *)
Theorem C96_no_garbage_partial :
  forall ord dbg a, lives ord dbg a -> settled a -> acyclic (lf_sys a) ->
    (forall g, g < length (groups (lf_sys a)) -> (In g (gone_groups a) <-> ~ useful_group a g)) /\
    (forall k, k < length (sinks (lf_sys a)) -> (In k (gone_sinks a) <-> ~ useful_sink a k)).
Proof. exact no_garbage. Qed.
Print Assumptions C96_no_garbage_partial.

(** In particular everything, after the system, the loggers and the program's own pointers;
    rings do not occur in the histories of C47. *)
Theorem C96_all_destroyed_partial :
  forall ord dbg, rearranges ord -> forall a, usual_life ord dbg a -> settled a -> abandoned a ->
    (forall g, g < length (groups (lf_sys a)) -> In g (gone_groups a)) /\
    (forall k, k < length (sinks (lf_sys a)) -> In k (gone_sinks a)).
Proof.
  intros ord dbg R a U S. exact (all_destroyed ord dbg a (usual_lives ord dbg a U) S (usual_acyclic ord dbg R a U)).
Qed.
Print Assumptions C96_all_destroyed_partial.

(** Destruction comes to an end: a settled state is reached, whatever the order. *)
Theorem C96_settles :
  forall ord dbg n a b, lives ord dbg a -> frees ord dbg n a b ->
    n <= length (groups (lf_sys a)) + length (sinks (lf_sys a)).
Proof. exact frees_end. Qed.
Print Assumptions C96_settles.

(** A multisink over a sink, a group and its child, a logger; the logger lives on after the
    system, and then everything is destroyed. *)
Example C96_nonvacuous :
  usual_life idord true plain_end /\ settled plain_end /\ abandoned plain_end /\
  length (groups (lf_sys plain_end)) = 2 /\ length (sinks (lf_sys plain_end)) = 3 /\
  gone_groups plain_end = [0; 1] /\ gone_sinks plain_end = [1; 2; 0].
Proof.
  split; [exact plain_end_usual|]. split; [|split; [repeat split; intros i (L & N & A); destruct i as [|[|i]]; cbn in N; try discriminate; injection N as <-; discriminate A|repeat split]].
  split; cbn; intros [|[|[|x]]] H NG; try lia; destruct NG; tauto.
Qed.
Example C96_ring_nonvacuous :
  lives idord true ring_left /\ abandoned ring_left /\ ancestor (lf_sys ring_left) 0 0 /\ ~ In 0 (gone_groups ring_left) /\
  (exists X, nth_error (groups (lf_sys ring_left)) 0 = Some X /\ g_sink X = Some 1) /\ later idord true ring_left ring_end.
Proof.
  split; [exact ring_lives|]. split; [repeat split; intros i (L & N & _); destruct i; discriminate|].
  split; [eapply anc_parent; reflexivity|]. split; [intros []|]. split; [eexists; split; reflexivity|].
  eapply la_step; [constructor|exact ring_end_step].
Qed.

(** ** C97: loggers and groups outlive the logging system *)

(** Nothing that can be got at, from the program's pointers, its loggers or the system, is
    destroyed. *)
Theorem C110_nothing_in_use_destroyed :
  forall ord dbg a, lives ord dbg a ->
    (forall g, useful_group a g -> ~ In g (gone_groups a) /\ g < length (groups (lf_sys a))) /\
    (forall k, useful_sink a k -> ~ In k (gone_sinks a) /\ k < length (sinks (lf_sys a))).
Proof. exact useful_kept. Qed.
Print Assumptions C110_nothing_in_use_destroyed.

(** The functions of a logger that take pointers work with the system or without it, and do
    the same as they do in any system with the same groups, loggers and sinks. *)
Theorem C97_calls_work_partial :
  forall ord dbg a c, lives ord dbg a -> logger_call c -> can_call a c ->
    exists s, acts ord dbg a (FCall c) s RUnit /\
      forall s0, same_objects (lf_sys a) s0 -> exists s1,
        step ord (enough s0) dbg s0 c = (s1, RUnit) /\ same_objects s s1.
Proof. exact calls_work. Qed.
Print Assumptions C97_calls_work_partial.

(** Those that take a name: only while the system exists; undefined afterwards. *)
Theorem C97_named_partial :
  forall ord dbg a c s o, lives ord dbg a -> acts ord dbg a (FNamed c) s o ->
    (o = RUnit <-> lf_up a = true) /\ (o = RUB <-> lf_up a = false).
Proof. exact named_works. Qed.
Print Assumptions C97_named_partial.
(** The setters of a group: the same, according to whether they are given a name. *)
Theorem C97_groups_partial :
  forall ord dbg a c, lives ord dbg a -> can_gcall a c ->
    exists s o, acts ord dbg a (FGroup c) s o /\
      (o = RUnit <-> (given_name c -> lf_up a = true)) /\ (o = RUB <-> given_name c /\ lf_up a = false) /\
      forall s0, same_objects (lf_sys a) s0 -> ~ given_name c ->
        exists s1, gstep s0 c = (s1, RUnit) /\ same_objects s s1.
Proof. exact groups_work. Qed.
Print Assumptions C97_groups_partial.
(** A group the program keeps after the system: its level is taken from its parent, its sink
    cannot be given by name. *)
Definition kept97 : list fmove :=
  [FCall (MakeSink "f"); FCall (MakeGroup "a" None (Some "f") (Some WARN)); FCall (MakeGroup "b" (Some "a") None (Some INFO));
   FDestroySystem].
Definition kept97_down : life := nexts newborn kept97.
Example C97_groups_nonvacuous :
  lives idord true kept97_down /\ lf_up kept97_down = false /\
  can_gcall kept97_down (GResetLevel 1) /\ ~ given_name (GResetLevel 1) /\
  (exists s B, acts idord true kept97_down (FGroup (GResetLevel 1)) s RUnit /\ nth_error (groups s) 1 = Some B /\ g_level B = WARN) /\
  can_gcall kept97_down (GSetSinkNamed 1 "f") /\ acts idord true kept97_down (FGroup (GSetSinkNamed 1 "f")) (lf_sys kept97_down) RUB.
Proof.
  split; [apply nexts_lives; [constructor|]; unfold kept97; repeat (split; [go_step|]); exact I|]. split; [reflexivity|].
  split; [cbn; tauto|]. split; [intros H; inversion H|].
  split; [eexists; eexists; split; [apply a_group; [cbn; tauto|reflexivity]|split; vm_compute; reflexivity]|].
  split; [cbn; tauto|]. apply a_group; [cbn; tauto|reflexivity].
Qed.
Theorem C97_named_refuted :
  ~ (forall ord dbg a c s o, lives ord dbg a -> acts ord dbg a (FNamed c) s o -> o = RUnit).
Proof.
  intros H. assert (E : RUB = RUnit); [|discriminate E].
  refine (H idord true plain_down (NSink 0 "f") (lf_sys plain_down) RUB (usual_lives _ _ _ plain_usual) _).
  constructor; [eexists; split; reflexivity|reflexivity].
Qed.
Print Assumptions C97_named_refuted.

(** After the system is gone: the logger's group, its parent, and through them the multisink
    and its sink, are there; the sink to nowhere is not needed. *)
Example C97_nonvacuous :
  lives idord true plain_down /\ lf_up plain_down = false /\ can_call plain_down (LResetSink 0) /\
  useful_group plain_down 0 /\ useful_sink plain_down 1 /\ ~ useful_sink plain_down 0.
Proof.
  split; [exact (usual_lives _ _ _ plain_usual)|]. split; [reflexivity|]. split; [eexists; split; reflexivity|].
  assert (G : useful_group plain_down 0).
  { eapply ug_parent with (x := 1); [|reflexivity|reflexivity].
    change 1 with (l_group (mkLogger "l" 1 (Some 2) false INFO false true)). eapply ug_logger with (i := 0); reflexivity. }
  split; [exact G|]. split; [eapply us_part; [eapply us_group; [exact G|reflexivity|reflexivity]|left; reflexivity]|].
  intros H. assert (E : 0 <> 0); [|congruence]. revert H. generalize 0 at 1 3 as k. intros k H.
  induction H as [k O|n k U N|i L k N A P|x X k _ N P|m k _ IH P].
  - destruct O.
  - discriminate U.
  - destruct i as [|[|i]]; cbn in N; try discriminate. injection N as <-. injection P as <-. discriminate.
  - destruct x as [|[|[|x]]]; cbn in N; try discriminate; injection N as <-; injection P as <-; discriminate.
  - destruct P as [P|[]]. injection P as <- <-. discriminate.
Qed.
