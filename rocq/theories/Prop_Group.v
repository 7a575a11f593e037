(** * Properties C78-C80, C112: calls on the groups themselves

    [gstep s c]: state and outcome of the call [c] on a group object. *)

From Coq Require Import String List Arith Bool.
From Verif Require Import Base LevelModel SysModel SysSpec SysBase SysProps SysWitness GroupModel GroupSpec GroupProofs.
Import ListNotations.
Open Scope string_scope.

(** ** C78: a call on a group changes exactly that group

    A root's own flags stay as they are when its level or sink is set. *)
Theorem C78_level :
  forall s g X, nth_error (groups s) g = Some X ->
    (forall l, only_group s (fst (gstep s (GSetLevel g l))) g (with_level X l (negb (is_root X) || g_lov X))) /\
    (forall h Y, nth_error (groups s) h = Some Y ->
       only_group s (fst (gstep s (GSetLevelFromGroup g h))) g (with_level X (g_level Y) (negb (oeqb (Some h) (g_parent X))))) /\
    (forall p P, g_parent X = Some p -> nth_error (groups s) p = Some P ->
       only_group s (fst (gstep s (GResetLevel g))) g (with_level X (g_level P) false)) /\
    (is_root X = true -> only_group s (fst (gstep s (GResetLevel g))) g X).
Proof.
  intros s g X H. split; [|split; [|split]].
  - intros l. cbn [gstep fst]. replace (with_level _ _ _) with (g_set_level l X); [apply mod_only, H|].
    unfold with_level, g_set_level, is_root. destruct (g_parent X); reflexivity.
  - intros h Y HY. cbn [gstep]. unfold from_group. rewrite HY. exact (mod_only s g (g_level_from h Y) X H).
  - intros p P Hp HP. cbn [gstep fst]. unfold parent_of. rewrite H, Hp, HP. exact (mod_only s g (g_reset_level (Some P)) X H).
  - intros R. cbn [gstep fst]. unfold parent_of. rewrite H. unfold is_root in R. destruct (g_parent X); [discriminate|].
    exact (mod_only s g (g_reset_level None) X H).
Qed.
Print Assumptions C78_level.

Theorem C78_sink :
  forall s g X, nth_error (groups s) g = Some X ->
    (forall k, k < length (sinks s) ->
       only_group s (fst (gstep s (GSetSink g k))) g (with_sink X (Some k) (negb (is_root X) || g_sov X))) /\
    (forall h Y, nth_error (groups s) h = Some Y ->
       only_group s (fst (gstep s (GSetSinkFromGroup g h))) g (with_sink X (g_sink Y) (negb (oeqb (Some h) (g_parent X))))) /\
    (forall p P, g_parent X = Some p -> nth_error (groups s) p = Some P ->
       only_group s (fst (gstep s (GResetSink g))) g (with_sink X (g_sink P) false)) /\
    (is_root X = true -> only_group s (fst (gstep s (GResetSink g))) g X).
Proof.
  intros s g X H. split; [|split; [|split]].
  - intros k Hk. cbn [gstep]. rewrite (proj2 (Nat.ltb_lt _ _) Hk). cbn [fst].
    replace (with_sink _ _ _) with (g_set_sink k X); [apply mod_only, H|].
    unfold with_sink, g_set_sink, is_root. destruct (g_parent X); reflexivity.
  - intros h Y HY. cbn [gstep]. unfold from_group. rewrite HY. exact (mod_only s g (g_sink_from h Y) X H).
  - intros p P Hp HP. cbn [gstep fst]. unfold parent_of. rewrite H, Hp, HP. exact (mod_only s g (g_reset_sink (Some P)) X H).
  - intros R. cbn [gstep fst]. unfold parent_of. rewrite H. unfold is_root in R. destruct (g_parent X); [discriminate|].
    exact (mod_only s g (g_reset_sink None) X H).
Qed.
Print Assumptions C78_sink.

(** The level and the sink that are not the group's own are taken over from the new parent;
    without a parent it keeps what it has. *)
Theorem C78_parent :
  forall s g X, nth_error (groups s) g = Some X ->
    (forall p P, nth_error (groups s) p = Some P ->
       only_group s (fst (gstep s (GSetParentGroup g (Some p)))) g (child_of (with_parent X (Some p)) P)) /\
    only_group s (fst (gstep s (GSetParentGroup g None))) g (with_parent X None) /\
    only_group s (fst (gstep s (GUnsetParentGroup g))) g (with_parent X None).
Proof.
  intros s g X H. split; [|split].
  - intros p P HP. cbn [gstep]. unfold from_group. rewrite HP. cbn [fst]. rewrite <- g_set_parent_child. exact (mod_only s g (set_parent p P) X H).
  - exact (mod_only s g (g_set_parent None) X H).
  - exact (mod_only s g g_unset_parent X H).
Qed.
Print Assumptions C78_parent.

(** By name: as with the object of that name, or without effect. *)
Theorem C78_names :
  forall s g n,
    (forall h, group_named s n h ->
       gstep s (GSetLevelFromNamed g n) = gstep s (GSetLevelFromGroup g h) /\
       gstep s (GSetSinkFromNamed g n) = gstep s (GSetSinkFromGroup g h) /\
       gstep s (GSetParentNamed g n) = gstep s (GSetParentGroup g (Some h))) /\
    ((forall h, ~ group_named s n h) ->
       gstep s (GSetLevelFromNamed g n) = (s, RUnit) /\ gstep s (GSetSinkFromNamed g n) = (s, RUnit) /\
       gstep s (GSetParentNamed g n) = (s, RUnit)) /\
    (forall k, sink_named s n k -> k < length (sinks s) -> gstep s (GSetSinkNamed g n) = gstep s (GSetSink g k)) /\
    ((forall k, ~ sink_named s n k) -> gstep s (GSetSinkNamed g n) = (s, RUnit)).
Proof.
  intros s g n. unfold group_named, sink_named. cbn [gstep]. unfold from_named. split; [|split; [|split]].
  - intros h ->. auto.
  - intros N. destruct (find (gmap s) n) as [h|]; [destruct (N h eq_refl)|auto].
  - intros k -> Hk. rewrite (proj2 (Nat.ltb_lt _ _) Hk). reflexivity.
  - intros N. destruct (find (smap s) n) as [h|]; [destruct (N h eq_refl)|auto].
Qed.
Print Assumptions C78_names.

(** The comments promise more: that a level that was set is marked as the group's own, and
    all properties when the parent is unset.  Not so for roots. *)
Theorem C112_marked_refuted :
  forall ord dbg, reachable ord dbg usual_sinks ex_sys /\
    (forall l, exists X, nth_error (groups (fst (gstep ex_sys (GSetLevel 0 l)))) 0 = Some X /\ g_level X = l /\ g_lov X = false) /\
    (exists X, nth_error (groups (fst (gstep ex_sys (GUnsetParentGroup 1)))) 1 = Some X /\ g_lov X = false /\ g_sov X = false).
Proof. intros ord dbg. split; [apply ex_reachable|]. split; [intros l|]; eexists; repeat split. Qed.
Print Assumptions C112_marked_refuted.

(** What holds: in a group that has a parent the level (sink) is marked, and stays until
    another call about the level (sink) of that group, whatever else is called on groups. *)
Theorem C112_marked_partial :
  forall s g X p, nth_error (groups s) g = Some X -> g_parent X = Some p ->
  (forall l cs, Forall (fun c => sets_level g c = false) cs ->
     exists X', nth_error (groups (gcalls s (GSetLevel g l :: cs))) g = Some X' /\ g_level X' = l /\ g_lov X' = true) /\
  (forall k cs, k < length (sinks s) -> Forall (fun c => sets_sink g c = false) cs ->
     exists X', nth_error (groups (gcalls s (GSetSink g k :: cs))) g = Some X' /\ g_sink X' = Some k /\ g_sov X' = true).
Proof. exact marked_with_parent. Qed.
Print Assumptions C112_marked_partial.

(** Another parent with another level and sink is given to it. *)
Example C112_nonvacuous :
  exists B, nth_error (groups ex_sys) 1 = Some B /\ g_parent B = Some 0 /\ g_lov B = false /\
  Forall (fun c => sets_level 1 c = false) [GSetLevel 2 TRACE; GSetParentGroup 1 (Some 2)] /\
  (exists X, nth_error (groups (gcalls ex_sys [GSetLevel 1 ERROR; GSetLevel 2 TRACE; GSetParentGroup 1 (Some 2)])) 1 = Some X /\ g_level X = ERROR) /\
  (exists X, nth_error (groups (gcalls ex_sys [GSetLevel 2 TRACE; GSetParentGroup 1 (Some 2)])) 1 = Some X /\ g_level X = TRACE).
Proof.
  eexists. split; [vm_compute; reflexivity|]. split; [reflexivity|]. split; [reflexivity|].
  split; [repeat constructor|]. split; eexists; split; try (vm_compute; reflexivity); reflexivity.
Qed.

Example C78_nonvacuous :
  exists A B C, nth_error (groups ex_sys) 0 = Some A /\ is_root A = true /\
    nth_error (groups ex_sys) 1 = Some B /\ g_parent B = Some 0 /\
    nth_error (groups ex_sys) 2 = Some C /\ g_lov C = true /\ 1 < length (sinks ex_sys) /\
    group_named ex_sys "c" 2 /\ sink_named ex_sys "k1" 1 /\ forall h, ~ group_named ex_sys "x" h.
Proof. do 3 eexists. repeat split; try (vm_compute; auto; fail). intros h H. discriminate H. Qed.

(** ** C79: groups and loggers that inherit follow a change made on the group itself

    False, in every system: they keep what they had. *)
Theorem C79_level_refuted :
  forall s g G x X l, nth_error (groups s) g = Some G -> nth_error (groups s) x = Some X -> x <> g ->
    g_parent X = Some g -> g_lov X = false -> g_level X = g_level G -> l <> g_level G ->
    exists G' X', let s' := fst (gstep s (GSetLevel g l)) in
      nth_error (groups s') g = Some G' /\ nth_error (groups s') x = Some X' /\
      g_parent X' = Some g /\ g_lov X' = false /\ g_level X' <> g_level G' /\ loggers s' = loggers s.
Proof.
  intros s g G x X l HG HX N P O E D.
  destruct (proj1 (C78_level s g G HG) l) as (L & _ & _ & _ & _ & _ & _ & Eg & Eo).
  eexists _, X. cbn zeta. split; [exact Eg|]. split; [rewrite Eo by exact N; exact HX|]. repeat split; auto.
  cbn. congruence.
Qed.
Print Assumptions C79_level_refuted.

Theorem C79_sink_refuted :
  forall s g G x X k, nth_error (groups s) g = Some G -> nth_error (groups s) x = Some X -> x <> g ->
    g_parent X = Some g -> g_sov X = false -> g_sink X = g_sink G -> k < length (sinks s) -> Some k <> g_sink G ->
    exists G' X', let s' := fst (gstep s (GSetSink g k)) in
      nth_error (groups s') g = Some G' /\ nth_error (groups s') x = Some X' /\
      g_parent X' = Some g /\ g_sov X' = false /\ g_sink X' <> g_sink G' /\ loggers s' = loggers s.
Proof.
  intros s g G x X k HG HX N P O E Hk D.
  destruct (proj1 (C78_sink s g G HG) k Hk) as (L & _ & _ & _ & _ & _ & _ & Eg & Eo).
  eexists _, X. cbn zeta. split; [exact Eg|]. split; [rewrite Eo by exact N; exact HX|]. repeat split; auto.
  cbn. congruence.
Qed.
Print Assumptions C79_sink_refuted.

Example C79_nonvacuous :
  exists A B L, nth_error (groups ex_sys) 0 = Some A /\ nth_error (groups ex_sys) 1 = Some B /\
    nth_error (loggers ex_sys) 0 = Some L /\ l_group L = 1 /\ l_lov L = false /\
    g_parent B = Some 0 /\ g_lov B = false /\ g_level B = g_level A /\ TRACE <> g_level A /\
    g_sov B = false /\ g_sink B = g_sink A /\ 2 < length (sinks ex_sys) /\ Some 2 <> g_sink A.
Proof. do 3 eexists. repeat split; try (vm_compute; auto; fail); discriminate. Qed.

(** What holds: the call of the logging system that follows puts everything right; it has
    the effect it would have had alone (C44, C45). *)
Theorem C79_repaired_partial :
  forall ord fuel dbg s n g X, group_named s n g -> nth_error (groups s) g = Some X ->
    (forall l l', snd (step ord fuel dbg s (SetLevelOfGroup n l)) <> RHang ->
       step ord fuel dbg (fst (gstep s (GSetLevel g l'))) (SetLevelOfGroup n l) = step ord fuel dbg s (SetLevelOfGroup n l)) /\
    (forall m k k', sink_named s m k -> k' < length (sinks s) -> snd (step ord fuel dbg s (SetSinkOfGroup n m)) <> RHang ->
       step ord fuel dbg (fst (gstep s (GSetSink g k'))) (SetSinkOfGroup n m) = step ord fuel dbg s (SetSinkOfGroup n m)).
Proof.
  intros ord fuel dbg s n g X Hn HX. unfold group_named in Hn. split.
  - intros l l' H. destruct (proj1 (C78_level s g X HX) l') as (_ & _ & Em & _).
    cbn [gstep fst] in *. cbn [step] in *. rewrite Em, Hn in *. unfold set_level_of_group in *.
    rewrite (mod_twice s g (g_set_level l) (g_set_level l') X HX) by (unfold g_set_level; cbn; destruct (g_parent X); reflexivity).
    destruct (spread _ _ _ _ _ _ _); [reflexivity|cbn in H; congruence].
  - intros m k k' Hm Hk' H. unfold sink_named in Hm.
    destruct (proj1 (C78_sink s g X HX) k' Hk') as (_ & _ & Em & _ & Es & _).
    cbn [step] in *. rewrite Em, Es, Hn, Hm in *. cbn [gstep]. rewrite (proj2 (Nat.ltb_lt _ _) Hk'). cbn [fst].
    unfold set_sink_of_group in *.
    rewrite (mod_twice s g (g_set_sink k) (g_set_sink k') X HX) by (unfold g_set_sink; cbn; destruct (g_parent X); reflexivity).
    destruct (spread _ _ _ _ _ _ _); [reflexivity|cbn in H; congruence].
Qed.
Print Assumptions C79_repaired_partial.

Example C79_repaired_nonvacuous :
  forall dbg, group_named ex_sys "a" 0 /\ sink_named ex_sys "k2" 2 /\
    snd (step idord 10 dbg ex_sys (SetLevelOfGroup "a" TRACE)) = RBool true /\
    snd (step idord 10 dbg ex_sys (SetSinkOfGroup "a" "k2")) = RBool true /\
    fst (gstep ex_sys (GSetLevel 0 TRACE)) <> ex_sys.
Proof.
  intros. repeat split; try reflexivity. intros E.
  apply (f_equal (fun s => option_map g_level (nth_error (groups s) 0))) in E. discriminate E.
Qed.

(** ** C80: the groups stay a forest whatever is called on them

    False: two calls of setParentGroup make a ring, and then calls on other groups never return. *)
Theorem C80_ring_refuted :
  forall ord dbg, reachable ord dbg usual_sinks two_sys /\
    ring_sys = fst (gstep (fst (gstep two_sys (GSetParentGroup 0 (Some 1)))) (GSetParentGroup 1 (Some 0))) /\
    ancestor ring_sys 0 0 /\
    forall fuel l, snd (step ord fuel dbg ring_sys (SetLevelOfGroup "c" l)) = RHang.
Proof.
  intros ord dbg. split; [apply two_reachable|]. split; [reflexivity|]. split.
  - eapply anc_step; [reflexivity|reflexivity|]. eapply anc_parent; reflexivity.
  - intros. apply ring_level.
Qed.
Print Assumptions C80_ring_refuted.

(** What holds: it does unless the new parent is the group itself or below it. *)
Theorem C80_forest_partial :
  forall s g X, nth_error (groups s) g = Some X -> acyclic s ->
    (forall p, p <> g -> ~ ancestor s g p -> acyclic (fst (gstep s (GSetParentGroup g (Some p))))) /\
    acyclic (fst (gstep s (GUnsetParentGroup g))).
Proof.
  intros s g X H A. split.
  - intros p N Na. destruct (nth_error (groups s) p) as [P|] eqn:HP.
    + exact (stays_acyclic _ _ _ _ _ (proj1 (C78_parent s g X H) p P HP) eq_refl N Na A).
    + cbn [gstep]. unfold from_group. rewrite HP. exact A.
  - exact (cut_acyclic _ _ _ _ (proj2 (proj2 (C78_parent s g X H))) eq_refl A).
Qed.
Print Assumptions C80_forest_partial.

Example C80_nonvacuous :
  acyclic ex_sys /\ (exists D, nth_error (groups ex_sys) 3 = Some D) /\ 1 <> 3 /\ ~ ancestor ex_sys 3 1.
Proof.
  split; [exact (proj1 (no_cycles idord idord_ok true ex_sys (ex_usual idord true)))|].
  split; [eexists; reflexivity|]. split; [discriminate|].
  intros H. inversion H as [x X E P|x X y E P H1]; subst; cbn in E; injection E as <-; cbn in P; [discriminate|].
  injection P as <-. inversion H1 as [x X E P|x X y E P H2]; subst; cbn in E; injection E as <-; discriminate.
Qed.
