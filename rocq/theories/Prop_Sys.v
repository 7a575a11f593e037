(** * Properties C41-C55, C67, C68: groups, loggers, the logging system

    [ord]: any order in which sets of groups are iterated; [dbg]: built without NDEBUG.
    [reachable ord dbg ok s]: [s] comes from a new system by calls satisfying [ok]. *)

From Coq Require Import String List Arith Bool Permutation.
From Verif Require Import Base LevelModel SysModel SysSpec SysBase SysProps SysMore SysOnce SysFrame SysFuel SysWitness.
Import ListNotations.
Open Scope string_scope.

(** ** The example: a - b - c and d; c has its own level, logger l2 its own level and sink *)
Example Sys_example :
  (forall ord dbg, reachable ord dbg usual_sinks ex_sys) /\ (forall ord dbg, reachable ord dbg usual ex_sys) /\ rearranges idord.
Proof. split; [exact ex_reachable|]. split; [exact ex_usual|exact idord_ok]. Qed.

(** More depth of recursion than [enough] makes no difference. *)
Example Sys_example_depth :
  forall ord, rearranges ord -> forall dbg fuel s c, reachable ord dbg usual s -> usual s c -> enough s <= fuel ->
    step ord fuel dbg s c = step ord (enough s) dbg s c.
Proof. exact enough_enough. Qed.

(** ** C41 *)
Theorem C41_group_level :
  forall ord, rearranges ord -> forall dbg s x X,
    reachable ord dbg usual s -> nth_error (groups s) x = Some X ->
    (forall p, g_parent X = Some p -> g_lov X = false ->
       exists P, nth_error (groups s) p = Some P /\ g_level X = g_level P) /\
    (exists a A, inherits g_lov s a x /\ nth_error (groups s) a = Some A /\
       (g_parent A = None \/ g_lov A = true) /\ g_level X = g_level A).
Proof. exact group_level. Qed.
Print Assumptions C41_group_level.

Example C41_nonvacuous :
  exists B, nth_error (groups ex_sys) 1 = Some B /\ g_parent B = Some 0 /\ g_lov B = false /\ g_level B = INFO.
Proof. eexists. repeat split. Qed.

(** If the name of a group with a parent is used for another group, the old one is left behind. *)
Example C41_guard :
  forall ord dbg, reachable ord dbg no_self_parent orphan_sys /\
    exists A B, nth_error (groups orphan_sys) 0 = Some A /\ nth_error (groups orphan_sys) 1 = Some B /\
      g_parent B = Some 0 /\ g_lov B = false /\ g_level A = TRACE /\ g_level B = INFO.
Proof. intros. split; [apply orphan_reachable|]. do 2 eexists. repeat split. Qed.

(** ** C42 *)
Theorem C42_group_sink :
  forall ord, rearranges ord -> forall dbg s x X,
    reachable ord dbg usual s -> nth_error (groups s) x = Some X ->
    (forall p, g_parent X = Some p -> g_sov X = false ->
       exists P, nth_error (groups s) p = Some P /\ g_sink X = g_sink P) /\
    (exists a A, inherits g_sov s a x /\ nth_error (groups s) a = Some A /\
       (g_parent A = None \/ g_sov A = true) /\ g_sink X = g_sink A).
Proof. exact group_sink. Qed.
Print Assumptions C42_group_sink.

Example C42_nonvacuous :
  exists C, nth_error (groups ex_sys) 2 = Some C /\ g_parent C = Some 1 /\ g_sov C = false /\ g_sink C = Some 1.
Proof. eexists. repeat split. Qed.

(** ** C43 *)
Theorem C43_logger_level :
  forall ord, rearranges ord -> forall dbg s i L,
    reachable ord dbg usual s -> nth_error (loggers s) i = Some L -> l_alive L = true ->
    exists G, nth_error (groups s) (l_group L) = Some G /\
      (l_lov L = false -> l_level L = g_level G) /\
      (l_sov L = false -> g_sink G <> None -> l_sink L = g_sink G).
Proof. exact logger_follows. Qed.
Print Assumptions C43_logger_level.

(** Exactly, if roots are made with sinks. *)
Theorem C43_logger_sink :
  forall ord, rearranges ord -> forall dbg s i L,
    reachable ord dbg usual_sinks s -> nth_error (loggers s) i = Some L -> l_alive L = true -> l_sov L = false ->
    exists G, nth_error (groups s) (l_group L) = Some G /\ l_sink L = g_sink G.
Proof. exact logger_follows_sink. Qed.
Print Assumptions C43_logger_sink.

Example C43_nonvacuous :
  exists L, nth_error (loggers ex_sys) 0 = Some L /\ l_alive L = true /\ l_group L = 1 /\ l_lov L = false /\ l_sov L = false /\
    l_level L = INFO /\ l_sink L = Some 1.
Proof. eexists. repeat split. Qed.

(** The logger of a group left behind misses the change above it. *)
Example C43_guard :
  exists B L, nth_error (groups orphan_sys) 1 = Some B /\ nth_error (loggers orphan_sys) 0 = Some L /\ l_group L = 1 /\
    g_parent B = Some 0 /\ level_of orphan_sys "a" = Some TRACE /\ l_level L = INFO.
Proof. do 2 eexists. repeat split. Qed.

(** ** C44 *)
Theorem C44_set_level :
  forall ord, rearranges ord -> forall dbg s g gi G l,
    reachable ord dbg usual s -> group_named s g gi -> nth_error (groups s) gi = Some G ->
    exists s', step ord (enough s) dbg s (SetLevelOfGroup g l) = (s', RBool true) /\
      level_changed s s' gi l (match g_parent G with Some _ => true | None => g_lov G end).
Proof. exact set_level_effect. Qed.
Print Assumptions C44_set_level.

Theorem C44_reset_level :
  forall ord, rearranges ord -> forall dbg s g gi G,
    reachable ord dbg usual s -> group_named s g gi -> nth_error (groups s) gi = Some G ->
    exists s', step ord (enough s) dbg s (ResetLevelOfGroup g) = (s', RBool true) /\
      match g_parent G with
      | Some p => exists P, nth_error (groups s) p = Some P /\ level_changed s s' gi (g_level P) false
      | None => level_changed s s' gi (g_level G) (g_lov G)
      end.
Proof. exact reset_level_effect. Qed.
Print Assumptions C44_reset_level.

Example C44_nonvacuous :
  group_named ex_sys "a" 0 /\ inherits g_lov ex_sys 0 1 /\ ~ inherits g_lov ex_sys 0 2 /\
    level_of (fst (step idord 4 true ex_sys (SetLevelOfGroup "a" VERBOSE))) "b" = Some VERBOSE /\
    level_of (fst (step idord 4 true ex_sys (SetLevelOfGroup "a" VERBOSE))) "c" = Some DEBUG.
Proof. repeat split.
  - eapply inh_parent; [reflexivity|reflexivity|reflexivity|apply inh_self].
  - intros H. inversion H as [|x X y E O P H']. cbn in E. injection E as <-. discriminate O. Qed.

(** ** C45 *)
Theorem C45_set_sink :
  forall ord, rearranges ord -> forall dbg s g gi G k ki,
    reachable ord dbg usual s -> group_named s g gi -> nth_error (groups s) gi = Some G -> sink_named s k ki ->
    exists s', step ord (enough s) dbg s (SetSinkOfGroup g k) = (s', RBool true) /\
      sink_changed s s' gi (Some ki) (match g_parent G with Some _ => true | None => g_sov G end).
Proof. exact set_sink_effect. Qed.
Print Assumptions C45_set_sink.

Theorem C45_reset_sink :
  forall ord, rearranges ord -> forall dbg s g gi G,
    reachable ord dbg usual s -> group_named s g gi -> nth_error (groups s) gi = Some G ->
    exists s', step ord (enough s) dbg s (ResetSinkOfGroup g) = (s', RBool true) /\
      match g_parent G with
      | Some p => exists P, nth_error (groups s) p = Some P /\ sink_changed s s' gi (g_sink P) false
      | None => sink_changed s s' gi (g_sink G) (g_sov G)
      end.
Proof. exact reset_sink_effect. Qed.
Print Assumptions C45_reset_sink.

Example C45_nonvacuous :
  group_named ex_sys "b" 1 /\ sink_named ex_sys "k2" 2 /\
    sink_of (fst (step idord 4 true ex_sys (SetSinkOfGroup "b" "k2"))) "c" = Some (Some 2) /\
    sink_of (fst (step idord 4 true ex_sys (SetSinkOfGroup "b" "k2"))) "a" = Some (Some 1).
Proof. repeat split. Qed.

(** ** C46 *)
Theorem C46_set_parent :
  forall ord, rearranges ord -> forall dbg s g gi G p pi P,
    reachable ord dbg usual s -> group_named s g gi -> nth_error (groups s) gi = Some G ->
    group_named s p pi -> nth_error (groups s) pi = Some P -> pi <> gi -> ~ would_cycle s gi pi ->
    exists s', step ord (enough s) dbg s (SetParentOfGroup g p) = (s', RBool true) /\
      parent_changed s s' gi (Some pi) (if g_lov G then g_level G else g_level P) (if g_sov G then g_sink G else g_sink P).
Proof. exact set_parent_effect. Qed.
Print Assumptions C46_set_parent.

Theorem C46_unset_parent :
  forall ord, rearranges ord -> forall dbg s g gi G,
    reachable ord dbg usual s -> group_named s g gi -> nth_error (groups s) gi = Some G ->
    exists s', step ord (enough s) dbg s (UnsetParentOfGroup g) = (s', RBool true) /\
      parent_changed s s' gi None (g_level G) (g_sink G).
Proof. exact unset_parent_effect. Qed.
Print Assumptions C46_unset_parent.

Example C46_nonvacuous :
  let s := fst (step idord 4 true ex_sys (SetParentOfGroup "b" "d")) in
    level_of s "b" = Some ERROR /\ sink_of s "b" = Some (Some 2) /\ level_of s "c" = Some DEBUG /\ sink_of s "c" = Some (Some 2) /\
    let s' := fst (step idord 4 true ex_sys (SetParentOfGroup "a" "b")) in
    (exists A B, nth_error (groups s') 0 = Some A /\ g_parent A = Some 1 /\ nth_error (groups s') 1 = Some B /\ g_parent B = None).
Proof. vm_compute. repeat split. do 2 eexists. repeat split. Qed.

(** ** C47 *)
(** In histories in which no group is made its own parent. *)
Theorem C47_no_cycles_partial :
  forall ord, rearranges ord -> forall dbg s,
    reachable ord dbg usual s ->
    acyclic s /\ forall fuel c, enough s <= fuel -> usual s c -> snd (step ord fuel dbg s c) <> RHang.
Proof. exact no_cycles. Qed.
Print Assumptions C47_no_cycles_partial.

Theorem C47_cycle_refused :
  forall ord, rearranges ord -> forall dbg s g gi p pi,
    reachable ord dbg usual s -> group_named s g gi -> group_named s p pi -> pi <> gi -> would_cycle s gi pi ->
    step ord (enough s) dbg s (SetParentOfGroup g p) = (s, RBool false).
Proof. exact cycle_refused. Qed.
Print Assumptions C47_cycle_refused.

(** setParentOfGroup(a, a) is accepted; then calls on other groups recurse without end. *)
Theorem C47_self_parent_refuted :
  forall ord dbg,
    reachable ord dbg any_call loop_sys /\ ancestor loop_sys 0 0 /\
    forall fuel l, snd (step ord fuel dbg loop_sys (SetLevelOfGroup "b" l)) = RHang /\
                   snd (step ord fuel dbg loop_sys (SetParentOfGroup "b" "a")) = RHang.
Proof. exact (fun ord dbg => conj (loop_reachable ord dbg) (conj loop_ancestor (fun fuel l => conj (loop_level ord fuel dbg l) (loop_parent ord fuel dbg)))). Qed.
Print Assumptions C47_self_parent_refuted.

Example C47_nonvacuous :
  would_cycle ex_sys 0 2 /\ group_named ex_sys "a" 0 /\ group_named ex_sys "c" 2 /\
    forall ord fuel dbg, exists s, step ord fuel dbg s (SetParentOfGroup "a" "a") = (loop_sys, RBool true).
Proof. split; [split|].
  - eapply anc_step; [reflexivity|reflexivity|]. eapply anc_parent; reflexivity.
  - intros P E. injection E as <-. discriminate.
  - split; [reflexivity|]. split; [reflexivity|]. intros ord fuel dbg. destruct (loop_accepted ord fuel dbg) as (s & H & _). eauto. Qed.

(** ** C48 *)
Theorem C48_outcome :
  forall ord, rearranges ord -> forall dbg s c P,
    reachable ord dbg usual s -> usual s c -> succeeds s c = Some P ->
    (P -> snd (step ord (enough s) dbg s c) = RBool true) /\
    (~ P -> exists s', step ord (enough s) dbg s c = (s', RBool false) /\ same s s').
Proof. exact outcome. Qed.
Print Assumptions C48_outcome.

Example C48_nonvacuous :
  succeeds ex_sys (SetSinkOfGroup "a" "nope") <> None /\
    step idord 4 true ex_sys (SetSinkOfGroup "a" "nope") = (ex_sys, RBool false) /\
    step idord 4 true ex_sys (SetParentOfGroup "a" "c") = (ex_sys, RBool false) /\
    snd (step idord 4 true ex_sys (SetGroupOfLogger "l1" "d")) = RBool true.
Proof. split; [discriminate|]. vm_compute. repeat split. Qed.

(** ** C49 *)
Theorem C49_same_logger :
  forall ord, rearranges ord -> forall dbg s x i g k lv,
    reachable ord dbg usual s -> configured s = true -> live_named s x i ->
    step ord (enough s) dbg s (GetLogger x g k lv) = (s, RLogger i).
Proof. exact get_live. Qed.
Print Assumptions C49_same_logger.

Theorem C49_one_live :
  forall ord, rearranges ord -> forall dbg s x i j, reachable ord dbg usual s -> live_named s x i -> live_named s x j -> i = j.
Proof. exact one_live. Qed.
Print Assumptions C49_one_live.

Theorem C49_alive_registered :
  forall ord, rearranges ord -> forall dbg s i L,
    reachable ord dbg usual s -> nth_error (loggers s) i = Some L -> l_alive L = true -> live_named s (l_name L) i.
Proof. exact alive_named. Qed.
Print Assumptions C49_alive_registered.

Theorem C49_new_logger :
  forall ord, rearranges ord -> forall dbg s x g gi G k lv,
    reachable ord dbg usual s -> configured s = true -> (forall i, ~ live_named s x i) ->
    g <> "*" -> group_named s g gi -> nth_error (groups s) gi = Some G ->
    exists s' L, step ord (enough s) dbg s (GetLogger x g k lv) = (s', RLogger (length (loggers s))) /\
      added s s' L /\ is_new_logger s x gi G k lv L.
Proof. exact get_new. Qed.
Print Assumptions C49_new_logger.

Example C49_nonvacuous :
  configured ex_sys = true /\ live_named ex_sys "l1" 0 /\
    step idord 4 true ex_sys (GetLogger "l1" "d" (Some "k2") (Some OFF)) = (ex_sys, RLogger 0) /\
    snd (step idord 4 true (fst (step idord 4 true ex_sys (LDrop 0))) (GetLogger "l1" "d" None None)) = RLogger 2.
Proof. split; [reflexivity|]. split; [|vm_compute; repeat split]. split; [left; reflexivity|]. eexists. split; reflexivity. Qed.

(** ** C50 *)
Theorem C50_falls_back :
  forall ord, rearranges ord -> forall dbg s x g fi G k lv,
    reachable ord dbg usual s -> configured s = true -> (forall i, ~ live_named s x i) ->
    (forall i, ~ group_named s g i) \/ (g = "*" /\ dbg = false) ->
    group_named s "*" fi -> nth_error (groups s) fi = Some G -> g_sink G <> None ->
    exists s' L, step ord (enough s) dbg s (GetLogger x g k lv) = (s', RLogger (length (loggers s))) /\
      added s s' L /\ is_new_logger s x fi G k lv L.
Proof. exact get_fallback. Qed.
Print Assumptions C50_falls_back.

Theorem C50_first_group :
  forall ord, rearranges ord -> forall dbg s n p k lv i,
    reachable ord dbg usual s -> find (gmap s) "*" = None ->
    snd (step ord (enough s) dbg s (MakeGroup n p k lv)) = RGroup i ->
    group_named (fst (step ord (enough s) dbg s (MakeGroup n p k lv))) "*" i.
Proof. exact fallback_first. Qed.
Print Assumptions C50_first_group.

Theorem C50_stays :
  forall ord, rearranges ord -> forall dbg s s' i,
    reachable ord dbg usual s -> group_named s "*" i ->
    follows ord dbg (fun s c => usual s c /\ ~ sets_fallback c) s s' -> group_named s' "*" i.
Proof. exact fallback_stays. Qed.
Print Assumptions C50_stays.

Theorem C50_set_fallback :
  forall ord dbg s g i, group_named s g i ->
    exists s', step ord (enough s) dbg s (SetFallbackGroup g) = (s', RBool true) /\
      groups s' = groups s /\ loggers s' = loggers s /\ sinks s' = sinks s /\ lmap s' = lmap s /\ smap s' = smap s /\
      configured s' = configured s /\
      group_named s' "*" i /\ forall m, m <> "*" -> find (gmap s') m = find (gmap s) m.
Proof. exact set_fallback_sets. Qed.
Print Assumptions C50_set_fallback.

Example C50_nonvacuous :
  group_named ex_sys "*" 0 /\ (forall i, ~ group_named ex_sys "zzz" i) /\
    (exists L, nth_error (loggers (fst (step idord 4 true ex_sys (GetLogger "l3" "zzz" None None)))) 2 = Some L /\ l_group L = 0).
Proof. split; [reflexivity|]. split; [discriminate|]. eexists. split; reflexivity. Qed.

(** ** C51 *)
Theorem C51_before_configure :
  forall ord dbg fuel s x g k lv, configured s = false ->
    step ord fuel dbg s (GetLogger x g k lv) = (s, RThrow).
Proof. exact get_unconfigured. Qed.
Print Assumptions C51_before_configure.

Theorem C51_once :
  forall ord dbg fuel fuel' s sc sc', configured s = false ->
    configured (fst (configure ord fuel dbg s sc)) = true /\
    configure ord fuel' dbg (fst (configure ord fuel dbg s sc)) sc' = (fst (configure ord fuel dbg s sc), (None, RThrow)).
Proof. exact configure_twice. Qed.
Print Assumptions C51_once.

Theorem C51_no_exception :
  forall ord dbg fuel s sc, configured s = false -> snd (snd (configure ord fuel dbg s sc)) <> RThrow.
Proof. exact no_throw. Qed.
Print Assumptions C51_no_exception.

(** Over histories: before the first call of configure() getLogger throws and configure() does
    not, after it (whatever it returned) configure() throws and getLogger does not ('*' given
    as group name is C50). *)
Theorem C51_history :
  forall ord dbg fuel h, let s := after ord dbg fuel h in
    (Forall (fun a => configures a = false) h ->
       (forall x g k lv, step ord fuel dbg s (GetLogger x g k lv) = (s, RThrow)) /\
       (forall sc, snd (snd (configure ord fuel dbg s sc)) <> RThrow)) /\
    (Exists (fun a => configures a = true) h ->
       (forall x g k lv, g <> "*" -> snd (step ord fuel dbg s (GetLogger x g k lv)) <> RThrow) /\
       (forall sc, configure ord fuel dbg s sc = (s, (None, RThrow)))).
Proof. exact once_history. Qed.
Print Assumptions C51_history.

(** What configure() returns: the configurator's result, completed. *)
Theorem C51_result :
  forall ord, rearranges ord -> forall dbg fuel s sc,
    reachable ord dbg usual_sinks s -> configured s = false ->
    each_ok ord fuel dbg usual_sinks (with_configured s) (sc_calls sc) -> enough s + length (sc_calls sc) <= fuel ->
    let '(s1, os) := run ord fuel dbg (with_configured s) (sc_calls sc) in
    ~ In RUB os ->
    exists res, configure ord fuel dbg s sc = (s1, (Some res, RUnit)) /\
    match sc_end sc with
    | inr what => res = mkResult true false ["E: Configure is failed: " ++ what ++ "; Logging system is unworkable"]
    | inl r =>
        match gmap s1 with
        | [] => res = mkResult true (has_warning r) (message r ++ ["E: No one group is defined; Logging system is unworkable"])%list
        | _ => res = mkResult (has_error r) (has_warning r || existsb (sends_nowhere s1) (gmap s1))
                              (message r ++ map nowhere_warning (filter (sends_nowhere s1) (gmap s1)))%list
        end
    end.
Proof. exact configure_usual. Qed.
Print Assumptions C51_result.

Example C51_nonvacuous :
  configured init = false /\
    configure idord 10 true init (mkScript [] (inl (mkResult false false []))) =
      (with_configured init, (Some (mkResult true false ["E: No one group is defined; Logging system is unworkable"]), RUnit)) /\
    snd (configure idord 10 true init (mkScript [MakeGroup "a" None (Some "*") (Some INFO)] (inl (mkResult false false [])))) =
      (Some (mkResult false true ["W: Group 'a' has undefined sink; Sink to nowhere will be used"]), RUnit) /\
    each_ok idord 10 true usual_sinks (with_configured init) [MakeGroup "a" None (Some "*") (Some INFO)] /\
    snd (configure idord 10 true init (mkScript ex_calls (inr "boom"))) =
      (Some (mkResult true false ["E: Configure is failed: boom; Logging system is unworkable"]), RUnit).
Proof. vm_compute. repeat split. intros (i & x & F & _). discriminate. Qed.

(** ** C52 *)
(** For groups that had a parent when their level was set (C44: then it is overridden). *)
Theorem C52_level_kept_partial :
  forall ord, rearranges ord -> forall dbg s s' x X,
    reachable ord dbg usual s -> nth_error (groups s) x = Some X -> g_lov X = true ->
    follows ord dbg (fun s c => usual s c /\ ~ sets_level s x c) s s' ->
    exists X', nth_error (groups s') x = Some X' /\ g_level X' = g_level X /\ g_lov X' = true.
Proof. exact level_kept. Qed.
Print Assumptions C52_level_kept_partial.

Theorem C52_sink_kept_partial :
  forall ord, rearranges ord -> forall dbg s s' x X,
    reachable ord dbg usual s -> nth_error (groups s) x = Some X -> g_sov X = true ->
    follows ord dbg (fun s c => usual s c /\ ~ sets_sink s x c) s s' ->
    exists X', nth_error (groups s') x = Some X' /\ g_sink X' = g_sink X /\ g_sov X' = true.
Proof. exact sink_kept. Qed.
Print Assumptions C52_sink_kept_partial.

(** False for roots: what was set explicitly is replaced by the new parent's. *)
Theorem C52_root_refuted :
  forall ord fuel dbg l,
    let '(s1, os1) := run ord (S (S fuel)) dbg root_sys [SetLevelOfGroup "a" l; SetSinkOfGroup "a" "k"] in
    let '(s2, os2) := run ord (S (S fuel)) dbg s1 [SetParentOfGroup "a" "p"] in
    os1 = [RBool true; RBool true] /\ os2 = [RBool true] /\
    level_of s1 "a" = Some l /\ sink_of s1 "a" = Some (Some 1) /\ level_of s2 "a" = Some ERROR /\ sink_of s2 "a" = Some (Some 0).
Proof. exact root_level_lost. Qed.
Print Assumptions C52_root_refuted.

Theorem C52_cut_off_refuted :
  forall ord fuel dbg,
    let '(s1, os1) := run ord (S (S fuel)) dbg cut_sys [UnsetParentOfGroup "a"] in
    let '(s2, os2) := run ord (S (S fuel)) dbg s1 [SetParentOfGroup "a" "q"] in
    os1 = [RBool true] /\ os2 = [RBool true] /\ level_of s1 "a" = Some ERROR /\ level_of s2 "a" = Some INFO.
Proof. exact cut_level_lost. Qed.
Print Assumptions C52_cut_off_refuted.

Example C52_nonvacuous :
  (forall ord dbg, reachable ord dbg usual_sinks root_sys /\ reachable ord dbg usual_sinks cut_sys) /\
    exists C, nth_error (groups ex_sys) 2 = Some C /\ g_lov C = true.
Proof. split; [intros; split; [apply root_reachable|apply cut_reachable]|]. eexists. split; reflexivity. Qed.

(** ** C53 *)
Theorem C53_throws :
  forall ord, rearranges ord -> forall dbg s n p k lv,
    reachable ord dbg usual s -> ~ makeable s p k lv -> step ord (enough s) dbg s (MakeGroup n p k lv) = (s, RThrow).
Proof. exact (fun ord Ho dbg s n p k lv H => make_group_throws ord dbg s n p k lv (usual_inv ord Ho dbg s H)). Qed.
Print Assumptions C53_throws.

Theorem C53_makes :
  forall ord, rearranges ord -> forall dbg s n p k lv,
    reachable ord dbg usual s -> makeable s p k lv ->
    exists s' X, step ord (enough s) dbg s (MakeGroup n p k lv) = (s', RGroup (length (groups s))) /\
      is_new_group s n p k lv X /\ groups s' = (groups s ++ [X])%list /\
      loggers s' = loggers s /\ sinks s' = sinks s /\ lmap s' = lmap s /\ smap s' = smap s /\ configured s' = configured s /\
      group_named s' n (length (groups s)) /\
      (forall m, m <> n -> m <> "*" -> find (gmap s') m = find (gmap s) m) /\
      (n <> "*" -> find (gmap s') "*" = match find (gmap s) "*" with Some i => Some i | None => Some (length (groups s)) end).
Proof. exact (fun ord Ho dbg s n p k lv H => make_group_makes ord dbg s n p k lv (usual_inv ord Ho dbg s H)). Qed.
Print Assumptions C53_makes.

Example C53_nonvacuous :
  makeable ex_sys (Some "a") None None /\ ~ makeable ex_sys None None None /\ ~ makeable ex_sys (Some "zzz") None None.
Proof. split; [|split].
  - split; [intros n [= <-]; exists 0; reflexivity|]. split; discriminate.
  - intros (_ & _ & H). apply H; reflexivity.
  - intros (H & _). destruct (H _ eq_refl) as (i & Hi). discriminate. Qed.

(** ** C54 *)
(** As if one after the other, if the other call does not change what the new group takes from its parent. *)
Theorem C54_atomic_partial :
  forall ord, rearranges ord -> forall dbg fuel s n p k lv c,
    reachable ord dbg usual s -> apart s c -> object s n p k lv <> None ->
    object (fst (step ord fuel dbg s c)) n p k lv = object s n p k lv ->
    exists s2 i, interleaved ord fuel dbg s n p k lv c = Some (s2, i, snd (step ord fuel dbg s c)) /\
      step ord fuel dbg (fst (step ord fuel dbg s c)) (MakeGroup n p k lv) = (s2, RGroup i).
Proof. exact as_if_after. Qed.
Print Assumptions C54_atomic_partial.

(** Roots: in any case. *)
Theorem C54_root_atomic_partial :
  forall ord, rearranges ord -> forall dbg fuel s n k lv c,
    reachable ord dbg usual s -> apart s c ->
    forall s2 i o, interleaved ord fuel dbg s n None k lv c = Some (s2, i, o) ->
      (step ord fuel dbg s c = (fst (step ord fuel dbg s c), o) /\
       step ord fuel dbg (fst (step ord fuel dbg s c)) (MakeGroup n None k lv) = (s2, RGroup i)) \/
      (let s1 := fst (step ord fuel dbg s (MakeGroup n None k lv)) in
       step ord fuel dbg s (MakeGroup n None k lv) = (s1, RGroup i) /\ step ord fuel dbg s1 c = (s2, o)).
Proof. exact root_atomic. Qed.
Print Assumptions C54_root_atomic_partial.

(** False otherwise: the new group misses a change of its parent's level for good; no sequence of whole calls leads there. *)
Theorem C54_stale_refuted :
  forall ord fuel dbg, rearranges ord ->
    exists s2, interleaved ord (S fuel) dbg race_sys "b" (Some "a") None None (SetLevelOfGroup "a" TRACE) = Some (s2, 1, RBool true) /\
      level_of s2 "a" = Some TRACE /\ level_of s2 "b" = Some ERROR /\
      (exists B, nth_error (groups s2) 1 = Some B /\ g_parent B = Some 0 /\ g_lov B = false) /\
      ~ reachable ord dbg usual s2.
Proof. exact race_stale. Qed.
Print Assumptions C54_stale_refuted.

Example C54_nonvacuous :
  (forall ord dbg, reachable ord dbg usual_sinks race_sys) /\ apart race_sys (SetLevelOfGroup "a" TRACE) /\
    object ex_sys "e" (Some "a") None None <> None /\
    object (fst (step idord 4 true ex_sys (SetLevelOfGroup "d" TRACE))) "e" (Some "a") None None = object ex_sys "e" (Some "a") None None.
Proof. split; [exact race_reachable|]. vm_compute. repeat split. discriminate. Qed.

(** ** C55 *)
Theorem C55_sinks :
  forall ord, rearranges ord -> forall dbg s, reachable ord dbg usual_sinks s -> all_sinks s.
Proof. exact sinks_all. Qed.
Print Assumptions C55_sinks.

Theorem C55_get_logger_defined :
  forall ord, rearranges ord -> forall dbg s x g k lv,
    reachable ord dbg usual_sinks s -> gmap s <> [] -> snd (step ord (enough s) dbg s (GetLogger x g k lv)) <> RUB.
Proof. exact sinks_get. Qed.
Print Assumptions C55_get_logger_defined.

(** Without that guard: getLogger is undefined exactly if the fallback group is needed (the group is unknown; or it is
    "*", in a release build), and there is none, or it has no sink and a level that admits the warning. *)
Theorem C55_get_logger_undefined :
  forall ord, rearranges ord -> forall dbg s x g k lv, reachable ord dbg usual s ->
    (snd (step ord (enough s) dbg s (GetLogger x g k lv)) = RUB <->
     configured s = true /\ (forall i, ~ live_named s x i) /\
     ((g = "*" /\ dbg = false) \/ (g <> "*" /\ forall i, ~ group_named s g i)) /\
     forall i F, group_named s "*" i -> nth_error (groups s) i = Some F -> g_sink F = None /\ lcode WARN <= lcode (g_level F)).
Proof. exact get_undefined. Qed.
Print Assumptions C55_get_logger_undefined.

Example C55_nonvacuous :
  gmap ex_sys <> [] /\
    (exists L, nth_error (loggers ex_sys) 1 = Some L /\ l_sink L = Some 2 /\ nth_error (sinks ex_sys) 2 = Some "k2").
Proof. split; [discriminate|]. eexists. repeat split. Qed.

(** A root made without a sink: loggers get a null sink, warnings dereference it. *)
Example C55_guard :
  (forall ord dbg, reachable ord dbg usual bare_sys) /\
    snd (step idord 1 true bare_sys (GetLogger "l" "zzz" None None)) = RUB /\
    (exists L, nth_error (loggers (fst (step idord 1 true bare_sys (GetLogger "l" "a" None None)))) 0 = Some L /\ l_sink L = None).
Proof. split; [exact bare_reachable|]. split; [reflexivity|]. eexists. split; reflexivity. Qed.

(** ** C67 *)
Theorem C67_logger_calls :
  forall ord, rearranges ord -> forall dbg s i L,
    reachable ord dbg usual s -> nth_error (loggers s) i = Some L ->
    exists G, nth_error (groups s) (l_group L) = Some G /\
    (forall l, exists s', step ord (enough s) dbg s (LSetLevel i l) = (s', RUnit) /\ only_logger s s' i (relevel L l true)) /\
    (exists s', step ord (enough s) dbg s (LResetLevel i) = (s', RUnit) /\ only_logger s s' i (relevel L (g_level G) false)) /\
    (forall g Y, nth_error (groups s) g = Some Y -> exists s', step ord (enough s) dbg s (LSetLevelFromGroup i g) = (s', RUnit) /\
       only_logger s s' i (relevel L (g_level Y) (negb (Nat.eqb g (l_group L))))) /\
    (forall k, k < length (sinks s) -> exists s', step ord (enough s) dbg s (LSetSink i k) = (s', RUnit) /\ only_logger s s' i (resink L (Some k) true)) /\
    (exists s', step ord (enough s) dbg s (LResetSink i) = (s', RUnit) /\ only_logger s s' i (resink L (g_sink G) false)) /\
    (forall g Y, nth_error (groups s) g = Some Y -> exists s', step ord (enough s) dbg s (LSetSinkFromGroup i g) = (s', RUnit) /\
       only_logger s s' i (match g_sink Y with Some k => resink L (Some k) (negb (Nat.eqb g (l_group L))) | None => L end)) /\
    (forall g Y, nth_error (groups s) g = Some Y -> exists s', step ord (enough s) dbg s (LSetGroup i g) = (s', RUnit) /\
       only_logger s s' i (mkLogger (l_name L) g
         (if l_sov L then l_sink L else match g_sink Y with Some k => Some k | None => l_sink L end) (l_sov L)
         (if l_lov L then l_level L else g_level Y) (l_lov L) (l_alive L))).
Proof. exact logger_calls. Qed.
Print Assumptions C67_logger_calls.

Theorem C67_system_logger_calls :
  forall ord, rearranges ord -> forall dbg s x i L,
    reachable ord dbg usual s -> live_named s x i -> nth_error (loggers s) i = Some L ->
    exists G, nth_error (groups s) (l_group L) = Some G /\
    (forall l, exists s', step ord (enough s) dbg s (SetLevelOfLogger x l) = (s', RBool true) /\ only_logger s s' i (relevel L l true)) /\
    (exists s', step ord (enough s) dbg s (ResetLevelOfLogger x) = (s', RBool true) /\ only_logger s s' i (relevel L (g_level G) false)) /\
    (forall k ki, sink_named s k ki -> exists s', step ord (enough s) dbg s (SetSinkOfLogger x k) = (s', RBool true) /\ only_logger s s' i (resink L (Some ki) true)) /\
    (exists s', step ord (enough s) dbg s (ResetSinkOfLogger x) = (s', RBool true) /\
       only_logger s s' i (match g_sink G with Some k => resink L (Some k) false | None => L end)) /\
    (forall g gi Y, group_named s g gi -> nth_error (groups s) gi = Some Y -> exists s', step ord (enough s) dbg s (SetGroupOfLogger x g) = (s', RBool true) /\
       only_logger s s' i (mkLogger (l_name L) gi
         (if l_sov L then l_sink L else match g_sink Y with Some k => Some k | None => l_sink L end) (l_sov L)
         (if l_lov L then l_level L else g_level Y) (l_lov L) (l_alive L))).
Proof. exact system_logger_calls. Qed.
Print Assumptions C67_system_logger_calls.

Example C67_nonvacuous :
  live_named ex_sys "l2" 1 /\
    nth_error (loggers (fst (step idord 4 true ex_sys (SetGroupOfLogger "l2" "d")))) 1 = Some (mkLogger "l2" 3 (Some 2) true TRACE true true) /\
    nth_error (loggers (fst (step idord 4 true ex_sys (SetGroupOfLogger "l1" "d")))) 0 = Some (mkLogger "l1" 3 (Some 2) false ERROR false true).
Proof. split; [|vm_compute; repeat split]. split; [right; left; reflexivity|]. eexists. split; reflexivity. Qed.

(** ** C68 *)
Theorem C68_make_sink :
  forall ord dbg s n,
    exists s', step ord (enough s) dbg s (MakeSink n) = (s', RSink (length (sinks s))) /\
      sinks s' = (sinks s ++ [n])%list /\ groups s' = groups s /\ loggers s' = loggers s /\ gmap s' = gmap s /\ lmap s' = lmap s /\
      configured s' = configured s /\
      sink_named s' n (length (sinks s)) /\ forall m, m <> n -> find (smap s') m = find (smap s) m.
Proof. exact make_sink_makes. Qed.
Print Assumptions C68_make_sink.

(** A sink of a name in use: groups keep the old one. *)
Example C68_nonvacuous :
  let s := fst (step idord 4 true ex_sys (MakeSink "k1")) in
    sink_named ex_sys "k1" 1 /\ sink_named s "k1" 3 /\ sink_of s "a" = Some (Some 1).
Proof. vm_compute. repeat split. Qed.

