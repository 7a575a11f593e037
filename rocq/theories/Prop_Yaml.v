(** * Properties C56-C63, C69-C73: configuration documents and configurators

    [w]: the logging system with what has been called on it; [src]: where the document
    comes from; [known w "*"] holds of every system. *)
From Coq Require Import String List Arith ZArith NArith Bool.
From Verif Require Import Base LevelModel EventModel TreeModel SysModel SysSpec SysBase SysProps SysWitness
  YamlModel YamlSpec YamlOutSpec YamlActSpec YamlDoc YamlTree YamlOut YamlProps YamlConf YamlKeep YamlLevel YamlMore YamlWitness.
Import ListNotations.
Local Open Scope string_scope.
Local Open Scope list_scope.

(** The example: three sinks, one of them composite; groups a - (b, c - e) and d *)
Example Yaml_example :
  usual_lib ex_lib /\ refuses_huge_buffers ex_lib /\ doc_read ex_lib false w0 ex_doc ex_w1 ex_ds /\
  known w0 "*" /\ reachable idord true usual_sinks (w_sys w0).
Proof.
  split; [exact ex_usual_lib|]. split; [exact ex_refuses|]. split; [exact ex_doc_read|]. split; [discriminate|].
  apply reach_configure, reach_init.
Qed.

(** ** C56 *)
(** groups: [{name: a, level: t}] *)
Theorem C56_group_level :
  forall L ord fuel dbg t w, known w "*" -> find (gmap (w_sys w)) "a" = None ->
  (forall l, level_name t l -> exists w' r i X, yaml L ord fuel dbg None (FromContent (inl (group_doc t))) w = (w', Val r) /\ has_error r = false /\
     find (gmap (w_sys w')) "a" = Some i /\ nth_error (groups (w_sys w')) i = Some X /\ g_level X = l) /\
  ((forall l, ~ level_name t l) -> exists w', yaml L ord fuel dbg None (FromContent (inl (group_doc t))) w =
     (w', Exn "Level is not provided for root group") /\ w_sys w' = w_sys w).
Proof. exact group_level_named. Qed.
Print Assumptions C56_group_level.

(** sinks: [{name: k, type: console, level: t}]; groups: [] *)
Theorem C56_sink_level :
  forall L ord fuel dbg t w, find (smap (w_sys w)) "k" = None -> (forall l, build L (k_desc l) = None) ->
  (forall l, level_name t l -> exists r, yaml L ord fuel dbg None (FromContent (inl (sink_doc t))) w = (world_with_sink w (k_desc l), Val r) /\ has_error r = false) /\
  ((forall l, ~ level_name t l) -> exists r, yaml L ord fuel dbg None (FromContent (inl (sink_doc t))) w = (world_with_sink w (k_desc TRACE), Val r) /\
     has_error r = true /\ In ("E: Invalid level in sink 'k': " +++ t) (message r)).
Proof. exact sink_level_named. Qed.
Print Assumptions C56_sink_level.

(** Whatever the document and the outcome. *)
Theorem C56_never_ignore :
  forall L ord fuel dbg src w w' r, known w "*" -> yaml L ord fuel dbg None src w = (w', r) ->
  exists l, w_log w' = w_log w ++ l /\ Forall real_level l.
Proof. exact no_ignore. Qed.
Print Assumptions C56_never_ignore.

Example C56_nonvacuous :
  level_name "deb" DEBUG /\ (forall l, ~ level_name "IGNORE" l) /\ (forall l, ~ level_name "Info" l) /\
  (forall l, build ex_lib (k_desc l) = None) /\ find (smap (w_sys w0)) "k" = None /\ find (gmap (w_sys w0)) "a" = None /\
  snd (run_doc (group_doc "IGNORE") w0) = Exn "Level is not provided for root group".
Proof. repeat split; try (intros l H; inversion H); try constructor. Qed.

(** ** C57 *)
Theorem C57_reserved :
  forall L ord fuel dbg src w w' r, known w "*" -> yaml L ord fuel dbg None src w = (w', r) ->
  star_kept (w_sys w) (w_sys w').
Proof. exact reserved. Qed.
Print Assumptions C57_reserved.

Example C57_nonvacuous :
  run_doc (doc [console "*" []] [root "a" "info" []; root "*" "off" []]) w0 =
    (after (doc [] [root "a" "info" []]) w0,
     Val (mkResult true false ["I: Some problems are found in config:"; "E: Sink name '*' is reserved; Try to use some other else";
                               "E: Group name '*' is reserved; Try to use some other else"])).
Proof. vm_compute. reflexivity. Qed.

(** ** C58 *)
(** Unless an exception ends the configuration: the sizes that reach a sink. *)
Theorem C58_sane_partial :
  forall L ord fuel dbg src w w' r, usual_lib L -> refuses_huge_buffers L -> known w "*" -> yaml L ord fuel dbg None src w = (w', r) ->
  exists l, w_log w' = w_log w ++ l /\ forall d z, In (ASink d) l -> sizes_of d = Some z -> sane_sizes L z.
Proof. exact sizes_sane. Qed.
Print Assumptions C58_sane_partial.

Theorem C58_used :
  forall L d z, usual_lib L -> sizes_of d = Some z -> sane_sizes L z ->
  exists u, used_sizes (d_kind d) = Some u /\
    (4 <= u_capacity u)%N /\ (64 <= u_message u)%N /\ (2 * u_message u <= u_buffer u)%N /\
    (forall b, z_capacity z = Some b -> u_capacity u = b) /\ (forall b, z_message z = Some b -> u_message u = b) /\
    (forall b, z_buffer z = Some b -> (event_size L * 4 <= b)%N /\ u_buffer u = N.max b (2 * u_message u)) /\
    (forall b, z_latency z = Some b -> u_latency u = b).
Proof. exact used_sane. Qed.
Print Assumptions C58_used.

(** A number that is not accepted need not be reported and replaced by the default:
    a negative buffer size reaches the constructor as a huge one, and a text that is not a
    number ends the configuration, too. *)
Theorem C58_numbers_refuted :
  snd (run_doc negative_buffer w0) = Exn "cannot create std::vector larger than max_size()" /\
  snd (run_doc worded_buffer w0) = Exn "bad conversion" /\
  configured_by negative_buffer =
    (with_configured init, (Some (mkResult true false ["E: Configure is failed: cannot create std::vector larger than max_size(); Logging system is unworkable"]), RUnit)).
Proof. vm_compute. repeat split. Qed.
Print Assumptions C58_numbers_refuted.

Example C58_nonvacuous :
  exists w', run_doc (doc [console "k" [("capacity", S_ "3"); ("max_message_length", S_ "64"); ("latency", S_ "-1"); ("buffer", S_ "511")]] [root "a" "info" [("sink", S_ "k")]]) w0 =
    (w', Val (mkResult false true
      ["I: Some problems are found in config:"; "W: Wrong property 'capacity' value of sink 'k': 3";
       "W: Wrong property 'buffer' value of sink 'k': 511"; "W: Wrong property 'max_message_length' value of sink 'k': 64";
       "W: Wrong value of property 'latency' value of sink 'k': -1"])).
Proof. eexists. vm_compute. reflexivity. Qed.

(** ** C59 *)
(** What a document does, part by part, if the configurator returns: what is not used is
    reported, except the [silent] elements of the list of sinks, and refusals of
    setParentOfGroup. *)
Theorem C59_reported_partial :
  forall L, usual_lib L -> refuses_huge_buffers L -> forall ord fuel dbg n src w w' r, document src n ->
  yaml L ord fuel dbg None src w = (w', Val r) ->
  doc_done L (warns r) (fails r) ord fuel dbg w n w'.
Proof. exact any_document. Qed.
Print Assumptions C59_reported_partial.

Theorem C59_silent_refuted :
  snd (run_doc scalar_sink w0) = Val (mkResult false false []) /\ sinks (w_sys (after scalar_sink w0)) = ["*"] /\
  snd (run_doc nameless_sink w0) = Val (mkResult false false []) /\ sinks (w_sys (after nameless_sink w0)) = ["*"].
Proof. vm_compute. repeat split. Qed.
Print Assumptions C59_silent_refuted.

(** The last group is declared below c, but stays a root. *)
Theorem C59_parent_refuted :
  snd (run_doc refused_parent w0) = Val (mkResult false false []) /\
  exists A, group_at (w_sys (after refused_parent w0)) "a" = Some A /\ g_parent A = None.
Proof. split; [vm_compute; reflexivity|]. eexists. vm_compute. split; reflexivity. Qed.
Print Assumptions C59_parent_refuted.

(** ** C60 *)
Theorem C60_tree :
  forall L ord fuel dbg, usual_lib L -> refuses_huge_buffers L ->
  forall src n w w1 ds, document src n -> doc_read L false w n w1 ds -> known w "*" ->
  numbered (w_sys w) -> NoDup (map e_name (all_entries None ds)) ->
  (forall e, In e (all_entries None ds) -> find (gmap (w_sys w)) (e_name e) = None) ->
  exists w' gs, yaml L ord fuel dbg None src w = (w', Val no_problem) /\
    groups (w_sys w') = groups (w_sys w) ++ gs /\ map g_name gs = map e_name (all_entries None ds) /\
    loggers (w_sys w') = loggers (w_sys w) /\ sinks (w_sys w') = sinks (w_sys w1) /\ smap (w_sys w') = smap (w_sys w1) /\
    (forall m, m <> "*" -> ~ In m (map e_name (all_entries None ds)) -> find (gmap (w_sys w')) m = find (gmap (w_sys w)) m) /\
    find (gmap (w_sys w')) "*" = fallback_after (w_sys w) (w_sys w') (all_entries None ds) /\
    Forall (entry_holds (w_sys w')) (all_entries None ds).
Proof. exact tree_made. Qed.
Print Assumptions C60_tree.

Example C60_nonvacuous :
  NoDup (map e_name (all_entries None ex_ds)) /\
  (forall e, In e (all_entries None ex_ds) -> find (gmap (w_sys w0)) (e_name e) = None) /\ numbered (w_sys w0) /\
  snd (run_doc ex_doc w0) = Val no_problem /\
  map (fun n => group_at (w_sys (after ex_doc w0)) n) ["a"; "b"; "c"; "e"; "d"; "*"] =
    [Some (mkGroup "a" None (Some 3) false INFO false); Some (mkGroup "b" (Some 0) (Some 3) false INFO false);
     Some (mkGroup "c" (Some 0) (Some 2) true DEBUG true); Some (mkGroup "e" (Some 2) (Some 2) false DEBUG false);
     Some (mkGroup "d" None (Some 0) false OFF false); Some (mkGroup "d" None (Some 0) false OFF false)].
Proof.
  split; [|split; [|split; [|vm_compute; split; reflexivity]]].
  - cbn. repeat constructor; cbn; intros H; repeat (destruct H as [H|H]; [discriminate|]); exact H.
  - intros e _. reflexivity.
  - split; [discriminate|]. intros n i. cbn [w0 w_sys with_configured init smap find sinks length].
    destruct (String.eqb "*" n); [|discriminate]. intros H. inversion H. constructor.
Qed.

(** ** C61 *)
Theorem C61_accumulates :
  forall L ord fuel dbg (c : configurator) src w w1 r1, c w = (w1, Val r1) ->
  yaml L ord fuel dbg (Some c) src w =
    let '(w2, r2) := yaml L ord fuel dbg None src w1 in
    (w2, match r2 with
         | Val r2 => Val (mkResult (has_error r1 || has_error r2) (has_warning r1 || has_warning r2) (message r1 ++ message r2))
         | Exn what => Exn what
         | Stuck => Stuck
         end).
Proof. exact yaml_previous. Qed.
Print Assumptions C61_accumulates.

Theorem C61_previous_fails :
  forall L ord fuel dbg (c : configurator) src w w1 r1, c w = (w1, r1) -> (forall r, r1 <> Val r) ->
  yaml L ord fuel dbg (Some c) src w = (w1, r1).
Proof. exact yaml_previous_fails. Qed.
Print Assumptions C61_previous_fails.

Example C61_nonvacuous :
  snd (yaml ex_lib idord 100 true (Some (run_doc (sink_doc "high"))) (FromContent (inl (doc [] [root "a" "info" [("zzz", S_ "")]]))) w0) =
    Val (mkResult true true ["I: Some problems are found in config:"; "E: Invalid level in sink 'k': high";
                             "I: Some problems are found in config:"; "W: Unknown property of group 'a': zzz"]).
Proof. vm_compute. reflexivity. Qed.

(** ** C62 *)
(** An own level, an own sink and the parent stay unless the document says something about
    them; an inherited level and sink stay inherited.  Levels and sinks of roots are not
    their own: see the witnesses. *)
Theorem C62_keeps_partial :
  forall L ord fuel dbg, usual_lib L -> refuses_huge_buffers L -> rearranges ord ->
  forall src doc w w' r n x X,
  document src doc -> yaml L ord fuel dbg None src w = (w', Val r) -> ~ nested None (top_groups doc) ->
  reachable ord dbg usual_sinks (w_sys w) -> tidy (w_sys w) -> enough (w_sys w) + 8 * doc_size src <= fuel ->
  n <> "*" -> group_named (w_sys w) n x -> nth_error (groups (w_sys w)) x = Some X ->
  exists X', nth_error (groups (w_sys w')) x = Some X' /\ group_named (w_sys w') n x /\ g_name X' = g_name X /\
    (says_no_level doc n -> g_lov X' = g_lov X /\ (g_lov X = true -> g_level X' = g_level X)) /\
    (says_no_sink doc n -> not_root doc n -> g_sov X' = g_sov X /\ (g_sov X = true -> g_sink X' = g_sink X)) /\
    (not_inner doc n -> g_parent X' = g_parent X).
Proof. exact yaml_keeps. Qed.
Print Assumptions C62_keeps_partial.

(** A root redefined without a sink loses its sink; a root redefined below another group
    loses its level. *)
Theorem C62_root_refuted :
  snd (run_doc second_doc (after first_doc w0)) = Val no_problem /\
  (exists A, group_at (w_sys (after first_doc w0)) "a" = Some A /\ g_sink A = Some 1) /\
  (exists A, group_at (w_sys (after second_doc (after first_doc w0))) "a" = Some A /\ g_sink A = Some 0) /\
  snd (run_doc third_doc (after first_doc w0)) = Val no_problem /\
  (exists A, group_at (w_sys (after first_doc w0)) "a" = Some A /\ g_level A = INFO) /\
  (exists A, group_at (w_sys (after third_doc (after first_doc w0))) "a" = Some A /\ g_level A = OFF).
Proof. repeat split; try (eexists; split); vm_compute; reflexivity. Qed.
Print Assumptions C62_root_refuted.

(** A second document about a and e: c keeps its level and sink, b inherits. *)
Example C62_nonvacuous :
  let second := doc [] [root "a" "error" [("sink", S_ "k1"); children [inner "e" []]]] in
  let s := w_sys (after ex_doc w0) in let s' := w_sys (after second (after ex_doc w0)) in
  snd (run_doc second (after ex_doc w0)) = Val no_problem /\
  group_at s "c" = Some (mkGroup "c" (Some 0) (Some 2) true DEBUG true) /\ group_at s' "c" = group_at s "c" /\
  group_at s' "b" = Some (mkGroup "b" (Some 0) (Some 1) false ERROR false) /\
  group_at s' "e" = Some (mkGroup "e" (Some 0) (Some 1) false ERROR false) /\ tidy s /\ reachable idord true usual_sinks s /\
  ~ nested None (top_groups second).
Proof.
  cbv zeta. do 5 (split; [vm_compute; reflexivity|]).
  assert (H := configure_layered ex_lib idord 1000 true idord_ok init [FromContent (inl ex_doc)] (yaml ex_lib idord 1000 true None (FromContent (inl ex_doc))) false (reach_init _ _ _)).
  assert (Hn : ~ nested None (top_groups ex_doc)).
  { intros N. inversion N as [|p n l t I G B]; subst. destruct I as [<-|[<-|[]]]; inversion G; subst.
    - inversion B as [p n l I2 G2|p n l t I2 G2 B2]; subst; destruct I2 as [<-|[<-|[]]]; inversion G2; subst.
      + inversion B2 as [p n l I3 G3|p n l t I3 G3 B3]; subst; destruct I3.
      + inversion B2 as [p n l I3 G3|p n l t I3 G3 B3]; subst; destruct I3 as [<-|[]]; inversion G3; subst.
        inversion B3 as [p n l I4 G4|p n l t I4 G4 B4]; subst; destruct I4.
    - inversion B as [p n l I2 G2|p n l t I2 G2 B2]; subst; destruct I2. }
  assert (E : layered ex_lib idord 1000 true [FromContent (inl ex_doc)] = Some (yaml ex_lib idord 1000 true None (FromContent (inl ex_doc)))) by reflexivity.
  assert (T : tidy init) by (split; intros; discriminate).
  specialize (H T eq_refl E).
  assert (F : Forall not_nested [FromContent (inl ex_doc)]).
  { constructor; [|constructor]. intros n [D|[q D]]; inversion D; subst. exact Hn. }
  specialize (H F ltac:(vm_compute; repeat constructor)).
  destruct (yaml ex_lib idord 1000 true None (FromContent (inl ex_doc)) {| w_sys := with_configured init; w_busy := false; w_log := [] |}) as [w' r] eqn:Y.
  assert (W : w_sys w' = w_sys (after ex_doc w0)).
  { change w' with (fst (w', r)). rewrite <- Y. vm_compute. reflexivity. }
  rewrite <- W. destruct H as (R & Ti & _). split; [exact Ti|]. split; [exact R|].
  intros N. inversion N as [|p n l t I G B]; subst. destruct I as [<-|[]]; inversion G; subst.
  inversion B as [p n l I2 G2|p n l t I2 G2 B2]; subst; destruct I2 as [<-|[]]; inversion G2; subst.
  inversion B2 as [p n l I3 G3|p n l t I3 G3 B3]; subst; destruct I3.
Qed.

(** ** C63 *)
(** Members were made before, so the sinks form trees; which sinks are members and what is
    reported about the others: C59_reported_partial, [members_from]. *)
Theorem C63_well_founded :
  forall L ord fuel dbg src w w' r, known w "*" -> numbered (w_sys w) -> yaml L ord fuel dbg None src w = (w', r) ->
  exists l, w_log w' = w_log w ++ l /\ sinks (w_sys w') = sinks (w_sys w) ++ map d_name (sinks_of l) /\
    (forall j d ks, nth_error (sinks_of l) j = Some d -> d_kind d = KMulti ks -> Forall (fun k => k < length (sinks (w_sys w)) + j) ks) /\
    forall base, exists t : nat -> tree, (forall k, k < length (sinks (w_sys w)) -> t k = base k) /\ forms t (length (sinks (w_sys w))) (sinks_of l).
Proof. exact composites. Qed.
Print Assumptions C63_well_founded.

(** m is a composite of k1 and k2; zzz is reported; a composite need not have members. *)
Example C63_nonvacuous :
  sinks_of (w_log (after ex_doc w0)) = [ex_d1; ex_d2; ex_d3] /\
  run_doc empty_multisink w0 = (after empty_multisink w0, Val no_problem) /\
  sinks_of (w_log (after empty_multisink w0)) = [mkDesc "m" TRACE (KMulti [])] /\
  snd (run_doc (doc [M_ [("name", S_ "m"); ("type", S_ "multisink"); ("sinks", NSeq [S_ "zzz"; S_ "m"; S_ "*"])]] []) w0) =
    Val (mkResult false true ["I: Some problems are found in config:"; "E: Sink 'zzz' must be defined before sink 'm'";
                              "E: Sink 'm' must be defined before sink 'm'"]).
Proof. vm_compute. repeat split. Qed.

(** ** C69 *)
Theorem C69_clean_iff_partial :
  forall L, usual_lib L -> refuses_huge_buffers L -> forall ord fuel dbg n src w w', known w "*" -> document src n ->
  (exists r, yaml L ord fuel dbg None src w = (w', Val r) /\ has_error r = false /\ has_warning r = false) <->
  (exists w1 ds, doc_read L true w n w1 ds /\ calls_run ord fuel dbg (doc_calls w1 ds) w1 = (w', Val tt)).
Proof. exact clean_iff. Qed.
Print Assumptions C69_clean_iff_partial.

Theorem C69_applied :
  forall L, usual_lib L -> refuses_huge_buffers L -> forall ord fuel dbg n src w w1 ds, known w "*" -> document src n ->
  doc_read L false w n w1 ds ->
  yaml L ord fuel dbg None src w =
    (fst (calls_run ord fuel dbg (doc_calls w1 ds) w1),
     match snd (calls_run ord fuel dbg (doc_calls w1 ds) w1) with
     | Val _ => Val no_problem | Exn e => Exn e | Stuck => Stuck end).
Proof. exact applied_literally. Qed.
Print Assumptions C69_applied.

Theorem C69_silent_refuted :
  snd (run_doc scalar_sink w0) = Val no_problem /\
  forall w1 ds, ~ doc_read ex_lib false w0 scalar_sink w1 ds.
Proof.
  split; [vm_compute; reflexivity|]. intros w1 ds (_ & [[H _]|(l & H & S)] & _); inversion H; subst.
  inversion S as [|w n d l w' R]; subst. destruct R as (R & _). discriminate R.
Qed.
Print Assumptions C69_silent_refuted.

(** ** C70 *)
Theorem C70_fallback :
  forall L ord fuel dbg lv color w, constructible L (w_busy w) (fallback_desc lv color) ->
  exists w' G, fallback L ord fuel dbg lv color w = (w', Val (mkResult false true (fallback_message lv color))) /\
    groups (w_sys w') = groups (w_sys w) ++ [G] /\
    G = mkGroup "*" None (Some (length (sinks (w_sys w)))) false lv false /\
    sinks (w_sys w') = sinks (w_sys w) ++ ["console"] /\
    sink_named (w_sys w') "console" (length (sinks (w_sys w))) /\ group_named (w_sys w') "*" (length (groups (w_sys w))) /\
    loggers (w_sys w') = loggers (w_sys w) /\ lmap (w_sys w') = lmap (w_sys w) /\ configured (w_sys w') = configured (w_sys w) /\
    (forall n, n <> "*" -> find (gmap (w_sys w')) n = find (gmap (w_sys w)) n) /\
    (forall n, n <> "console" -> find (smap (w_sys w')) n = find (smap (w_sys w)) n) /\
    w_busy w' = w_busy w /\
    w_log w' = w_log w ++ [ASink (fallback_desc lv color); ACall (MakeGroup "*" None (Some "console") (Some lv))].
Proof. exact fallback_makes. Qed.
Print Assumptions C70_fallback.

Theorem C70_throws :
  forall L ord fuel dbg lv color w what, build L (fallback_desc lv color) = Some what ->
  fallback L ord fuel dbg lv color w = (w, Exn what).
Proof. exact fallback_throws. Qed.
Print Assumptions C70_throws.

Theorem C70_configure :
  forall L ord fuel dbg, rearranges ord -> forall s lv color busy,
  reachable ord dbg usual_sinks s -> configured s = false -> gmap s = [] ->
  constructible L busy (fallback_desc lv color) -> enough s + 2 <= fuel ->
  exists s', configure ord fuel dbg s (script_of (fallback L ord fuel dbg lv color) busy s) =
      (s', (Some (mkResult false true (fallback_message lv color)), RUnit)) /\
    reachable ord dbg usual_sinks s' /\
    forall x g l, g <> "*" -> (forall i, ~ live_named s' x i) ->
      exists s'' K, step ord (enough s') dbg s' (GetLogger x g None l) = (s'', RLogger (length (loggers s'))) /\
        added s' s'' K /\ l_name K = x /\ l_alive K = true /\ l_level K = (match l with Some l => l | None => lv end) /\
        sink_named s'' "console" (match l_sink K with Some k => k | None => 0 end) /\ l_sink K <> None.
Proof. exact configure_fallback. Qed.
Print Assumptions C70_configure.

Example C70_nonvacuous :
  constructible ex_lib false (fallback_desc INFO true) /\ gmap init = [] /\
  fallback_message INFO true = ["I: Using fallback configurator for logger system";
    "I: All logs will be write into color standard output with 'Info' level"].
Proof. split; [split; [reflexivity|intros [H _]; discriminate]|]. split; vm_compute; reflexivity. Qed.

(** ** C71 *)
(** An exception drops what was found before: the capacity and the undefined sink are not
    reported. *)
Theorem C71_dropped_refuted :
  snd (configured_by two_problems) =
    (Some (mkResult true false ["E: Configure is failed: Level is not provided for root group; Logging system is unworkable"]), RUnit).
Proof. vm_compute. reflexivity. Qed.
Print Assumptions C71_dropped_refuted.

(** ** C72 *)
(** After configure() with any chain of documents in which no group is listed inside
    itself, no group is its own ancestor, and the calls on the system return. *)
Theorem C72_no_cycle_partial :
  forall L ord fuel dbg, rearranges ord -> forall s srcs c busy,
  reachable ord dbg usual_sinks s -> tidy s -> configured s = false ->
  layered L ord fuel dbg srcs = Some c -> Forall not_nested srcs -> enough s + 8 * total_size srcs <= fuel ->
  let s' := fst (configure ord fuel dbg s (script_of c busy s)) in
  acyclic s' /\ forall f call, enough s' <= f -> usual s' call -> snd (step ord f dbg s' call) <> RHang.
Proof. exact configure_acyclic. Qed.
Print Assumptions C72_no_cycle_partial.

(** A group listed as its own child becomes its own parent without a message; a later
    document, or setSinkOfGroup, for another group then does not return. *)
Theorem C72_own_child_refuted :
  snd (run_doc own_child w0) = Val no_problem /\ w_sys (after own_child w0) = own_child_sys /\
  ancestor own_child_sys 0 0 /\ group_named own_child_sys "a" 0 /\
  (forall ord fuel dbg, snd (step ord fuel dbg own_child_sys (SetSinkOfGroup "b" "*")) = RHang) /\
  forall ord fuel dbg, snd (yaml ex_lib ord fuel dbg None (FromContent (inl again_b)) (after own_child w0)) = Stuck.
Proof.
  split; [vm_compute; reflexivity|]. split; [vm_compute; reflexivity|]. split; [eapply anc_parent; reflexivity|].
  split; [reflexivity|]. exact (conj own_child_hangs own_child_stuck).
Qed.
Print Assumptions C72_own_child_refuted.

(** ** C73 *)
Theorem C73_configure :
  forall L ord fuel dbg, rearranges ord -> forall s srcs c busy,
  reachable ord dbg usual_sinks s -> tidy s -> configured s = false ->
  layered L ord fuel dbg srcs = Some c -> Forall not_nested srcs -> enough s + 8 * total_size srcs <= fuel ->
  let '(w', r) := c (mkWorld (with_configured s) busy []) in
  reachable ord dbg usual_sinks (w_sys w') /\ tidy (w_sys w') /\
  exists out, configure ord fuel dbg s (script_of c busy s) = (w_sys w', (Some out, RUnit)) /\ completed (w_sys w') r out.
Proof. exact configure_layered. Qed.
Print Assumptions C73_configure.

(** Two documents, the second on top of the first; one that defines no group; a scalar. *)
Example C73_nonvacuous :
  reachable idord true usual_sinks init /\ tidy init /\ configured init = false /\
  Forall not_nested [FromContent (inl first_doc); FromContent (inl second_doc)] /\
  Forall not_nested [FromContent (inl (doc [] []))] /\
  (forall c, layered ex_lib idord 1000 true [FromContent (inl first_doc); FromContent (inl second_doc)] = Some c ->
    snd (configure idord 1000 true init (script_of c false init)) =
      (Some (mkResult false true ["W: Group 'a' has undefined sink; Sink to nowhere will be used"]), RUnit)) /\
  snd (configured_by (doc [] [])) =
    (Some (mkResult true false ["E: No one group is defined; Logging system is unworkable"]), RUnit) /\
  snd (configured_by (S_ "x")) =
    (Some (mkResult true false ["I: Some problems are found in config:"; "E: Config is not YAML map"; "E: No one group is defined; Logging system is unworkable"]), RUnit).
Proof.
  split; [apply reach_init|]. split; [split; [discriminate|discriminate]|]. split; [reflexivity|].
  split; [|split; [|split; [intros c E; inversion E; subst; vm_compute; reflexivity|split; vm_compute; reflexivity]]].
  - assert (NN : forall d, d = first_doc \/ d = second_doc -> not_nested (FromContent (inl d))).
    { intros d Hd n [D|[q D]]; inversion D; subst. intros N. inversion N as [|p m l t I G B]; subst. destruct Hd as [-> | ->].
      - destruct I as [<-|[<-|[]]]; inversion B as [p m l I2 G2|p m l t' I2 G2 B2]; subst; destruct I2.
      - destruct I as [<-|[]]; inversion B as [p m l I2 G2|p m l t' I2 G2 B2]; subst; destruct I2. }
    constructor; [|constructor; [|constructor]]; apply NN; auto.
  - constructor; [|constructor]. intros n [D|[q D]]; inversion D; subst. intros N. inversion N as [|p m l t I G B]; subst. destruct I.
Qed.
