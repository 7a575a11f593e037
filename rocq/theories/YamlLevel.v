(** * Names of levels in documents (C56) *)
From Coq Require Import String List Arith ZArith NArith Bool Lia.
From Verif Require Import Base LevelModel EventModel SysModel SysSpec SysBase YamlModel YamlSpec YamlOutSpec YamlActSpec YamlFacts YamlGroups YamlDoc YamlTree YamlOut YamlTrace YamlActs YamlProps YamlConf YamlKeep.
Import ListNotations.
Local Open Scope string_scope.
Local Open Scope list_scope.

Section Level.
Variable L : lib.
Variable ord : list nat -> list nat.
Variable fuel : nat.
Variable dbg : bool.

Lemma level_parsed tg n t a : get n "level" = Some (NScalar t) ->
  exists new e w o, parse_level L tg n a = (mkApp (a_world a) (a_lines a ++ new) (a_err a || e) (a_warn a || w), Val o) /\
    (match o with
     | Some l => level_name t l /\ e = false
     | None => (forall l, ~ level_name t l) /\ e = true /\ w = false /\ new = ["E: Invalid level in " +++ tg +++ ": " +++ t]
     end).
Proof.
  intros E. unfold parse_level. rewrite E.
  assert (P : forall l, level_name t l -> exists new e w o,
     pure (Some l) a = (mkApp (a_world a) (a_lines a ++ new) (a_err a || e) (a_warn a || w), Val o) /\
     (match o with
     | Some l => level_name t l /\ e = false
     | None => (forall l, ~ level_name t l) /\ e = true /\ w = false /\ new = ["E: Invalid level in " +++ tg +++ ": " +++ t]
     end)).
  { intros l H. exists [], false, false, (Some l). split; [|auto]. rewrite app_nil_r, !orb_false_r. now destruct a. }
  assert (W : forall (b : bool) s l, level_name t l -> exists new e w o,
     ((if b then warning s else pure tt) ;;; pure (Some l)) a = (mkApp (a_world a) (a_lines a ++ new) (a_err a || e) (a_warn a || w), Val o) /\
     (match o with
     | Some l => level_name t l /\ e = false
     | None => (forall l, ~ level_name t l) /\ e = true /\ w = false /\ new = ["E: Invalid level in " +++ tg +++ ": " +++ t]
     end)).
  { intros [|] s l H; [|now apply P]. exists [s], false, true, (Some l). split; [reflexivity|auto]. }
  destruct (String.eqb_spec t "off") as [->|N1]; [apply P; constructor|].
  destruct (String.eqb_spec t "critical") as [->|N2]; [apply P; constructor|].
  destruct (String.eqb_spec t "crit") as [->|N3]; [apply P; constructor|]. cbn [orb].
  destruct (String.eqb_spec t "error") as [->|N4]; [apply P; constructor|].
  destruct (String.eqb_spec t "warning") as [->|N5]; [apply P; constructor|].
  destruct (String.eqb_spec t "warn") as [->|N6]; [apply P; constructor|]. cbn [orb].
  destruct (String.eqb_spec t "info") as [->|N7]; [apply P; constructor|].
  destruct (String.eqb_spec t "verbose") as [->|N8]; [apply P; constructor|].
  destruct (String.eqb_spec t "debug") as [->|N9]; [apply W; constructor|].
  destruct (String.eqb_spec t "deb") as [->|N10]; [apply W; constructor|]. cbn [orb].
  destruct (String.eqb_spec t "trace") as [->|N11]; [apply W; constructor|].
  exists ["E: Invalid level in " +++ tg +++ ": " +++ t], true, false, None. split; [reflexivity|]. split; auto.
  intros l H. inversion H; congruence.
Qed.

(** groups: [{name: a, level: t}] *)
Definition group_doc (t : string) : node :=
  NMap [(NScalar "groups", NSeq [NMap [(NScalar "name", NScalar "a"); (NScalar "level", NScalar t)]])].
(** sinks: [{name: k, type: console, level: t}]; groups: [] *)
Definition sink_doc (t : string) : node :=
  NMap [(NScalar "sinks", NSeq [NMap [(NScalar "name", NScalar "k"); (NScalar "type", NScalar "console"); (NScalar "level", NScalar t)]]);
        (NScalar "groups", NSeq [])].

Ltac go := repeat (unfold bind at 1, pure at 1; cbv beta iota zeta).

Lemma group_level_named t w : known w "*" -> find (gmap (w_sys w)) "a" = None ->
  (forall l, level_name t l -> exists w' r i X, yaml L ord fuel dbg None (FromContent (inl (group_doc t))) w = (w', Val r) /\ has_error r = false /\
     find (gmap (w_sys w')) "a" = Some i /\ nth_error (groups (w_sys w')) i = Some X /\ g_level X = l) /\
  ((forall l, ~ level_name t l) -> exists w', yaml L ord fuel dbg None (FromContent (inl (group_doc t))) w =
     (w', Exn "Level is not provided for root group") /\ w_sys w' = w_sys w).
Proof.
  intros K F.
  destruct (level_parsed ("group '" +++ ("'" +++ "a" +++ "'") +++ "'") (NMap [(NScalar "name", NScalar "a"); (NScalar "level", NScalar t)]) t (mkApp w [] false false) eq_refl)
    as (new & e & wn & o & E & H).
  assert (Y : yaml L ord fuel dbg None (FromContent (inl (group_doc t))) w =
    let '(w', r) := world_call ord fuel dbg (MakeGroup "a" None (Some "*") o) w in
    (w', match r with Val _ => Val (mkResult e wn (if e || wn then "I: Some problems are found in config:" :: new else []))
         | Exn x => Exn x | Stuck => Stuck end)).
  { unfold yaml, parse, group_doc. cbn -[parse_level do_call say find parse_group].
    unfold parse_group. cbn -[parse_level do_call say find check_keys append].
    go. rewrite E. cbn -[do_call say find append world_call]. unfold known in K. destruct (find (smap (w_sys w)) "*") as [k0|]; [|congruence].
    cbn -[do_call say find append world_call]. rewrite F. cbn -[do_call say find append world_call].
    unfold do_call, on_world. cbn -[find append world_call]. destruct (world_call ord fuel dbg (MakeGroup "a" None (Some "*") o) w) as [w' [u|x|]]; reflexivity. }
  match type of Y with ?z = _ => remember z as y eqn:EY; clear EY end. split.
  - intros l N. destruct o as [l'|]; [|destruct H as [H _]; now destruct (H l)]. destruct H as [N' ->].
    assert (l' = l) as -> by (destruct N; inversion N'; reflexivity).
    unfold world_call in Y. cbn [step] in Y. unfold construct, g_construct in Y. unfold known in K. destruct (find (smap (w_sys w)) "*") as [k0|]; [|congruence].
    cbn -[find append] in Y. rewrite Y. do 4 eexists. split; [reflexivity|]. split; [reflexivity|].
    cbn. rewrite SysBase.find_assign_same. split; [reflexivity|]. rewrite nth_error_app2, Nat.sub_diag by lia. split; reflexivity.
  - intros N. destruct o as [l'|]; [destruct H as [H _]; now destruct (N l')|]. clear H.
    unfold world_call in Y. cbn [step] in Y. unfold construct, g_construct in Y. unfold known in K. unfold group_what in Y. destruct (find (smap (w_sys w)) "*") as [k0|]; [|congruence].
    cbn -[find append] in Y. rewrite Y. eexists. split; reflexivity.
Qed.

Definition k_desc (l : level) : sink_desc := mkDesc "k" l (KConsole STDOUT false TI_NONE (mkSizes None None None None)).
Lemma sink_level_named t w : find (smap (w_sys w)) "k" = None -> (forall l, build L (k_desc l) = None) ->
  (forall l, level_name t l -> exists r, yaml L ord fuel dbg None (FromContent (inl (sink_doc t))) w = (world_with_sink w (k_desc l), Val r) /\ has_error r = false) /\
  ((forall l, ~ level_name t l) -> exists r, yaml L ord fuel dbg None (FromContent (inl (sink_doc t))) w = (world_with_sink w (k_desc TRACE), Val r) /\
     has_error r = true /\ In ("E: Invalid level in sink 'k': " +++ t) (message r)).
Proof.
  intros F B.
  destruct (level_parsed ("sink '" +++ "k" +++ "'") (NMap [(NScalar "name", NScalar "k"); (NScalar "type", NScalar "console"); (NScalar "level", NScalar t)]) t (mkApp w [] false false) eq_refl)
    as (new & e & wn & o & E & H).
  assert (Y : yaml L ord fuel dbg None (FromContent (inl (sink_doc t))) w =
    (world_with_sink w (k_desc (match o with Some l => l | None => TRACE end)),
     Val (mkResult e wn (if e || wn then "I: Some problems are found in config:" :: new else [])))).
  { unfold yaml, parse, sink_doc. cbn -[parse_level make_sink say find parse_sink].
    unfold parse_sink. cbn -[parse_level make_sink say find check_keys append parse_console].
    unfold parse_console, sink_level. cbn -[parse_level make_sink say find check_keys append].
    go. change ("k" =? "*") with false. change ("console" =? "console") with true. cbv beta iota.
    match goal with |- context [parse_sizes L true "k" ?n ?a] => replace (parse_sizes L true "k" n a) with (a, Val (mkSizes None None None None)) by reflexivity end. go. do 2 unfold bind at 1. cbv beta iota.
    rewrite E. cbn -[make_sink say find append]. unfold warn_existing, get_sink. go. cbn -[make_sink say find append]. rewrite F.
    cbn -[make_sink find append]. unfold make_sink, on_world, world_sink. cbn -[find append]. fold (k_desc (match o with Some l => l | None => TRACE end)). rewrite B.
    cbn. unfold world_with_sink, add_sink. cbn. reflexivity. }
  match type of Y with ?z = _ => remember z as y eqn:EY; clear EY end. split.
  - intros l N. destruct o as [l'|]; [|destruct H as [H _]; now destruct (H l)]. destruct H as [N' ->].
    assert (l' = l) as -> by (destruct N; inversion N'; reflexivity). rewrite Y. eexists. split; reflexivity.
  - intros N. destruct o as [l'|]; [destruct H as [H _]; now destruct (N l')|]. destruct H as (_ & -> & -> & ->). rewrite Y. eexists. split; [reflexivity|]. split; [reflexivity|].
    cbn. right. left. reflexivity.
Qed.
End Level.
