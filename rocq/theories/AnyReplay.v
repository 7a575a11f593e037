(** * Proofs for C126: what configure() leaves *)
From Coq Require Import Ascii String List Arith Bool Lia.
From Verif Require Import Base LevelModel EventModel SysModel SysSpec YamlModel YamlSpec YamlActSpec YamlFacts YamlGroups YamlDoc YamlTrace YamlActs YamlProps YamlConf DeploySpec AnySpec.
Import ListNotations.
Local Open Scope string_scope.
Local Open Scope list_scope.

Section Replay.
Variable L : lib.
Variable ord : list nat -> list nat.
Variable fuel : nat.
Variable dbg : bool.
Notation step := (step ord fuel dbg).
Notation run := (run ord fuel dbg).

Definition halts (o : out) : bool := match o with RHang | RUB => true | _ => false end.
(** What was done is what the calls in the log do, one after the other. *)
Definition replayed {A} (w w' : world) (r : res A) : Prop :=
  exists l os, w_log w' = w_log w ++ l /\ run (w_sys w) (map call_of l) = (w_sys w', os) /\
    (existsb halts os = true -> r = Stuck).

Lemma run_app s l1 : forall s1 o1, run s l1 = (s1, o1) -> existsb halts o1 = false -> forall l2 s2 o2, run s1 l2 = (s2, o2) -> run s (l1 ++ l2) = (s2, o1 ++ o2).
Proof.
  revert s. induction l1 as [|c l1 IH]; intros s s1 o1 R H l2 s2 o2 R2; cbn [SysModel.run Datatypes.app] in *.
  - inversion R; subst. exact R2.
  - destruct (step s c) as [s' o] eqn:E. destruct o; try (inversion R; subst; discriminate);
    destruct (run s' l1) as [s3 o3] eqn:E3; inversion R; subst; cbn [existsb halts orb] in H; rewrite (IH _ _ _ E3 H _ _ _ R2); reflexivity.
Qed.

Lemma replayed_trans {A B} w w1 w2 (x : A) (r : res B) : replayed w w1 (Val x) -> replayed w1 w2 r -> replayed w w2 r.
Proof.
  intros (l1 & o1 & A1 & B1 & C1) (l2 & o2 & A2 & B2 & C2).
  assert (H : existsb halts o1 = false) by (destruct (existsb halts o1); [specialize (C1 eq_refl); discriminate|reflexivity]).
  exists (l1 ++ l2), (o1 ++ o2). split; [rewrite A2, A1, app_assoc; reflexivity|]. split.
  - rewrite map_app. exact (run_app _ _ _ _ B1 H _ _ _ B2).
  - rewrite existsb_app, H. exact C2.
Qed.
Lemma replayed_same {A} w (r : res A) : replayed w w r.
Proof. exists [], []. rewrite app_nil_r. split; [reflexivity|]. split; [reflexivity|discriminate]. Qed.
Lemma replayed_other {A B} w w' (r : res A) (r' : res B) : (r = Stuck -> r' = Stuck) -> replayed w w' r -> replayed w w' r'.
Proof. intros H (l & os & A1 & B1 & C1). exists l, os. auto. Qed.

Lemma replayed_call c w w' r : world_call ord fuel dbg c w = (w', r) -> replayed w w' r.
Proof.
  unfold world_call. destruct (step (w_sys w) c) as [s' o] eqn:E. intros H. exists [ACall c], [o]. inversion H; subst; clear H. cbn [w_log w_sys].
  split; [reflexivity|]. cbn [map call_of SysModel.run]. rewrite E. split; [destruct o; reflexivity|]. cbn [existsb]. rewrite orb_false_r. destruct o; cbn; intros; congruence.
Qed.
Lemma replayed_sink d w w' r : world_sink L ord fuel dbg d w = (w', r) -> replayed w w' r.
Proof.
  unfold world_sink. destruct (build L d); [intros H; inversion H; subst; apply replayed_same|].
  destruct (_ && _); [intros H; inversion H; subst; apply replayed_same|].
  destruct (step (w_sys w) (MakeSink (d_name d))) as [s' o] eqn:E. intros H. inversion H; subst; clear H. exists [ASink d], [o]. cbn [w_log w_sys].
  split; [reflexivity|]. cbn [map call_of SysModel.run]. rewrite E. cbn [SysModel.step] in E. inversion E; subst. split; [reflexivity|discriminate].
Qed.

Definition replays {A} (m : M A) : Prop := forall a a' r, m a = (a', r) -> replayed (a_world a) (a_world a') r.
Lemma replays_local {A} (m : M A) : local m -> replays m.
Proof. intros H a a' r E. destruct (H _ _ _ E) as [-> _]. apply replayed_same. Qed.
Lemma replays_bind {A B} (m : M A) (f : A -> M B) : replays m -> (forall x, replays (f x)) -> replays (bind m f).
Proof.
  intros Hm Hf a a' r E. unfold bind in E. destruct (m a) as [a1 [x|e|]] eqn:E1; apply Hm in E1.
  - apply Hf in E. exact (replayed_trans _ _ _ _ _ E1 E).
  - inversion E; subst. eapply replayed_other; [|exact E1]. discriminate.
  - inversion E; subst. eapply replayed_other; [|exact E1]. auto.
Qed.
Lemma replays_call c : replays (do_call ord fuel dbg c).
Proof.
  intros a a' r E. unfold do_call, on_world in E. destruct (world_call ord fuel dbg c (a_world a)) as [w' r'] eqn:W. inversion E; subst. exact (replayed_call _ _ _ _ W).
Qed.
Lemma replays_make d : replays (make_sink L ord fuel dbg d).
Proof.
  intros a a' r E. unfold make_sink, on_world in E. destruct (world_sink L ord fuel dbg d (a_world a)) as [w' r'] eqn:W. inversion E; subst. exact (replayed_sink _ _ _ _ W).
Qed.
Lemma replays_step {A B} (m : M A) (f : A -> M B) : local m -> (forall x, replays (f x)) -> replays (bind m f).
Proof. intros H1 H2. apply replays_bind; auto. now apply replays_local. Qed.
Lemma replays_say e w l : replays (say e w l).
Proof. apply replays_local, local_say. Qed.
Lemma replays_pure {A} (x : A) : replays (pure x).
Proof. apply replays_local, local_pure. Qed.

Ltac rep := repeat (match goal with
  | |- replays (do_call _ _ _ _) => apply replays_call
  | |- replays (make_sink _ _ _ _ _) => apply replays_make
  | |- replays (pure _) => apply replays_pure
  | |- replays (say _ _ _) => apply replays_say
  | |- replays (bind _ _) => first [apply replays_step; [solve [mono]|intros ?] | apply replays_bind; [|intros ?]]
  | |- replays (match ?x with _ => _ end) => destruct x
  | |- replays (if ?x then _ else _) => destruct x
  end).

Lemma replays_parse_sink i n : replays (parse_sink L ord fuel dbg i n).
Proof. unfold parse_sink, parse_file, parse_syslog, parse_console, parse_with, parse_multisink, error, warning. rep. Qed.
Lemma replays_sink_list l : forall i, replays (parse_sink_list L ord fuel dbg i l).
Proof.
  induction l as [|n l IH]; intros i; cbn [parse_sink_list]; [apply replays_pure|].
  apply replays_bind; [|auto]. destruct n; try apply replays_say. apply replays_parse_sink.
Qed.
Lemma replays_group i n p : replays (parse_group L ord fuel dbg i n p).
Proof.
  unfold parse_group.
  apply replays_step; [mono|intros nm]. cbv zeta.
  do 7 (apply replays_step; [solve [mono]|intros ?]).
  destruct nm as [name|]; [|unfold warning; rep].
  match goal with |- replays (match ?o with Some _ => _ | None => _ end) => destruct o; [|unfold warning; rep] end.
  match goal with |- replays (if ?b then _ else _) => destruct b; [unfold warning; rep|] end.
  destruct (name =? "*"); [unfold error; rep|].
  apply replays_step; [mono|intros g].
  apply replays_bind; [|intros _]; rep.
Qed.
Lemma replays_group_list ch : (forall c t, replays (ch (NSeq c) (Some t))) ->
  forall l i p, replays (parse_group_list L ord fuel dbg ch i l p).
Proof.
  intros CH. induction l as [|n l IH]; intros i p; cbn [parse_group_list]; [apply replays_pure|].
  apply replays_bind; [|intros _; apply IH]. destruct n as [|t|x|x]; try apply replays_say.
  apply replays_bind; [apply replays_group|]. intros o. destruct o as [t|]; [|apply replays_pure].
  destruct (get (NMap x) "children") as [[| |c|]|]; try apply replays_pure; try apply replays_say. apply CH.
Qed.
Lemma replays_groups f : forall n p, replays (parse_groups L ord fuel dbg f n p).
Proof.
  induction f as [|f IH]; intros n p; cbn [parse_groups].
  - intros a a' r E. inversion E; subst. apply replayed_same.
  - destruct n; try apply replays_say. apply replays_group_list. intros c t. apply IH.
Qed.
Lemma replays_parse n : replays (parse L ord fuel dbg n).
Proof.
  unfold parse, error. destruct n as [|t|x|l]; try apply replays_say.
  do 2 (apply replays_step; [solve [mono]|intros ?]).
  apply replays_bind; [|intros _].
  - destruct (get (NMap l) "sinks") as [v|]; [|rep]. unfold parse_sinks, error. destruct v; try apply replays_say. apply replays_sink_list.
  - destruct (get (NMap l) "groups") as [v|]; [|rep]. apply replays_groups.
Qed.

Lemma replayed_yaml src w w' r : yaml L ord fuel dbg None src w = (w', r) -> replayed w w' r.
Proof.
  intros H. destruct (doc_cases src) as [[n D]|[D _]].
  - rewrite (yaml_doc L ord fuel dbg src n w D) in H. destruct (parse L ord fuel dbg n (mkApp w [] false false)) as [a r0] eqn:P.
    apply replays_parse in P. inversion H; subst. eapply replayed_other; [|exact P]. destruct r0; congruence.
  - apply yaml_nodoc in H as [-> NS]; auto. apply replayed_same.
Qed.
Lemma replayed_fallback lv color w w' r : fallback L ord fuel dbg lv color w = (w', r) -> replayed w w' r.
Proof.
  unfold fallback. destruct (world_sink L ord fuel dbg _ w) as [w1 [x|e|]] eqn:E1; apply replayed_sink in E1.
  - destruct (world_call ord fuel dbg _ w1) as [w2 r2] eqn:E2. apply replayed_call in E2. intros H.
    apply (replayed_trans _ _ _ x r E1). destruct r2; inversion H; subst; (eapply replayed_other; [|exact E2]); auto; discriminate.
  - intros H. inversion H; subst. eapply replayed_other; [|exact E1]; discriminate.
  - intros H. inversion H; subst. eapply replayed_other; [|exact E1]; auto.
Qed.
Theorem replayed_by c : configures L ord fuel dbg c -> forall w w' r, c w = (w', r) -> replayed w w' r.
Proof.
  induction 1 as [lv color|src|c src C IH]; intros w w' r H.
  - exact (replayed_fallback lv color w w' r H).
  - exact (replayed_yaml src w w' r H).
  - destruct (c w) as [w1 r1] eqn:E1. pose proof (IH w w1 r1 E1) as R1. destruct r1 as [r1|e|].
    + rewrite (yaml_previous L ord fuel dbg c src w w1 r1 E1) in H. destruct (yaml L ord fuel dbg None src w1) as [w2 r2] eqn:E2.
      apply replayed_yaml in E2. inversion H; subst. apply (replayed_trans _ _ _ r1 _ R1). eapply replayed_other; [|exact E2]. intros ->. reflexivity.
    + rewrite (yaml_previous_fails L ord fuel dbg c src w w1 _ E1) in H by discriminate. inversion H; subst. exact R1.
    + rewrite (yaml_previous_fails L ord fuel dbg c src w w1 _ E1) in H by discriminate. inversion H; subst. exact R1.
Qed.

(** configure(), from the system as it is created. *)
Theorem configure_leaves c busy w' r : configures L ord fuel dbg c -> c (before_configure busy) = (w', r) ->
  exists result o, configure ord fuel dbg init (script_of c busy init) = (w_sys w', (result, o)) /\
    (r <> Stuck -> o <> RHang).
Proof.
  intros C E. destruct (replayed_by c C _ _ _ E) as (l & os & A & B & S). unfold configure, script_of.
  change (configured init) with false. cbv iota. fold (before_configure busy). rewrite E. cbn [sc_calls sc_end].
  cbn [before_configure w_log List.app] in A. rewrite A. cbn [before_configure w_sys] in B. rewrite B.
  destruct (existsb _ os) eqn:E1 at 1.
  { eexists _, _. split; [reflexivity|]. intros NS. exfalso. apply NS, S. apply existsb_exists in E1 as (x & X1 & X2). apply existsb_exists. exists x. split; [exact X1|]. now destruct x. }
  destruct (existsb _ os) eqn:E2 at 1; [eexists _, _; split; [reflexivity|discriminate]|].
  destruct r as [r|what|]; [|eexists _, _; split; [reflexivity|discriminate]..].
  destruct (gmap (w_sys w')) eqn:EG; [eexists _, _; split; [reflexivity|discriminate]|].
  match goal with |- context [match ?x with Some _ => _ | None => _ end] => destruct x end; eexists _, _; (split; [reflexivity|discriminate]).
Qed.
End Replay.
