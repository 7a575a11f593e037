(** * configure() with documents (C73) *)
From Coq Require Import String List Arith ZArith NArith Bool Lia.
From Verif Require Import Base LevelModel EventModel TreeModel SysModel SysSpec SysBase SysInv SysSteps SysFrame SysFuel SysProps SysMore
  YamlModel YamlSpec YamlOutSpec YamlActSpec YamlFacts YamlGroups YamlDoc YamlTree YamlTrace YamlActs YamlProps.
Import ListNotations.
Local Open Scope string_scope.
Local Open Scope list_scope.

Section Conf.
Variable L : lib.
Variable ord : list nat -> list nat.
Variable fuel : nat.
Variable dbg : bool.
Notation yaml := (yaml L ord fuel dbg).

(** A weaker promise about the documents gives weaker actions. *)
Lemma sane_call_weaken (p q : Prop) w c : (q -> p) -> sane_call p w c -> sane_call q w c.
Proof. intros H. destruct c; cbn; tauto. Qed.
Lemma acts_weaken (p q : Prop) : (q -> p) -> forall w l w', acts L p ord fuel dbg w l w' -> acts L q ord fuel dbg w l w'.
Proof.
  intros H. induction 1 as [|w c l w' S A IH|w d l w' S A IH]; [apply acts_nil| |].
  - apply acts_call; auto. eapply sane_call_weaken; eauto.
  - apply acts_sink; auto.
Qed.
Lemma hangs_weaken (p q : Prop) w l : (q -> p) -> hangs L p ord fuel dbg w l -> hangs L q ord fuel dbg w l.
Proof.
  intros H (l1 & c & w1 & E & A & S & Q). exists l1, c, w1. repeat split; auto; [eapply acts_weaken; eauto|eapply sane_call_weaken; eauto].
Qed.

Lemma yaml_previous (c : configurator) src w w1 r1 : c w = (w1, Val r1) ->
  yaml (Some c) src w =
    let '(w2, r2) := yaml None src w1 in
    (w2, match r2 with
         | Val r2 => Val (mkResult (has_error r1 || has_error r2) (has_warning r1 || has_warning r2) (message r1 ++ message r2))
         | Exn what => Exn what
         | Stuck => Stuck
         end).
Proof.
  intros E. unfold YamlModel.yaml. rewrite E. cbn [has_error has_warning message orb Datatypes.app].
  destruct (bind _ _ _) as [a [x|e|]]; reflexivity.
Qed.
Lemma yaml_previous_fails (c : configurator) src w w1 r1 : c w = (w1, r1) -> (forall r, r1 <> Val r) -> yaml (Some c) src w = (w1, r1).
Proof. intros E N. unfold YamlModel.yaml. rewrite E. destruct r1; auto. now destruct (N a). Qed.

(** What every configurator made of documents does. *)
Definition behaves (safe : Prop) (b : nat) (c : configurator) : Prop :=
  forall w w' r, known w "*" -> c w = (w', r) ->
    exists l, acts L safe ord fuel dbg w l w' /\ (r = Stuck -> hangs L safe ord fuel dbg w l) /\ length l <= b.

Lemma acts_app (p : Prop) w l1 w1 : acts L p ord fuel dbg w l1 w1 -> forall l2 w2, acts L p ord fuel dbg w1 l2 w2 -> acts L p ord fuel dbg w (l1 ++ l2) w2.
Proof. induction 1; intros l2 w2 H2; cbn; auto; [apply acts_call|apply acts_sink]; auto. Qed.
Lemma acts_known (p : Prop) w l w' : acts L p ord fuel dbg w l w' -> known w "*" -> known w' "*".
Proof. intros A K. destruct (acts_star _ _ _ _ _ _ _ _ A) as [E _]. unfold known. now rewrite E. Qed.

Lemma behaves_alone src : behaves (not_nested src) (8 * doc_size src) (yaml None src).
Proof.
  intros w w' r K H. destruct (yaml_acts _ _ _ _ _ _ _ _ K H) as (l & A & S). exists l. repeat split; auto.
  pose proof (acts_log _ _ _ _ _ _ _ _ A) as E. pose proof (yaml_cost _ _ _ _ _ _ _ _ H) as C.
  apply (f_equal (@length _)) in E. rewrite app_length in E. lia.
Qed.
Lemma behaves_weaken (p q : Prop) b b' c : (q -> p) -> b <= b' -> behaves p b c -> behaves q b' c.
Proof.
  intros H Hb B w w' r K E. destruct (B _ _ _ K E) as (l & A & S & C). exists l.
  repeat split; [eapply acts_weaken; eauto|intros; eapply hangs_weaken; eauto|lia].
Qed.
Lemma behaves_chain (p : Prop) b c src : behaves p b c -> behaves (p /\ not_nested src) (b + 8 * doc_size src) (yaml (Some c) src).
Proof.
  intros B w w' r K E. destruct (c w) as [w1 r1] eqn:E1. destruct (B _ _ _ K E1) as (l1 & A1 & S1 & C1).
  assert (W : forall x, acts L p ord fuel dbg w x w1 -> acts L (p /\ not_nested src) ord fuel dbg w x w1) by (intros x; apply acts_weaken; tauto).
  destruct r1 as [r1|e|].
  - rewrite (yaml_previous c src w w1 r1 E1) in E. destruct (yaml None src w1) as [w2 r2] eqn:E2.
    destruct (behaves_alone src w1 w2 r2 (acts_known _ _ _ _ A1 K) E2) as (l2 & A2 & S2 & C2). inversion E; subst.
    assert (A2' : acts L (p /\ not_nested src) ord fuel dbg w1 l2 w') by (eapply acts_weaken; [|exact A2]; tauto).
    exists (l1 ++ l2). split; [eapply acts_app; eauto|]. split; [|rewrite app_length; lia].
    intros Q. eapply hangs_app; [apply W; exact A1|]. eapply (hangs_weaken (not_nested src)); [tauto|]. apply S2. destruct r2; congruence.
  - rewrite (yaml_previous_fails c src w w1 _ E1) in E by discriminate. inversion E; subst. exists l1. repeat split; auto; [discriminate|lia].
  - rewrite (yaml_previous_fails c src w w1 _ E1) in E by discriminate. inversion E; subst. exists l1. repeat split; auto; [|lia].
    intros Q. eapply hangs_weaken; [|apply S1; reflexivity]. tauto.
Qed.
Lemma behaves_layered srcs c : layered L ord fuel dbg srcs = Some c ->
  behaves (Forall not_nested srcs) (8 * total_size srcs) c.
Proof.
  unfold layered. revert c. induction srcs as [|src srcs IH] using rev_ind; intros c E; [discriminate|].
  rewrite fold_left_app in E. cbn in E. inversion E; subst. clear E.
  assert (T : total_size (srcs ++ [src]) = total_size srcs + doc_size src).
  { clear. induction srcs as [|x srcs IH]; cbn [total_size fold_right Datatypes.app] in *; [lia|]. unfold total_size in IH. rewrite IH. lia. }
  rewrite T. destruct (fold_left _ srcs None) as [c|] eqn:F.
  - eapply behaves_weaken; [|apply Nat.eq_le_incl|apply behaves_chain, IH; reflexivity]; [|lia].
    rewrite Forall_app. intros [A B]. split; auto. now inversion B.
  - destruct srcs as [|x srcs _] using rev_ind; [|rewrite fold_left_app in F; discriminate].
    eapply behaves_weaken; [|apply Nat.eq_le_incl|apply behaves_alone]; [|cbn; lia].
    intros H. now inversion H.
Qed.

(** ** On a system *)
Hypothesis Hord : rearranges ord.

Lemma inv_numbered s : Inv s -> numbered s.
Proof. intros I. split; intros n i F; apply find_In in F; [eapply V_gmap|eapply V_smap]; eauto. Qed.
Lemma sane_no_ub p w c : sane_call p w c -> snd (step ord fuel dbg (w_sys w) c) <> RUB.
Proof.
  destruct c; try contradiction; intros _; cbn [step].
  - destruct (construct _ _ _ _ _) as [[s1 i]|]; discriminate.
  - destruct (find _ g); discriminate.
  - destruct (find _ g); [|discriminate]. destruct (find _ p0); [|discriminate]. cbv zeta. destruct (if oeqb _ _ then _ else _) as [[|]|]; try discriminate.
    destruct (set_parent_of_group _ _ _ _ _); discriminate.
  - destruct (find _ k); [|discriminate]. destruct (find _ g); [|discriminate]. destruct (set_sink_of_group _ _ _ _ _); discriminate.
  - destruct (find _ g); [|discriminate]. destruct (set_level_of_group _ _ _ _ _); discriminate.
Qed.

Lemma acts_run (safe : Prop) w l w' : safe -> acts L safe ord fuel dbg w l w' -> reachable ord dbg usual_sinks (w_sys w) -> tidy (w_sys w) ->
  enough (w_sys w) + length l <= fuel ->
  exists os, run ord fuel dbg (w_sys w) (map call_of l) = (w_sys w', os) /\ ~ In RUB os /\ ~ In RHang os.
Proof.
  intros SF A. induction A as [|w c l w' S A IH|w d l w' S A IH]; intros R T F; cbn [map call_of length] in *.
  - exists []. cbn. auto.
  - pose proof (reachable_mono ord dbg usual_sinks usual _ (fun s c H => proj1 H) R) as RU.
    pose proof (usual_inv ord Hord dbg _ RU) as I.
    pose proof (call_usual _ w c SF S T) as U.
    pose proof (enough_enough ord Hord dbg fuel _ c RU (proj1 U) ltac:(lia)) as E.
    pose proof (step_enough ord dbg fuel (w_sys w) c) as SE.
    pose proof (sane_no_ub _ _ _ S) as NU.
    assert (NH : snd (step ord fuel dbg (w_sys w) c) <> RHang) by (apply (proj2 (no_cycles ord Hord dbg _ RU)); [lia|apply U]).
    assert (FC := fst_call ord fuel dbg c w). destruct IH as (os & E1 & E2 & E3).
    + rewrite FC, E. apply reach_call; auto.
    + rewrite FC. eapply call_tidy; eauto. now apply inv_numbered.
    + rewrite FC. lia.
    + rewrite FC in E1. cbn [run]. destruct (step ord fuel dbg (w_sys w) c) as [s1 o]. cbn [fst snd] in *. rewrite E1.
      destruct o; try contradiction; (eexists; split; [reflexivity|]; split; intros [Q|Q]; try discriminate Q; auto).
  - destruct IH as (os & E1 & E2 & E3).
    + rewrite <- (step_sink ord (enough (w_sys w)) dbg). apply reach_call; auto. repeat split.
    + exact T.
    + cbn. unfold enough in *. cbn. lia.
    + cbn [run step]. cbn [w_sys world_with_sink add_sink] in E1. unfold add_sink in E1. rewrite E1. eexists; split; [reflexivity|]. split; intros [Q|Q]; try discriminate Q; auto.
Qed.

Lemma hangs_not (safe : Prop) w l : safe -> hangs L safe ord fuel dbg w l -> reachable ord dbg usual_sinks (w_sys w) -> tidy (w_sys w) ->
  enough (w_sys w) + length l <= fuel -> False.
Proof.
  intros SF (l1 & c & w1 & -> & A & S & H) R T F. rewrite app_length in F. cbn in F.
  pose proof (reachable_mono ord dbg usual_sinks usual _ (fun s c H => proj1 H) R) as RU.
  destruct (acts_usual L safe ord fuel dbg w l1 w1 SF A (inv_numbered _ (usual_inv ord Hord dbg _ RU)) T) as [EO T1].
  destruct (run_reachable ord Hord dbg usual_sinks (fun s c H => proj1 H) (map call_of l1) fuel (w_sys w) R EO ltac:(rewrite map_length; lia)) as [R1 _].
  destruct (acts_run safe w l1 w1 SF A R T ltac:(lia)) as (os & E & _). rewrite E in R1. cbn in R1.
  pose proof (reachable_mono ord dbg usual_sinks usual _ (fun s c H => proj1 H) R1) as RU1.
  assert (EN : enough (w_sys w1) <= enough (w_sys w) + length l1).
  { clear -A. induction A as [|w c l w' S A IH|w d l w' S A IH]; cbn; [lia| |].
    - rewrite fst_call in IH. pose proof (step_enough ord dbg fuel (w_sys w) c). lia.
    - unfold enough in *. cbn in IH. lia. }
  destruct H as [H|H]; [|now apply sane_no_ub in S].
  revert H. apply (proj2 (no_cycles ord Hord dbg _ RU1)); [lia|]. exact (proj1 (call_usual _ w1 c SF S T1)).
Qed.

Lemma reach_star s : reachable ord dbg usual_sinks s -> find (smap s) "*" <> None.
Proof.
  induction 1 as [|s c R IH U|s R IH]; [discriminate| |exact IH].
  destruct c; try (match goal with |- context [step _ _ _ _ ?c] => destruct (step_counts ord (enough s) dbg s c Logic.I) as [_ E] end; cbn beta iota in E; rewrite E; exact IH).
  - cbn. rewrite SysBase.find_assign. destruct (String.eqb _ _); [discriminate|exact IH].
  - destruct (make_effect ord (enough s) dbg s name parent sink lv) as [->|(X & _ & ->)]; exact IH.
  - cbn [step]. destruct (nth_error (groups s) g) as [y|]; [|exact IH]. cbn. destruct (mod_logger_counts s i (l_level_from g y)) as (_ & ->). exact IH.
  - cbn [step]. destruct (nth_error (groups s) g) as [y|]; [|exact IH]. cbn. destruct (mod_logger_counts s i (l_sink_from g y)) as (_ & ->). exact IH.
  - cbn [step]. destruct (nth_error (groups s) g) as [y|]; [|exact IH]. cbn. destruct (mod_logger_counts s i (l_set_group g y)) as (_ & ->). exact IH.
Qed.

Theorem configure_layered s srcs c busy :
  reachable ord dbg usual_sinks s -> tidy s -> configured s = false ->
  layered L ord fuel dbg srcs = Some c -> Forall not_nested srcs -> enough s + 8 * total_size srcs <= fuel ->
  let '(w', r) := c (mkWorld (with_configured s) busy []) in
  reachable ord dbg usual_sinks (w_sys w') /\ tidy (w_sys w') /\
  exists out, configure ord fuel dbg s (script_of c busy s) = (w_sys w', (Some out, RUnit)) /\ completed (w_sys w') r out.
Proof.
  intros R T C EL NN F. set (w := mkWorld (with_configured s) busy []). destruct (c w) as [w' r] eqn:E.
  assert (R' : reachable ord dbg usual_sinks (w_sys w)) by (apply reach_configure; exact R).
  destruct (behaves_layered srcs c EL w w' r (reach_star _ R') E) as (l & A & S & B).
  assert (F' : enough (w_sys w) + length l <= fuel) by (unfold enough in *; cbn; lia).
  pose proof (reachable_mono ord dbg usual_sinks usual _ (fun s c H => proj1 H) R') as RU.
  destruct (acts_usual L _ ord fuel dbg w l w' NN A (inv_numbered _ (usual_inv ord Hord dbg _ RU)) T) as [EO T1].
  destruct (acts_run _ w l w' NN A R' T F') as (os & ER & NU & NH).
  destruct (run_reachable ord Hord dbg usual_sinks (fun s c H => proj1 H) (map call_of l) fuel (w_sys w) R' EO ltac:(rewrite map_length; lia)) as [R1 _].
  rewrite ER in R1. cbn in R1. split; [exact R1|]. split; [exact T1|].
  assert (LG : w_log w' = l) by (rewrite (acts_log _ _ _ _ _ _ _ _ A); reflexivity).
  pose proof (configure_usual ord Hord dbg fuel s (script_of c busy s) R C) as CU.
  unfold script_of in *. fold w in CU |- *. rewrite E in *. cbn [sc_calls sc_end] in *. rewrite LG in *.
  specialize (CU EO ltac:(rewrite map_length; exact F')). cbn [w_sys w] in ER. rewrite ER in CU. destruct (CU NU) as (out & CO & M).
  exists out. split; [exact CO|]. destruct r as [r|what|]; [exact M|exact M|].
  destruct (hangs_not _ _ _ NN (S eq_refl) R' T F').
Qed.

(** C72 *)
Theorem configure_acyclic s srcs c busy :
  reachable ord dbg usual_sinks s -> tidy s -> configured s = false ->
  layered L ord fuel dbg srcs = Some c -> Forall not_nested srcs -> enough s + 8 * total_size srcs <= fuel ->
  let s' := fst (configure ord fuel dbg s (script_of c busy s)) in
  acyclic s' /\ forall f call, enough s' <= f -> usual s' call -> snd (step ord f dbg s' call) <> RHang.
Proof.
  intros R T C EL NN F. pose proof (configure_layered s srcs c busy R T C EL NN F) as H.
  destruct (c _) as [w' r]. destruct H as (R' & _ & out & E & _). rewrite E. cbv zeta. cbn [fst].
  apply (no_cycles ord Hord dbg). apply (reachable_mono ord dbg usual_sinks usual _ (fun s c H => proj1 H) R').
Qed.
End Conf.
