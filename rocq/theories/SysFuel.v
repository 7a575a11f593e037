(** * Depth of recursion, histories *)
From Coq Require Import String List Arith Bool Lia Permutation.
From Verif Require Import Base LevelModel SysModel SysSpec SysBase SysSpread SysInv SysOps SysSteps SysProps SysMore SysFrame.
Import ListNotations.

Lemma fn_mono f f' ov gs g passed : f <= f' -> forall st cur r, fn f ov gs g passed st cur = Some r -> fn f' ov gs g passed st cur = Some r.
Proof.
  revert f'. induction f as [|f IH]; intros f' Hf st cur r H.
  - destruct f'; [exact H|]. cbn in *. destruct (assoc passed cur); [exact H|]. destruct (Nat.eqb cur g); [exact H|].
    destruct (nth_error gs cur); [|exact H]. destruct (ov g0); [exact H|]. destruct (g_parent g0); [discriminate|exact H].
  - destruct f' as [|f']; [lia|]. cbn in *. destruct (assoc passed cur); [exact H|]. destruct (Nat.eqb cur g); [exact H|].
    destruct (nth_error gs cur); [|exact H]. destruct (ov g0); [exact H|]. destruct (g_parent g0) as [p|]; [|exact H].
    destruct (fn f ov gs g passed st p) as [q|] eqn:E; [|discriminate]. rewrite (IH f' ltac:(lia) _ _ _ E). exact H.
Qed.
Lemma scan_mono f f' ov gs g m : f <= f' -> forall passed st r, scan f ov gs g passed st m = Some r -> scan f' ov gs g passed st m = Some r.
Proof.
  intros Hf. induction m as [|[n i] m IH]; intros passed st r H; cbn in *; [exact H|].
  destruct (fn f ov gs g passed st i) as [q|] eqn:E; [|discriminate]. rewrite (fn_mono _ _ _ _ _ _ Hf _ _ _ E). destruct q as [x st']. apply IH. exact H.
Qed.
Lemma climbs_mono f f' gs g : f <= f' -> forall cur b, climbs_to f gs g cur = Some b -> climbs_to f' gs g cur = Some b.
Proof.
  revert f'. induction f as [|f IH]; intros [|f'] Hf [i|] b H; cbn in *; try exact H; try lia.
  - destruct (Nat.eqb i g); [exact H|discriminate].
  - destruct (Nat.eqb i g); [exact H|]. apply (IH f' ltac:(lia)). exact H.
Qed.
Lemma spread_mono ord f f' ov up lup s g s' : f <= f' -> spread ord f ov up lup s g = Some s' -> spread ord f' ov up lup s g = Some s'.
Proof.
  intros Hf. unfold spread. destruct (scan f ov (groups s) g [] [] (gmap s)) as [r|] eqn:E; [|discriminate].
  rewrite (scan_mono _ _ _ _ _ _ Hf _ _ _ E). auto.
Qed.

Lemma step_mono ord f f' dbg s c : f <= f' -> snd (step ord f dbg s c) <> RHang -> step ord f' dbg s c = step ord f dbg s c.
Proof.
  intros Hf. destruct c; try reflexivity; cbn [step].
  - destruct (find (gmap s) g) as [gi|]; [|reflexivity]. destruct (find (gmap s) p) as [pi|]; [|reflexivity]. cbn zeta.
    destruct (oeqb _ _).
    + intros H. destruct (set_parent_of_group ord f s gi (Some pi)) as [s'|] eqn:E; [|contradiction H; reflexivity].
      unfold set_parent_of_group in *. rewrite (spread_mono _ _ _ _ _ _ _ _ _ Hf E). reflexivity.
    + destruct (climbs_to f (groups s) gi _) as [b|] eqn:C; [|intros H; contradiction H; reflexivity]. rewrite (climbs_mono _ _ _ _ Hf _ _ C).
      destruct b; [reflexivity|]. intros H. destruct (set_parent_of_group ord f s gi (Some pi)) as [s'|] eqn:E; [|contradiction H; reflexivity].
      unfold set_parent_of_group in *. rewrite (spread_mono _ _ _ _ _ _ _ _ _ Hf E). reflexivity.
  - destruct (find (gmap s) g) as [gi|]; [|reflexivity]. intros H.
    destruct (set_parent_of_group ord f s gi None) as [s'|] eqn:E; [|contradiction H; reflexivity].
    unfold set_parent_of_group in *. rewrite (spread_mono _ _ _ _ _ _ _ _ _ Hf E). reflexivity.
  - destruct (find (smap s) k) as [ki|]; [|reflexivity]. destruct (find (gmap s) g) as [gi|]; [|reflexivity]. intros H.
    destruct (set_sink_of_group ord f s gi (Some ki)) as [s'|] eqn:E; [|contradiction H; reflexivity].
    unfold set_sink_of_group in *. rewrite (spread_mono _ _ _ _ _ _ _ _ _ Hf E). reflexivity.
  - destruct (find (gmap s) g) as [gi|]; [|reflexivity]. intros H.
    destruct (set_sink_of_group ord f s gi None) as [s'|] eqn:E; [|contradiction H; reflexivity].
    unfold set_sink_of_group in *. rewrite (spread_mono _ _ _ _ _ _ _ _ _ Hf E). reflexivity.
  - destruct (find (gmap s) g) as [gi|]; [|reflexivity]. intros H.
    destruct (set_level_of_group ord f s gi (Some lv)) as [s'|] eqn:E; [|contradiction H; reflexivity].
    unfold set_level_of_group in *. rewrite (spread_mono _ _ _ _ _ _ _ _ _ Hf E). reflexivity.
  - destruct (find (gmap s) g) as [gi|]; [|reflexivity]. intros H.
    destruct (set_level_of_group ord f s gi None) as [s'|] eqn:E; [|contradiction H; reflexivity].
    unfold set_level_of_group in *. rewrite (spread_mono _ _ _ _ _ _ _ _ _ Hf E). reflexivity.
Qed.

Section Histories.
Variable ord : list nat -> list nat.
Hypothesis Hord : rearranges ord.
Variable dbg : bool.

(** More depth than [enough] makes no difference. *)
Lemma enough_enough fuel s c : reachable ord dbg usual s -> usual s c -> enough s <= fuel ->
  step ord fuel dbg s c = step ord (enough s) dbg s c.
Proof.
  intros H Hc Hf. apply step_mono; [exact Hf|]. apply (proj2 (no_cycles ord Hord dbg s H)); [apply le_n|exact Hc].
Qed.

Lemma step_enough fuel s c : enough (fst (step ord fuel dbg s c)) <= S (enough s).
Proof.
  unfold enough. destruct c; try (match goal with |- context [step _ _ _ _ ?c] => destruct (step_counts ord fuel dbg s c Logic.I) as (-> & _) end; lia).
  - cbn [step]. destruct (construct s name parent sink lv) as [[s1 i]|] eqn:C; [|cbn; lia].
    destruct (construct_object _ _ _ _ _ _ _ C) as (X & _ & -> & _). cbn. rewrite app_length. cbn. lia.
  - cbn [step]. destruct (nth_error (groups s) g) as [y|]; [|cbn; lia]. cbn. destruct (mod_logger_counts s i (l_level_from g y)) as (-> & _). lia.
  - cbn [step]. destruct (nth_error (groups s) g) as [y|]; [|cbn; lia]. cbn. destruct (mod_logger_counts s i (l_sink_from g y)) as (-> & _). lia.
  - cbn [step]. destruct (nth_error (groups s) g) as [y|]; [|cbn; lia]. cbn. destruct (mod_logger_counts s i (l_set_group g y)) as (-> & _). lia.
Qed.

Lemma run_reachable (ok : sys -> call -> Prop) (Hok : forall s c, ok s c -> usual s c) cs : forall fuel s,
  reachable ord dbg ok s -> each_ok ord fuel dbg ok s cs -> enough s + length cs <= fuel ->
  reachable ord dbg ok (fst (run ord fuel dbg s cs)) /\ ~ In RHang (snd (run ord fuel dbg s cs)).
Proof.
  induction cs as [|c cs IH]; intros fuel s H He Hf; cbn; [split; [exact H|intros []]|].
  destruct He as (Hc & He). cbn in Hf.
  assert (Hu : reachable ord dbg usual s) by (eapply reachable_mono; [exact Hok|exact H]).
  assert (Hs : step ord fuel dbg s c = step ord (enough s) dbg s c) by (apply enough_enough; auto; lia).
  assert (Hr : reachable ord dbg ok (fst (step ord fuel dbg s c))) by (rewrite Hs; apply reach_call; auto).
  pose proof (step_enough fuel s c) as Hn.
  assert (Hnh : snd (step ord fuel dbg s c) <> RHang) by (apply (proj2 (no_cycles ord Hord dbg s Hu)); [lia|auto]).
  destruct (step ord fuel dbg s c) as [s' o] eqn:E. cbn [fst snd] in *.
  destruct (IH fuel s' Hr He ltac:(lia)) as (A & B).
  destruct (run ord fuel dbg s' cs) as [s2 os]. cbn [fst snd] in *.
  destruct o; cbn; try (split; [exact A|intros [Hq|Hq]; [discriminate|exact (B Hq)]]).
  - contradiction.
  - split; [exact Hr|]. intros [Hq|[]]. discriminate.
Qed.

(** ** C51 *)
Lemma get_unconfigured fuel s x g k lv : configured s = false -> step ord fuel dbg s (GetLogger x g k lv) = (s, RThrow).
Proof. intros H. cbn. unfold get_logger. rewrite H. reflexivity. Qed.

Lemma configure_usual fuel s sc : reachable ord dbg usual_sinks s -> configured s = false ->
  each_ok ord fuel dbg usual_sinks (with_configured s) (sc_calls sc) -> enough s + length (sc_calls sc) <= fuel ->
  let '(s1, os) := run ord fuel dbg (with_configured s) (sc_calls sc) in
  ~ In RUB os ->
  exists res, configure ord fuel dbg s sc = (s1, (Some res, RUnit)) /\
  match sc_end sc with
  | inr what => res = mkResult true false ["E: Configure is failed: " ++ what ++ "; Logging system is unworkable"]%string
  | inl r =>
      match gmap s1 with
      | [] => res = mkResult true (has_warning r) (message r ++ ["E: No one group is defined; Logging system is unworkable"%string])
      | _ => res = mkResult (has_error r) (has_warning r || existsb (sends_nowhere s1) (gmap s1))
                            (message r ++ map nowhere_warning (filter (sends_nowhere s1) (gmap s1)))
      end
  end.
Proof.
  intros H Hc He Hf. pose proof (run_reachable usual_sinks (fun s c H => proj1 H) (sc_calls sc) fuel (with_configured s) (reach_configure _ _ _ _ H) He Hf) as (HR & HH).
  pose proof (configure_returns ord dbg fuel s sc Hc) as Hcr. pose proof (sinks_configure ord Hord dbg fuel s sc) as Hsc.
  destruct (run ord fuel dbg (with_configured s) (sc_calls sc)) as [s1 os]. cbn [fst snd] in *. intros HU.
  specialize (Hcr (conj HH HU)). specialize (Hsc HR). destruct (sc_end sc) as [r|what].
  - destruct Hcr as (H1 & H2). destruct (gmap s1) as [|e m] eqn:Eg.
    + eexists. split; [apply H1; reflexivity|reflexivity].
    + rewrite <- Eg in *. eexists. split; [apply H2; [congruence|exact Hsc]|reflexivity].
  - eexists. split; [exact Hcr|reflexivity].
Qed.

(** ** C52 *)
Lemma follows_reachable (ok : sys -> call -> Prop) (Hok : forall s c, ok s c -> usual s c) s s' :
  reachable ord dbg usual s -> follows ord dbg ok s s' -> reachable ord dbg usual s'.
Proof. intros H F. induction F; [exact H|apply reach_call; auto|apply reach_configure; auto]. Qed.

Lemma not_inh ov s g x X : nth_error (groups s) x = Some X -> ov X = true -> x <> g -> ~ inherits ov s g x.
Proof. intros E O Hx Hi. inversion Hi; subst; congruence. Qed.

Lemma step_level_kept s c x X : reachable ord dbg usual s -> usual s c -> ~ sets_level s x c ->
  nth_error (groups s) x = Some X -> g_lov X = true ->
  exists X', nth_error (groups (fst (step ord (enough s) dbg s c))) x = Some X' /\ g_level X' = g_level X /\ g_lov X' = true.
Proof.
  intros H Hu Hn E O. pose proof (usual_inv ord Hord dbg _ H) as I. pose proof (rearranges_in _ Hord) as Hin.
  assert (LC : forall s' g l b, level_changed s s' g l b -> x <> g -> exists X', nth_error (groups s') x = Some X' /\ g_level X' = g_level X /\ g_lov X' = true).
  { intros s' g l b (_ & HG & _) Hx. destruct (HG _ _ E) as (X' & E' & _ & O' & _ & K). exists X'. split; [exact E'|]. split; [apply K; eapply not_inh; eauto|].
    rewrite O'. destruct (Nat.eqb_spec x g); congruence. }
  assert (SC : forall s' g l b, sink_changed s s' g l b -> exists X', nth_error (groups s') x = Some X' /\ g_level X' = g_level X /\ g_lov X' = true).
  { intros s' g l b (_ & HG & _). destruct (HG _ _ E) as (X' & E' & B & _). exists X'. unfold g_but_sink in B. split; [exact E'|]. split; congruence. }
  assert (Same : forall s', groups s' = groups s -> exists X', nth_error (groups s') x = Some X' /\ g_level X' = g_level X /\ g_lov X' = true).
  { intros s' ->. eauto. }
  assert (PC : forall s' g p l k, Inv s' -> parent_changed s s' g p l k -> (x = g -> l = g_level X) -> exists X', nth_error (groups s') x = Some X' /\ g_level X' = g_level X /\ g_lov X' = true).
  { intros s' g p l k I' (_ & HG & _) Hl. destruct (HG _ _ E) as (X' & E' & _ & _ & O' & _ & K1 & K2 & _). exists X'. split; [exact E'|]. split; [|congruence].
    destruct (Nat.eq_dec x g) as [->|Hx]; [rewrite K1; [auto|constructor]|]. apply K2. eapply not_inh; [exact E'|congruence|exact Hx]. }
  destruct c; cbn [step]; try (apply Same; first [reflexivity|destruct (live s x0); reflexivity]).
  - destruct (makeable_dec s parent sink lv) as [Hm|Hm].
    + destruct (make_group_makes ord dbg s name parent sink lv I Hm) as (s' & Z & Hs & _ & Hg & _). cbn [step] in Hs. rewrite Hs. cbn. rewrite Hg.
      exists X. rewrite nth_error_app1 by (eapply nth_some_lt; eauto). auto.
    + pose proof (make_group_throws ord dbg s name parent sink lv I Hm) as Hs. cbn [step] in Hs. rewrite Hs. eauto.
  - destruct (find (gmap s) g); apply Same; reflexivity.
  - destruct (find (gmap s) g) as [gi|] eqn:F; [|eauto]. destruct (find (gmap s) p) as [pi|] eqn:F2; [|eauto].
    assert (Hne : pi <> gi). { destruct Hu as (Hs & _). cbn in Hs. rewrite F, F2 in Hs. destruct Hs; congruence. }
    destruct (find_valid _ _ _ I F) as (Gr & EG). destruct (find_valid _ _ _ I F2) as (P & EP).
    pose proof (cycle_check (enough s) s gi pi P I (le_n _) EP Hne) as Hc. cbn zeta in *.
    destruct (if oeqb _ _ then _ else _) as [[|]|]; [eauto| |destruct Hc].
    destruct (set_parent_spec ord Hin (enough s) s gi Gr pi P I (le_n _) (in_snd_find _ _ _ F) EG EP Hne (proj2 Hc)) as (s' & Hs & Hp & I2).
    rewrite Hs. cbn. eapply PC; [exact I2|exact Hp|]. intros ->. rewrite E in EG. injection EG as <-. rewrite O. reflexivity.
  - destruct (find (gmap s) g) as [gi|] eqn:F; [|eauto]. destruct (find_valid _ _ _ I F) as (Gr & EG).
    destruct (unset_parent_spec ord Hin (enough s) s gi Gr I (le_n _) (in_snd_find _ _ _ F) EG) as (s' & Hs & Hp & I2).
    rewrite Hs. cbn. eapply PC; [exact I2|exact Hp|]. intros ->. congruence.
  - destruct (find (smap s) k) as [ki|] eqn:F2; [|eauto]. destruct (find (gmap s) g) as [gi|] eqn:F; [|eauto].
    destruct (find_valid _ _ _ I F) as (Gr & EG). assert (Hk : ki < length (sinks s)) by (eapply (V_smap _ I); apply find_In; eauto).
    destruct (set_sink_spec ord Hin (enough s) s gi Gr ki I (le_n _) (in_snd_find _ _ _ F) EG Hk) as (s' & Hs & Hp & I2).
    rewrite Hs. cbn. eapply SC. exact Hp.
  - destruct (find (gmap s) g) as [gi|] eqn:F; [|eauto]. destruct (find_valid _ _ _ I F) as (Gr & EG).
    destruct (reset_sink_spec ord Hin (enough s) s gi Gr I (le_n _) (in_snd_find _ _ _ F) EG) as (s' & Hs & Hp & I2).
    rewrite Hs. cbn. eapply SC. exact Hp.
  - destruct (find (gmap s) g) as [gi|] eqn:F; [|eauto]. destruct (find_valid _ _ _ I F) as (Gr & EG).
    destruct (set_level_spec ord Hin (enough s) s gi Gr lv I (le_n _) (in_snd_find _ _ _ F) EG) as (s' & Hs & Hp & I2).
    rewrite Hs. cbn. eapply LC; [exact Hp|]. intros ->. apply Hn. exact F.
  - destruct (find (gmap s) g) as [gi|] eqn:F; [|eauto]. destruct (find_valid _ _ _ I F) as (Gr & EG).
    destruct (reset_level_spec ord Hin (enough s) s gi Gr I (le_n _) (in_snd_find _ _ _ F) EG) as (s' & Hs & Hp & I2).
    rewrite Hs. cbn. eapply LC; [exact Hp|]. intros ->. apply Hn. exact F.
  - apply Same. clear E. destruct (find (gmap s) g); [|reflexivity]. destruct (live s x0); [|reflexivity]. destruct (nth_error (groups s) n); [|reflexivity]. apply mod_logger_counts.
  - apply Same. clear E. destruct (find (smap s) k); [|reflexivity]. destruct (live s x0); [|reflexivity]. apply mod_logger_counts.
  - apply Same. clear E. destruct (live s x0); [|reflexivity]. destruct (nth_error (loggers s) n); [|reflexivity]. destruct (nth_error (groups s) _); [|reflexivity]. apply mod_logger_counts.
  - apply Same. clear E. destruct (live s x0); [|reflexivity]. apply mod_logger_counts.
  - apply Same. clear E. destruct (live s x0); [|reflexivity]. destruct (nth_error (loggers s) n); [|reflexivity]. destruct (nth_error (groups s) _); [|reflexivity]. apply mod_logger_counts.
  - apply Same. clear E. destruct (get_logger_cases dbg s x0 g k lv I) as [(_ & ->)|[(_ & i & _ & ->)|[(_ & _ & _ & ->)|(i & y & w & _ & Lv & _ & EE & HH)]]]; try reflexivity.
    destruct (w && negb (can_warn y)); rewrite HH; reflexivity.
  - apply Same. apply mod_logger_counts.
  - apply Same. clear E. destruct (nth_error (loggers s) i); [|reflexivity]. destruct (nth_error (groups s) _); [|reflexivity]. apply mod_logger_counts.
  - apply Same. clear E. destruct (nth_error (groups s) _); [|reflexivity]. apply mod_logger_counts.
  - apply Same. clear E. destruct (Nat.ltb _ _); [|reflexivity]. apply mod_logger_counts.
  - apply Same. clear E. destruct (nth_error (loggers s) i); [|reflexivity]. destruct (nth_error (groups s) _); [|reflexivity]. apply mod_logger_counts.
  - apply Same. clear E. destruct (nth_error (groups s) _); [|reflexivity]. apply mod_logger_counts.
  - apply Same. clear E. destruct (nth_error (groups s) _); [|reflexivity]. apply mod_logger_counts.
  - apply Same. apply mod_logger_counts.
Qed.
Lemma step_sink_kept s c x X : reachable ord dbg usual s -> usual s c -> ~ sets_sink s x c ->
  nth_error (groups s) x = Some X -> g_sov X = true ->
  exists X', nth_error (groups (fst (step ord (enough s) dbg s c))) x = Some X' /\ g_sink X' = g_sink X /\ g_sov X' = true.
Proof.
  intros H Hu Hn E O. pose proof (usual_inv ord Hord dbg _ H) as I. pose proof (rearranges_in _ Hord) as Hin.
  assert (LC : forall s' g l b, sink_changed s s' g l b -> x <> g -> exists X', nth_error (groups s') x = Some X' /\ g_sink X' = g_sink X /\ g_sov X' = true).
  { intros s' g l b (_ & HG & _) Hx. destruct (HG _ _ E) as (X' & E' & _ & O' & _ & K). exists X'. split; [exact E'|]. split; [apply K; eapply not_inh; eauto|].
    rewrite O'. destruct (Nat.eqb_spec x g); congruence. }
  assert (SC : forall s' g l b, level_changed s s' g l b -> exists X', nth_error (groups s') x = Some X' /\ g_sink X' = g_sink X /\ g_sov X' = true).
  { intros s' g l b (_ & HG & _). destruct (HG _ _ E) as (X' & E' & B & _). exists X'. unfold g_but_level in B. split; [exact E'|]. split; congruence. }
  assert (Same : forall s', groups s' = groups s -> exists X', nth_error (groups s') x = Some X' /\ g_sink X' = g_sink X /\ g_sov X' = true).
  { intros s' ->. eauto. }
  assert (PC : forall s' g p l k, Inv s' -> parent_changed s s' g p l k -> (x = g -> k = g_sink X) -> exists X', nth_error (groups s') x = Some X' /\ g_sink X' = g_sink X /\ g_sov X' = true).
  { intros s' g p l k I' (_ & HG & _) Hl. destruct (HG _ _ E) as (X' & E' & _ & O' & _ & _ & _ & _ & K1 & K2). exists X'. split; [exact E'|]. split; [|congruence].
    destruct (Nat.eq_dec x g) as [->|Hx]; [rewrite K1; [auto|constructor]|]. apply K2. eapply not_inh; [exact E'|congruence|exact Hx]. }
  destruct c; cbn [step]; try (apply Same; first [reflexivity|destruct (live s x0); reflexivity]).
  - destruct (makeable_dec s parent sink lv) as [Hm|Hm].
    + destruct (make_group_makes ord dbg s name parent sink lv I Hm) as (s' & Z & Hs & _ & Hg & _). cbn [step] in Hs. rewrite Hs. cbn. rewrite Hg.
      exists X. rewrite nth_error_app1 by (eapply nth_some_lt; eauto). auto.
    + pose proof (make_group_throws ord dbg s name parent sink lv I Hm) as Hs. cbn [step] in Hs. rewrite Hs. eauto.
  - destruct (find (gmap s) g); apply Same; reflexivity.
  - destruct (find (gmap s) g) as [gi|] eqn:F; [|eauto]. destruct (find (gmap s) p) as [pi|] eqn:F2; [|eauto].
    assert (Hne : pi <> gi). { destruct Hu as (Hs & _). cbn in Hs. rewrite F, F2 in Hs. destruct Hs; congruence. }
    destruct (find_valid _ _ _ I F) as (Gr & EG). destruct (find_valid _ _ _ I F2) as (P & EP).
    pose proof (cycle_check (enough s) s gi pi P I (le_n _) EP Hne) as Hc. cbn zeta in *.
    destruct (if oeqb _ _ then _ else _) as [[|]|]; [eauto| |destruct Hc].
    destruct (set_parent_spec ord Hin (enough s) s gi Gr pi P I (le_n _) (in_snd_find _ _ _ F) EG EP Hne (proj2 Hc)) as (s' & Hs & Hp & I2).
    rewrite Hs. cbn. eapply PC; [exact I2|exact Hp|]. intros ->. rewrite E in EG. injection EG as <-. rewrite O. reflexivity.
  - destruct (find (gmap s) g) as [gi|] eqn:F; [|eauto]. destruct (find_valid _ _ _ I F) as (Gr & EG).
    destruct (unset_parent_spec ord Hin (enough s) s gi Gr I (le_n _) (in_snd_find _ _ _ F) EG) as (s' & Hs & Hp & I2).
    rewrite Hs. cbn. eapply PC; [exact I2|exact Hp|]. intros ->. congruence.
  - destruct (find (smap s) k) as [ki|] eqn:F2; [|eauto]. destruct (find (gmap s) g) as [gi|] eqn:F; [|eauto].
    destruct (find_valid _ _ _ I F) as (Gr & EG). assert (Hk : ki < length (sinks s)) by (eapply (V_smap _ I); apply find_In; eauto).
    destruct (set_sink_spec ord Hin (enough s) s gi Gr ki I (le_n _) (in_snd_find _ _ _ F) EG Hk) as (s' & Hs & Hp & I2).
    rewrite Hs. cbn. eapply LC; [exact Hp|]. intros ->. apply Hn. exact F.
  - destruct (find (gmap s) g) as [gi|] eqn:F; [|eauto]. destruct (find_valid _ _ _ I F) as (Gr & EG).
    destruct (reset_sink_spec ord Hin (enough s) s gi Gr I (le_n _) (in_snd_find _ _ _ F) EG) as (s' & Hs & Hp & I2).
    rewrite Hs. cbn. eapply LC; [exact Hp|]. intros ->. apply Hn. exact F.
  - destruct (find (gmap s) g) as [gi|] eqn:F; [|eauto]. destruct (find_valid _ _ _ I F) as (Gr & EG).
    destruct (set_level_spec ord Hin (enough s) s gi Gr lv I (le_n _) (in_snd_find _ _ _ F) EG) as (s' & Hs & Hp & I2).
    rewrite Hs. cbn. eapply SC. exact Hp.
  - destruct (find (gmap s) g) as [gi|] eqn:F; [|eauto]. destruct (find_valid _ _ _ I F) as (Gr & EG).
    destruct (reset_level_spec ord Hin (enough s) s gi Gr I (le_n _) (in_snd_find _ _ _ F) EG) as (s' & Hs & Hp & I2).
    rewrite Hs. cbn. eapply SC. exact Hp.
  - apply Same. clear E. destruct (find (gmap s) g); [|reflexivity]. destruct (live s x0); [|reflexivity]. destruct (nth_error (groups s) n); [|reflexivity]. apply mod_logger_counts.
  - apply Same. clear E. destruct (find (smap s) k); [|reflexivity]. destruct (live s x0); [|reflexivity]. apply mod_logger_counts.
  - apply Same. clear E. destruct (live s x0); [|reflexivity]. destruct (nth_error (loggers s) n); [|reflexivity]. destruct (nth_error (groups s) _); [|reflexivity]. apply mod_logger_counts.
  - apply Same. clear E. destruct (live s x0); [|reflexivity]. apply mod_logger_counts.
  - apply Same. clear E. destruct (live s x0); [|reflexivity]. destruct (nth_error (loggers s) n); [|reflexivity]. destruct (nth_error (groups s) _); [|reflexivity]. apply mod_logger_counts.
  - apply Same. clear E. destruct (get_logger_cases dbg s x0 g k lv I) as [(_ & ->)|[(_ & i & _ & ->)|[(_ & _ & _ & ->)|(i & y & w & _ & Lv & _ & EE & HH)]]]; try reflexivity.
    destruct (w && negb (can_warn y)); rewrite HH; reflexivity.
  - apply Same. apply mod_logger_counts.
  - apply Same. clear E. destruct (nth_error (loggers s) i); [|reflexivity]. destruct (nth_error (groups s) _); [|reflexivity]. apply mod_logger_counts.
  - apply Same. clear E. destruct (nth_error (groups s) _); [|reflexivity]. apply mod_logger_counts.
  - apply Same. clear E. destruct (Nat.ltb _ _); [|reflexivity]. apply mod_logger_counts.
  - apply Same. clear E. destruct (nth_error (loggers s) i); [|reflexivity]. destruct (nth_error (groups s) _); [|reflexivity]. apply mod_logger_counts.
  - apply Same. clear E. destruct (nth_error (groups s) _); [|reflexivity]. apply mod_logger_counts.
  - apply Same. clear E. destruct (nth_error (groups s) _); [|reflexivity]. apply mod_logger_counts.
  - apply Same. apply mod_logger_counts.
Qed.

Lemma level_kept s s' x X : reachable ord dbg usual s -> nth_error (groups s) x = Some X -> g_lov X = true ->
  follows ord dbg (fun s c => usual s c /\ ~ sets_level s x c) s s' ->
  exists X', nth_error (groups s') x = Some X' /\ g_level X' = g_level X /\ g_lov X' = true.
Proof.
  intros H E O F. induction F as [|s1 c F (X1 & E1 & L1 & O1) (Hu & Hn)|s1 F IH]; [eauto| |exact IH].
  pose proof (follows_reachable _ (fun s c H => proj1 H) _ _ H F) as H1.
  destruct (step_level_kept s1 c x X1 H1 Hu Hn E1 O1) as (X2 & E2 & L2 & O2). exists X2. split; [exact E2|]. split; congruence.
Qed.
Lemma sink_kept s s' x X : reachable ord dbg usual s -> nth_error (groups s) x = Some X -> g_sov X = true ->
  follows ord dbg (fun s c => usual s c /\ ~ sets_sink s x c) s s' ->
  exists X', nth_error (groups s') x = Some X' /\ g_sink X' = g_sink X /\ g_sov X' = true.
Proof.
  intros H E O F. induction F as [|s1 c F (X1 & E1 & L1 & O1) (Hu & Hn)|s1 F IH]; [eauto| |exact IH].
  pose proof (follows_reachable _ (fun s c H => proj1 H) _ _ H F) as H1.
  destruct (step_sink_kept s1 c x X1 H1 Hu Hn E1 O1) as (X2 & E2 & L2 & O2). exists X2. split; [exact E2|]. split; congruence.
Qed.

(** ** C50 *)
Lemma fallback_first s n p k lv i : reachable ord dbg usual s -> find (gmap s) "*" = None ->
  snd (step ord (enough s) dbg s (MakeGroup n p k lv)) = RGroup i ->
  group_named (fst (step ord (enough s) dbg s (MakeGroup n p k lv))) "*" i.
Proof.
  intros H Hn Hs. pose proof (fallback_kept ord dbg (enough s) s (MakeGroup n p k lv) (usual_inv ord Hord dbg _ H)) as Hk. cbv beta iota in Hk.
  specialize (Hk _ Hs). rewrite Hn in Hk. destruct (String.eqb n "*"); exact Hk.
Qed.
Lemma fallback_stays s s' i : reachable ord dbg usual s -> group_named s "*" i ->
  follows ord dbg (fun s c => usual s c /\ ~ sets_fallback c) s s' -> group_named s' "*" i.
Proof.
  intros H Hg F. induction F as [|s1 c F IH (Hu & Hn)|s1 F IH]; [exact Hg| |exact IH].
  pose proof (follows_reachable _ (fun s c H => proj1 H) _ _ H F) as H1.
  pose proof (fallback_kept ord dbg (enough s1) s1 c (usual_inv ord Hord dbg _ H1)) as Hk. unfold group_named in *.
  destruct c; cbv beta iota in Hk; try (rewrite Hk; exact IH).
  - destruct (makeable_dec s1 parent sink lv) as [Hm|Hm].
    + destruct (make_group_makes ord dbg s1 name parent sink lv (usual_inv ord Hord dbg _ H1) Hm) as (s2 & Z & Hs & _). rewrite Hs in *. cbn [fst snd] in *.
      specialize (Hk _ eq_refl). destruct (String.eqb_spec name "*") as [->|_]; [exfalso; apply Hn; reflexivity|]. rewrite IH in Hk. exact Hk.
    + rewrite (make_group_throws ord dbg s1 name parent sink lv (usual_inv ord Hord dbg _ H1) Hm). exact IH.
  - exfalso. apply Hn. exact Logic.I.
Qed.
End Histories.
