(** * What a document leaves alone (C60, C62) *)
From Coq Require Import String List Arith ZArith NArith Bool Lia.
From Verif Require Import Base LevelModel EventModel TreeModel SysModel SysSpec SysBase SysInv SysOps SysSteps SysFrame SysFuel SysProps SysMore
  YamlModel YamlSpec YamlOutSpec YamlActSpec YamlFacts YamlGroups YamlDoc YamlTree YamlOut YamlTrace YamlActs YamlProps YamlConf.
Import ListNotations.
Local Open Scope string_scope.
Local Open Scope list_scope.

Section Keep.
Variable L : lib.
Variable ord : list nat -> list nat.
Variable fuel : nat.
Variable dbg : bool.
Notation yaml := (yaml L ord fuel dbg).
Hypothesis UL : usual_lib L.
Hypothesis RH : refuses_huge_buffers L.

(** ** Where calls come from *)
Lemma calls_run_log cs : forall w w', calls_run ord fuel dbg cs w = (w', Val tt) -> w_log w' = w_log w ++ map ACall cs.
Proof.
  induction cs as [|c cs IH]; intros w w' H; cbn [calls_run] in H.
  - inversion H; subst. cbn. now rewrite app_nil_r.
  - assert (E : w_log (fst (world_call ord fuel dbg c w)) = w_log w ++ [ACall c]) by (unfold world_call; now destruct (step ord fuel dbg (w_sys w) c)).
    destruct (world_call ord fuel dbg c w) as [w1 [u|e|]]; try discriminate. apply IH in H. cbn [fst] in E. rewrite H, E, <- app_assoc. reflexivity.
Qed.
Definition action_from (doc : node) (x : action) : Prop := match x with ACall c => call_from doc c | ASink _ => True end.

Lemma entry_calls_from W F doc K new e n p : entry_from L W F K n e -> e_parent e = p -> below (top_groups doc) p n ->
  Forall (action_from doc) (map ACall (entry_calls new e)).
Proof.
  intros (N & _ & FB & SK & LV & _ & _) EP B.
  assert (NM : named n (e_name e)) by exact N.
  assert (LVN : forall l, e_level e = Some l -> get n "level" <> None).
  { intros l E. destruct LV as [LV _]. rewrite E in LV. inversion LV; subst; congruence. }
  assert (SKN : forall k, e_sink e = Some k -> get n "sink" <> None).
  { intros l E. rewrite E in SK. inversion SK; subst; congruence. }
  assert (FBN : e_fallback e = true -> get n "is_fallback" <> None).
  { intros E. rewrite E in FB. inversion FB; subst; congruence. }
  unfold entry_calls. rewrite map_app, Forall_app. split.
  - destruct new.
    + cbn. constructor; [|constructor]. cbn. exists n. rewrite EP. auto.
    + rewrite !map_app, !Forall_app. split; [|split].
      * destruct (e_parent e) as [q|] eqn:Q; cbn; constructor; [|constructor]. cbn. exists n. subst p. auto.
      * unfold entry_sink. destruct (e_sink e) as [k|] eqn:Q; [|destruct (e_parent e) eqn:Q2]; cbn; constructor; try constructor; cbn.
        -- exists p, n. repeat split; auto. left. eapply SKN. reflexivity.
        -- exists p, n. repeat split; auto.
      * destruct (e_level e) as [l|] eqn:Q; cbn; constructor; [|constructor]. cbn. exists p, n. repeat split; auto. eapply LVN. reflexivity.
  - destruct (e_fallback e) eqn:Q; cbn; constructor; [|constructor]. cbn. exists p, n. auto.
Qed.
Lemma groups_from W F doc K w p i l w' : groups_done L W F ord fuel dbg K w p i l w' ->
  (forall x, In x l -> below (top_groups doc) p x) ->
  exists m, w_log w' = w_log w ++ m /\ Forall (action_from doc) m.
Proof.
  induction 1 as [w p i|w p i n l w' U PA G IH|w p i n e l w1 w2 w' U EF EP CR G1 IH1 G2 IH2]; intros B.
  - exists []. rewrite app_nil_r. auto.
  - apply IH. intros x Hx. apply B. now right.
  - assert (BN : below (top_groups doc) p n) by (apply B; now left).
    pose proof (calls_run_log _ _ _ CR) as E1. pose proof (entry_calls_from _ _ doc _ (match find (gmap (w_sys w)) (e_name e) with None => true | Some _ => false end) _ _ _ EF EP BN) as C1.
    destruct IH1 as (m1 & E2 & C2). { intros x Hx. eapply bl_child; [exact BN| |exact Hx]. apply EF. }
    destruct IH2 as (m2 & E3 & C3). { intros x Hx. apply B. now right. }
    eexists. split; [rewrite E3, E2, E1, <- !app_assoc; reflexivity|]. apply Forall_app. split; [exact C1|]. apply Forall_app. auto.
Qed.
Lemma sinks_from W F doc w i l w' : sinks_done L W F w i l w' -> exists m, w_log w' = w_log w ++ m /\ Forall (action_from doc) m.
Proof.
  induction 1 as [w i|w i n l w' S D IH|w i n l w' S U P D IH|w i n d l w' S U SF C D IH]; auto.
  - exists []. rewrite app_nil_r. auto.
  - destruct IH as (m & E & Fm). exists (ASink d :: m). split; [rewrite E; cbn; now rewrite <- app_assoc|]. constructor; cbn; auto.
Qed.
Lemma yaml_from src doc w w' r : document src doc -> yaml None src w = (w', Val r) ->
  exists l, w_log w' = w_log w ++ l /\ Forall (action_from doc) l.
Proof.
  intros D H. apply (any_document L UL RH ord fuel dbg doc src) in H; [|exact D].
  assert (NIL : exists l, w_log w = w_log w ++ l /\ Forall (action_from doc) l) by (exists []; rewrite app_nil_r; auto).
  inversion H as [_ _ ->|w1 _ S G]; [exact NIL|].
  assert (S1 : exists l, w_log w1 = w_log w ++ l /\ Forall (action_from doc) l).
  { destruct (get doc "sinks") as [[| |l|]|]; try (subst; exact NIL); try (destruct S as [-> _]; exact NIL). eapply sinks_from; eauto. }
  destruct (get doc "groups") as [[| |g|]|] eqn:E; try (destruct G as [-> _]; exact S1).
  destruct S1 as (m1 & E1 & F1). apply (groups_from _ _ doc) in G.
  - destruct G as (m2 & E2 & F2). exists (m1 ++ m2). rewrite E2, E1, <- app_assoc. split; auto. apply Forall_app; auto.
  - intros x Hx. apply bl_top. unfold top_groups. rewrite E. exact Hx.
Qed.

(** ** One call *)
Hypothesis Hord : rearranges ord.

Definition kept (X X' : group) (lv sk pa : Prop) : Prop :=
  g_name X' = g_name X /\
  (lv -> g_lov X' = g_lov X /\ (g_lov X = true -> g_level X' = g_level X)) /\
  (sk -> g_sov X' = g_sov X /\ (g_sov X = true -> g_sink X' = g_sink X)) /\
  (pa -> g_parent X' = g_parent X).
Definition sets_parent (s : sys) (x : nat) (c : call) : Prop :=
  match c with SetParentOfGroup n t => group_named s n x \/ group_named s t x | _ => False end.

Lemma step_kept (safe : Prop) w c x X : safe -> reachable ord dbg usual (w_sys w) -> sane_call safe w c -> tidy (w_sys w) ->
  enough (w_sys w) <= fuel -> nth_error (groups (w_sys w)) x = Some X ->
  exists X', nth_error (groups (fst (step ord fuel dbg (w_sys w) c))) x = Some X' /\
    kept X X' (~ sets_level (w_sys w) x c) (~ sets_sink (w_sys w) x c) (~ sets_parent (w_sys w) x c).
Proof.
  intros SF R S T F E. pose proof (call_usual _ w c SF S T) as [U _].
  rewrite (enough_enough ord Hord dbg fuel _ c R U F). set (s := w_sys w) in *.
  pose proof (usual_inv ord Hord dbg _ R) as I. pose proof (rearranges_in _ Hord) as Hin.
  assert (Same : forall a b d, kept X X a b d) by (unfold kept; tauto).
  destruct c; try contradiction; cbn [step].
  - destruct (makeable_dec s parent sink lv) as [Hm|Hm].
    + destruct (make_group_makes ord dbg s name parent sink lv I Hm) as (s' & Z & Hs & _ & Hg & _). cbn [step] in Hs. rewrite Hs. cbn. rewrite Hg.
      exists X. rewrite nth_error_app1 by (eapply nth_some_lt; eauto). auto.
    + pose proof (make_group_throws ord dbg s name parent sink lv I Hm) as Hs. cbn [step] in Hs. rewrite Hs. eauto.
  - destruct (find (gmap s) g); cbn; eauto.
  - destruct (find (gmap s) g) as [gi|] eqn:Fg; [|eauto]. destruct (find (gmap s) p) as [pi|] eqn:F2; [|eauto].
    assert (Hne : pi <> gi). { destruct U as (Hs & _). cbn in Hs. rewrite Fg, F2 in Hs. destruct Hs; congruence. }
    destruct (find_valid _ _ _ I Fg) as (Gr & EG). destruct (find_valid _ _ _ I F2) as (P & EP).
    pose proof (cycle_check (enough s) s gi pi P I (le_n _) EP Hne) as Hc. cbn zeta in *.
    destruct (if oeqb _ _ then _ else _) as [[|]|]; [eauto| |destruct Hc].
    destruct (set_parent_spec ord Hin (enough s) s gi Gr pi P I (le_n _) (in_snd_find _ _ _ Fg) EG EP Hne (proj2 Hc)) as (s' & Hs & Hp & I2).
    rewrite Hs. cbn [fst ret]. destruct Hp as (_ & HG & _). destruct (HG _ _ E) as (X' & E' & N & O1 & O2 & PA & K1 & K2 & K3 & K4). exists X'. split; [exact E'|].
    split; [exact N|]. split; [|split].
    + intros _. split; [exact O2|]. intros O. destruct (Nat.eq_dec x gi) as [->|Hx].
      * rewrite K1 by constructor. rewrite E in EG. injection EG as <-. now rewrite O.
      * apply K2. eapply not_inh; [exact E'|congruence|exact Hx].
    + intros _. split; [exact O1|]. intros O. destruct (Nat.eq_dec x gi) as [->|Hx].
      * rewrite K3 by constructor. rewrite E in EG. injection EG as <-. now rewrite O.
      * apply K4. eapply not_inh; [exact E'|congruence|exact Hx].
    + intros NP. rewrite PA. cbn in NP. unfold group_named in NP. rewrite Fg, F2 in NP.
      destruct (Nat.eqb_spec x gi) as [->|_]; [tauto|]. cbn. destruct (Nat.eqb_spec pi x) as [->|_]; [tauto|]. reflexivity.
  - destruct (find (smap s) k) as [ki|] eqn:F2; [|eauto]. destruct (find (gmap s) g) as [gi|] eqn:Fg; [|eauto].
    destruct (find_valid _ _ _ I Fg) as (Gr & EG). assert (Hk : ki < length (sinks s)) by (eapply (V_smap _ I); apply find_In; eauto).
    destruct (set_sink_spec ord Hin (enough s) s gi Gr ki I (le_n _) (in_snd_find _ _ _ Fg) EG Hk) as (s' & Hs & (_ & HG & _) & I2).
    rewrite Hs. cbn [fst ret]. destruct (HG _ _ E) as (X' & E' & B & O & K1 & K2). exists X'. split; [exact E'|]. unfold g_but_sink in B. inversion B as [[B1 B2 B3 B4]].
    split; [auto|]. split; [auto|]. split; [|auto]. cbn. unfold group_named. rewrite Fg. intros NS.
    assert (Hx : x <> gi) by congruence. split; [rewrite O; destruct (Nat.eqb_spec x gi); congruence|]. intros OO. apply K2. eapply not_inh; eauto.
  - destruct (find (gmap s) g) as [gi|] eqn:Fg; [|eauto]. destruct (find_valid _ _ _ I Fg) as (Gr & EG).
    destruct (set_level_spec ord Hin (enough s) s gi Gr lv I (le_n _) (in_snd_find _ _ _ Fg) EG) as (s' & Hs & (_ & HG & _) & I2).
    rewrite Hs. cbn [fst ret]. destruct (HG _ _ E) as (X' & E' & B & O & K1 & K2). exists X'. split; [exact E'|]. unfold g_but_level in B. inversion B as [[B1 B2 B3 B4]].
    split; [auto|]. split; [|auto]. cbn. unfold group_named. rewrite Fg. intros NS.
    assert (Hx : x <> gi) by congruence. split; [rewrite O; destruct (Nat.eqb_spec x gi); congruence|]. intros OO. apply K2. eapply not_inh; eauto.
Qed.

(** ** A list of actions *)
Definition spares_level (n : string) (a : action) : Prop := match a with ACall (SetLevelOfGroup m _) => m <> n | _ => True end.
Definition spares_sink (n : string) (a : action) : Prop := match a with ACall (SetSinkOfGroup m _) => m <> n | _ => True end.
Definition spares_parent (n : string) (a : action) : Prop := match a with ACall (SetParentOfGroup m t) => m <> n /\ t <> n | _ => True end.

Lemma kept_trans X Y Z (a b c a' b' c' A B C : Prop) : kept X Y a b c -> kept Y Z a' b' c' -> (A -> a /\ a') -> (B -> b /\ b') -> (C -> c /\ c') ->
  kept X Z A B C.
Proof.
  intros (N1 & L1 & S1 & P1) (N2 & L2 & S2 & P2) HA HB HC. split; [congruence|]. split; [|split].
  - intros H. destruct (HA H) as [Ha Ha']. destruct (L1 Ha) as [E1 E2]. destruct (L2 Ha') as [E3 E4]. split; [congruence|]. intros O. rewrite E4, E2; congruence.
  - intros H. destruct (HB H) as [Ha Ha']. destruct (S1 Ha) as [E1 E2]. destruct (S2 Ha') as [E3 E4]. split; [congruence|]. intros O. rewrite E4, E2; congruence.
  - intros H. destruct (HC H) as [Ha Ha']. rewrite P2, P1; auto.
Qed.

Lemma acts_kept (safe : Prop) w l w' n x X : safe -> acts L safe ord fuel dbg w l w' -> reachable ord dbg usual (w_sys w) -> tidy (w_sys w) ->
  enough (w_sys w) + length l <= fuel -> n <> "*" -> group_named (w_sys w) n x -> nth_error (groups (w_sys w)) x = Some X ->
  exists X', nth_error (groups (w_sys w')) x = Some X' /\ group_named (w_sys w') n x /\
    kept X X' (Forall (spares_level n) l) (Forall (spares_sink n) l) (Forall (spares_parent n) l).
Proof.
  intros SF A. revert X. induction A as [|w c l w' S A IH|w d l w' S A IH]; intros X R T F N G E; cbn [length] in F.
  - exists X. unfold kept. tauto.
  - destruct (step_kept safe w c x X SF R S T ltac:(lia) E) as (X1 & E1 & K1).
    pose proof (fst_call ord fuel dbg c w) as FC. rewrite <- FC in E1.
    pose proof (call_usual _ w c SF S T) as [U _].
    pose proof (enough_enough ord Hord dbg fuel _ c R U ltac:(lia)) as EE.
    pose proof (step_enough ord dbg fuel (w_sys w) c) as SE.
    pose proof (usual_inv ord Hord dbg _ R) as I.
    destruct (call_star safe ord fuel dbg w c S) as (_ & _ & _ & SK & _).
    assert (TI : forall m, m <> "*" -> group_named (w_sys w) m x -> m = n).
    { intros m Hm Gm. destruct T as [T1 _]. exact (T1 m n x Hm N Gm G). }
    destruct (IH X1) as (X' & E' & G' & K'); auto.
    + rewrite FC, EE. apply reach_call; auto.
    + rewrite FC. eapply call_tidy; eauto. now apply inv_numbered.
    + rewrite FC. lia.
    + rewrite FC. apply SK; auto.
    + exists X'. split; [exact E'|]. split; [exact G'|].
      eapply kept_trans; [exact K1|exact K'| | |]; intros HF; inversion HF as [|? ? Hh Ht]; subst; (split; [|exact Ht]); clear - Hh TI S.
      * intros Hs. destruct c; try contradiction. apply Hh. apply TI; auto. apply S.
      * intros Hs. destruct c; try contradiction. apply Hh. apply TI; auto. apply S.
      * intros Hs. destruct c; try contradiction. destruct Hs as [Hs|Hs]; [apply (proj1 Hh)|apply (proj2 Hh)]; apply TI; auto; apply S.
  - destruct (IH X) as (X' & E' & G' & K'); auto.
    + rewrite <- (step_sink ord (enough (w_sys w)) dbg). apply reach_call; auto. repeat split.
    + unfold enough in *. cbn. lia.
    + exists X'. split; [exact E'|]. split; [exact G'|]. destruct K' as (K1 & K2 & K3 & K4). split; [exact K1|].
      split; [|split]; intros HF; inversion HF; subst; auto.
Qed.

(** ** C62 *)
Theorem yaml_keeps src doc w w' r n x X :
  document src doc -> yaml None src w = (w', Val r) -> ~ nested None (top_groups doc) ->
  reachable ord dbg usual_sinks (w_sys w) -> tidy (w_sys w) -> enough (w_sys w) + 8 * doc_size src <= fuel ->
  n <> "*" -> group_named (w_sys w) n x -> nth_error (groups (w_sys w)) x = Some X ->
  exists X', nth_error (groups (w_sys w')) x = Some X' /\ group_named (w_sys w') n x /\ g_name X' = g_name X /\
    (says_no_level doc n -> g_lov X' = g_lov X /\ (g_lov X = true -> g_level X' = g_level X)) /\
    (says_no_sink doc n -> not_root doc n -> g_sov X' = g_sov X /\ (g_sov X = true -> g_sink X' = g_sink X)) /\
    (not_inner doc n -> g_parent X' = g_parent X).
Proof.
  intros D H NN R T F N G E.
  assert (SF : not_nested src).
  { intros n' D'. assert (n' = doc) as ->; [|exact NN]. destruct D as [->|[p ->]], D' as [D'|[p' D']]; congruence. }
  pose proof (reachable_mono ord dbg usual_sinks usual _ (fun s c H => proj1 H) R) as RU.
  destruct (behaves_alone L ord fuel dbg src w w' (Val r) (reach_star ord dbg _ R) H) as (l & A & _ & B).
  destruct (yaml_from src doc w w' r D H) as (l' & EL & FR).
  pose proof (acts_log _ _ _ _ _ _ _ _ A) as EL'. assert (l' = l) as -> by (apply (app_inv_head (w_log w)); congruence).
  destruct (acts_kept _ w l w' n x X SF A RU T ltac:(lia) N G E) as (X' & E' & G' & (K1 & K2 & K3 & K4)).
  exists X'. split; [exact E'|]. split; [exact G'|]. split; [exact K1|]. split; [|split].
  - intros Hs. apply K2. eapply Forall_impl; [|exact FR]. intros [d|c] Hc; cbn; auto. destruct c; auto. cbn in Hc.
    destruct Hc as (p & y & Hb & Hn & Hl). intros ->. apply Hl. eapply Hs; eauto.
  - intros Hs Hr. apply K3. eapply Forall_impl; [|exact FR]. intros [d|c] Hc; cbn; auto. destruct c; auto. cbn in Hc.
    destruct Hc as (p & y & Hb & Hn & [Hl| ->]); intros ->; [apply Hl; eapply Hs; eauto|]. eapply Hr; eauto.
  - intros Hs. apply K4. eapply Forall_impl; [|exact FR]. intros [d|c] Hc; cbn; auto. destruct c; auto. cbn in Hc.
    destruct Hc as (y & Hb & Hn). destruct (Hs _ _ Hb) as [H1 H2]. split; [|exact H2]. intros ->. auto.
Qed.

(** ** C60 *)
Lemma sinks_read_rest w l w1 : sinks_read L w l w1 ->
  groups (w_sys w1) = groups (w_sys w) /\ gmap (w_sys w1) = gmap (w_sys w) /\ loggers (w_sys w1) = loggers (w_sys w) /\
  lmap (w_sys w1) = lmap (w_sys w) /\ (known w "*" -> known w1 "*").
Proof.
  induction 1 as [w|w n d l w' SR M C SS IH]; auto. destruct IH as (A & B & C' & D & K). cbn in *. repeat split; auto. intros KS. apply K.
  unfold known, world_with_sink, add_sink. cbn. rewrite SysBase.find_assign. destruct (String.eqb _ _); [discriminate|exact KS].
Qed.
Theorem tree_made src doc w w1 ds : document src doc -> doc_read L false w doc w1 ds -> known w "*" ->
  numbered (w_sys w) -> NoDup (map e_name (all_entries None ds)) ->
  (forall e, In e (all_entries None ds) -> find (gmap (w_sys w)) (e_name e) = None) ->
  exists w' gs, yaml None src w = (w', Val no_problem) /\
    groups (w_sys w') = groups (w_sys w) ++ gs /\ map g_name gs = map e_name (all_entries None ds) /\
    loggers (w_sys w') = loggers (w_sys w) /\ sinks (w_sys w') = sinks (w_sys w1) /\ smap (w_sys w') = smap (w_sys w1) /\
    (forall m, m <> "*" -> ~ In m (map e_name (all_entries None ds)) -> find (gmap (w_sys w')) m = find (gmap (w_sys w)) m) /\
    find (gmap (w_sys w')) "*" = fallback_after (w_sys w) (w_sys w') (all_entries None ds) /\
    Forall (entry_holds (w_sys w')) (all_entries None ds).
Proof.
  intros D DR KS [NG _] ND NEW.
  pose proof (applied_literally L UL RH ord fuel dbg doc src w w1 ds KS D DR) as Y.
  destruct DR as (_ & HS & g & _ & HG).
  assert (RS : groups (w_sys w1) = groups (w_sys w) /\ gmap (w_sys w1) = gmap (w_sys w) /\ loggers (w_sys w1) = loggers (w_sys w) /\
    lmap (w_sys w1) = lmap (w_sys w) /\ (known w "*" -> known w1 "*")).
  { destruct HS as [[_ ->]|(l & _ & HS)]; [tauto|]. now apply sinks_read_rest in HS. }
  destruct RS as (R1 & R2 & R3 & R4 & R5). specialize (R5 KS).
  destruct (make_entries ord fuel dbg (all_entries None ds) (map fst (gmap (w_sys w1))) w1) as (w' & gs & C1 & C2 & C3 & C4 & C5 & C6 & C7 & C8 & C9 & C10 & C11 & _).
  - intros n i. rewrite R1, R2. apply NG.
  - apply covers_dom.
  - eapply (all_entries_make L w1); [|exact R5|exact HG]. intros t. reflexivity.
  - exact ND.
  - intros e He. rewrite R2. auto.
  - exists w', gs. unfold doc_calls in Y. rewrite C1 in Y. split; [exact Y|]. rewrite R1, R2, R3 in *. repeat match goal with |- _ /\ _ => split end; auto.
    rewrite C10. unfold fallback_after. now rewrite R2.
Qed.
End Keep.
