(** * Properties of the logging system *)
From Coq Require Import String List Arith Bool Lia Permutation.
From Verif Require Import Base LevelModel SysModel SysSpec SysBase SysSpread SysInv SysOps SysSteps.
Import ListNotations.

Definition rearranges (ord : list nat -> list nat) : Prop := forall l, Permutation (ord l) l.

Lemma rearranges_in ord : rearranges ord -> forall l x, In x (ord l) <-> In x l.
Proof.
  intros H l x. split; intros Hx.
  - eapply Permutation_in; [apply H|exact Hx].
  - eapply Permutation_in; [apply Permutation_sym, H|exact Hx].
Qed.

(** The nearest group that has the property as its own. *)
Lemma source (ov : group -> bool) s x h : Inv s -> ht (groups s) x h -> exists a A, inherits ov s a x /\ nth_error (groups s) a = Some A /\ (g_parent A = None \/ ov A = true).
Proof.
  intros I H. induction H as [x X E P|x X p h E P H (a & A & Hi & EA & HA)].
  - exists x, X. repeat split; auto. constructor.
  - destruct (ov X) eqn:O; [exists x, X; repeat split; auto; constructor|].
    exists a, A. repeat split; auto. econstructor; eauto.
Qed.

Lemma inh_level s a x : Inv s -> inherits g_lov s a x -> forall X A, nth_error (groups s) x = Some X -> nth_error (groups s) a = Some A ->
  g_level X = g_level A.
Proof.
  intros I H. induction H as [|x X y E O P H IH]; intros X' A' EX EA; [congruence|].
  rewrite E in EX. injection EX as <-. destruct (lt_nth_some _ _ (V_par _ I _ _ _ E P)) as (Y & EY).
  rewrite <- (IH _ _ EY EA). eapply (H_lev _ I); eauto.
Qed.
Lemma inh_sink s a x : Inv s -> inherits g_sov s a x -> forall X A, nth_error (groups s) x = Some X -> nth_error (groups s) a = Some A ->
  g_sink X = g_sink A.
Proof.
  intros I H. induction H as [|x X y E O P H IH]; intros X' A' EX EA; [congruence|].
  rewrite E in EX. injection EX as <-. destruct (lt_nth_some _ _ (V_par _ I _ _ _ E P)) as (Y & EY).
  rewrite <- (IH _ _ EY EA). eapply (H_snk _ I); eauto.
Qed.

Section Props.
Variable ord : list nat -> list nat.
Hypothesis Hord : rearranges ord.
Variable dbg : bool.

Lemma usual_inv s : reachable ord dbg usual s -> Inv s.
Proof. apply reachable_inv; [apply rearranges_in; exact Hord|auto]. Qed.

(** ** C41, C42 *)
Lemma group_level s x X : reachable ord dbg usual s -> nth_error (groups s) x = Some X ->
  (forall p, g_parent X = Some p -> g_lov X = false -> exists P, nth_error (groups s) p = Some P /\ g_level X = g_level P) /\
  (exists a A, inherits g_lov s a x /\ nth_error (groups s) a = Some A /\ (g_parent A = None \/ g_lov A = true) /\ g_level X = g_level A).
Proof.
  intros H E. pose proof (usual_inv _ H) as I. split.
  - intros p P O. destruct (lt_nth_some _ _ (V_par _ I _ _ _ E P)) as (Y & EY). exists Y. split; [exact EY|]. eapply (H_lev _ I); eauto.
  - destruct (A_root _ I _ _ E) as (h & Hh). destruct (source g_lov s x h I Hh) as (a & A & Hi & EA & HA).
    exists a, A. repeat split; auto. eapply inh_level; eauto.
Qed.
Lemma group_sink s x X : reachable ord dbg usual s -> nth_error (groups s) x = Some X ->
  (forall p, g_parent X = Some p -> g_sov X = false -> exists P, nth_error (groups s) p = Some P /\ g_sink X = g_sink P) /\
  (exists a A, inherits g_sov s a x /\ nth_error (groups s) a = Some A /\ (g_parent A = None \/ g_sov A = true) /\ g_sink X = g_sink A).
Proof.
  intros H E. pose proof (usual_inv _ H) as I. split.
  - intros p P O. destruct (lt_nth_some _ _ (V_par _ I _ _ _ E P)) as (Y & EY). exists Y. split; [exact EY|]. eapply (H_snk _ I); eauto.
  - destruct (A_root _ I _ _ E) as (h & Hh). destruct (source g_sov s x h I Hh) as (a & A & Hi & EA & HA).
    exists a, A. repeat split; auto. eapply inh_sink; eauto.
Qed.

(** ** C43 *)
Lemma logger_follows s i L : reachable ord dbg usual s -> nth_error (loggers s) i = Some L -> l_alive L = true ->
  exists G, nth_error (groups s) (l_group L) = Some G /\
    (l_lov L = false -> l_level L = g_level G) /\
    (l_sov L = false -> g_sink G <> None -> l_sink L = g_sink G).
Proof.
  intros H E A. pose proof (usual_inv _ H) as I. destruct (lt_nth_some _ _ (V_lgrp _ I _ _ E)) as (G & EG).
  exists G. split; [exact EG|]. split; intros; [eapply (L_lev _ I); eauto|eapply (L_snk _ I); eauto].
Qed.

(** ** C44-C46 *)
Lemma set_level_effect s g gi G l : reachable ord dbg usual s -> group_named s g gi -> nth_error (groups s) gi = Some G ->
  exists s', step ord (enough s) dbg s (SetLevelOfGroup g l) = (s', RBool true) /\
    level_changed s s' gi l (match g_parent G with Some _ => true | None => g_lov G end).
Proof.
  intros H F E. pose proof (usual_inv _ H) as I. cbn. rewrite F.
  destruct (set_level_spec ord (rearranges_in _ Hord) (enough s) s gi G l I (le_n _) (in_snd_find _ _ _ F) E) as (s' & -> & Hc & _).
  exists s'. split; [reflexivity|exact Hc].
Qed.
Lemma reset_level_effect s g gi G : reachable ord dbg usual s -> group_named s g gi -> nth_error (groups s) gi = Some G ->
  exists s', step ord (enough s) dbg s (ResetLevelOfGroup g) = (s', RBool true) /\
    match g_parent G with
    | Some p => exists P, nth_error (groups s) p = Some P /\ level_changed s s' gi (g_level P) false
    | None => level_changed s s' gi (g_level G) (g_lov G)
    end.
Proof.
  intros H F E. pose proof (usual_inv _ H) as I. cbn. rewrite F.
  destruct (reset_level_spec ord (rearranges_in _ Hord) (enough s) s gi G I (le_n _) (in_snd_find _ _ _ F) E) as (s' & -> & Hc & _).
  exists s'. split; [reflexivity|]. unfold parent_of in Hc. rewrite E in Hc. destruct (g_parent G) as [p|] eqn:P; [|exact Hc].
  destruct (lt_nth_some _ _ (V_par _ I _ _ _ E P)) as (Y & EY). rewrite EY in Hc. exists Y. auto.
Qed.
Lemma set_sink_effect s g gi G k ki : reachable ord dbg usual s -> group_named s g gi -> nth_error (groups s) gi = Some G ->
  sink_named s k ki ->
  exists s', step ord (enough s) dbg s (SetSinkOfGroup g k) = (s', RBool true) /\
    sink_changed s s' gi (Some ki) (match g_parent G with Some _ => true | None => g_sov G end).
Proof.
  intros H F E Fk. pose proof (usual_inv _ H) as I. cbn. rewrite Fk, F.
  assert (Hk : ki < length (sinks s)) by (eapply (V_smap _ I); apply find_In; eauto).
  destruct (set_sink_spec ord (rearranges_in _ Hord) (enough s) s gi G ki I (le_n _) (in_snd_find _ _ _ F) E Hk) as (s' & -> & Hc & _).
  exists s'. split; [reflexivity|exact Hc].
Qed.
Lemma reset_sink_effect s g gi G : reachable ord dbg usual s -> group_named s g gi -> nth_error (groups s) gi = Some G ->
  exists s', step ord (enough s) dbg s (ResetSinkOfGroup g) = (s', RBool true) /\
    match g_parent G with
    | Some p => exists P, nth_error (groups s) p = Some P /\ sink_changed s s' gi (g_sink P) false
    | None => sink_changed s s' gi (g_sink G) (g_sov G)
    end.
Proof.
  intros H F E. pose proof (usual_inv _ H) as I. cbn. rewrite F.
  destruct (reset_sink_spec ord (rearranges_in _ Hord) (enough s) s gi G I (le_n _) (in_snd_find _ _ _ F) E) as (s' & -> & Hc & _).
  exists s'. split; [reflexivity|]. unfold parent_of in Hc. rewrite E in Hc. destruct (g_parent G) as [p|] eqn:P; [|exact Hc].
  destruct (lt_nth_some _ _ (V_par _ I _ _ _ E P)) as (Y & EY). rewrite EY in Hc. exists Y. auto.
Qed.
Lemma set_parent_effect s g gi G p pi P : reachable ord dbg usual s -> group_named s g gi -> nth_error (groups s) gi = Some G ->
  group_named s p pi -> nth_error (groups s) pi = Some P -> pi <> gi -> ~ would_cycle s gi pi ->
  exists s', step ord (enough s) dbg s (SetParentOfGroup g p) = (s', RBool true) /\
    parent_changed s s' gi (Some pi) (if g_lov G then g_level G else g_level P) (if g_sov G then g_sink G else g_sink P).
Proof.
  intros H F E F2 EP Hne Hnc. pose proof (usual_inv _ H) as I. cbn. rewrite F, F2.
  pose proof (cycle_check (enough s) s gi pi P I (le_n _) EP Hne) as Hc. cbn zeta in Hc.
  destruct (if oeqb _ _ then _ else _) as [[|]|]; [contradiction| |destruct Hc].
  destruct (set_parent_spec ord (rearranges_in _ Hord) (enough s) s gi G pi P I (le_n _) (in_snd_find _ _ _ F) E EP Hne (proj2 Hc)) as (s' & -> & Hch & _).
  exists s'. split; [reflexivity|exact Hch].
Qed.
Lemma unset_parent_effect s g gi G : reachable ord dbg usual s -> group_named s g gi -> nth_error (groups s) gi = Some G ->
  exists s', step ord (enough s) dbg s (UnsetParentOfGroup g) = (s', RBool true) /\
    parent_changed s s' gi None (g_level G) (g_sink G).
Proof.
  intros H F E. pose proof (usual_inv _ H) as I. cbn. rewrite F.
  destruct (unset_parent_spec ord (rearranges_in _ Hord) (enough s) s gi G I (le_n _) (in_snd_find _ _ _ F) E) as (s' & -> & Hch & _).
  exists s'. split; [reflexivity|exact Hch].
Qed.

(** ** C47 *)
Lemma rooted_acyclic s : Inv s -> acyclic s.
Proof.
  intros I x An.
  assert (H : forall a y, ancestor s a y -> forall ha hy, ht (groups s) a ha -> ht (groups s) y hy -> ha < hy).
  { intros a y H. induction H as [y X E P|y X z E P H IH]; intros ha hy Ha Hy.
    - inversion Hy as [|? X' p h E' P' Hp]; subst; [congruence|]. assert (p = a) by congruence. subst. rewrite (ht_fun _ _ _ _ Ha Hp). lia.
    - inversion Hy as [|? X' p h E' P' Hp]; subst; [congruence|]. assert (p = z) by congruence. subst. specialize (IH _ _ Ha Hp). lia. }
  assert (exists X, nth_error (groups s) x = Some X) as (X & E) by (inversion An; eauto).
  destruct (A_root _ I _ _ E) as (h & Hh). pose proof (H _ _ An _ _ Hh Hh). lia.
Qed.

Lemma no_cycles s : reachable ord dbg usual s ->
  acyclic s /\ forall fuel c, enough s <= fuel -> usual s c -> snd (step ord fuel dbg s c) <> RHang.
Proof.
  intros H. pose proof (usual_inv _ H) as I. split; [apply rooted_acyclic; exact I|].
  intros fuel c Hf Hc. apply step_inv; auto. apply rearranges_in. exact Hord.
Qed.

Lemma cycle_refused s g gi p pi : reachable ord dbg usual s -> group_named s g gi -> group_named s p pi -> pi <> gi ->
  would_cycle s gi pi -> step ord (enough s) dbg s (SetParentOfGroup g p) = (s, RBool false).
Proof.
  intros H F F2 Hne Hwc. pose proof (usual_inv _ H) as I. cbn. rewrite F, F2.
  destruct (find_valid _ _ _ I F2) as (P & EP).
  pose proof (cycle_check (enough s) s gi pi P I (le_n _) EP Hne) as Hc. cbn zeta in Hc.
  destruct (if oeqb _ _ then _ else _) as [[|]|]; [reflexivity|tauto|destruct Hc].
Qed.

(** ** C48 *)
Lemma same_refl s : same s s.
Proof. repeat (split; [reflexivity|]). intros n i. reflexivity. Qed.

Lemma live_spec s n i : Inv s -> live s n = Some i <-> live_named s n i.
Proof.
  intros I. split.
  - intros H. destruct (live_some _ _ _ H) as (L & F & E & A). split; [apply find_In; exact F|eauto].
  - intros (H & L & E & A). apply In_find in H; [|exact (N_l _ I)]. unfold live. rewrite H, E, A. reflexivity.
Qed.

Lemma same_drop s x : Inv s -> live s x = None -> same s (drop_entry s x).
Proof.
  intros I H. repeat (split; [reflexivity|]). intros n i. unfold live_named. cbn. rewrite erase_in. split.
  - intros ((A & _) & B). auto.
  - intros (A & L & E & B). split; [|eauto]. split; [exact A|]. intros ->. rewrite (live_none _ _ _ _ I H A E) in B. discriminate.
Qed.

Lemma outcome s c P : reachable ord dbg usual s -> usual s c -> succeeds s c = Some P ->
  (P -> snd (step ord (enough s) dbg s c) = RBool true) /\
  (~ P -> exists s', step ord (enough s) dbg s c = (s', RBool false) /\ same s s').
Proof.
  intros H Hu HP. pose proof (usual_inv _ H) as I. destruct c; try discriminate HP; injection HP as <-.
  - cbn [step]. unfold group_named. destruct (find (gmap s) g) as [i|] eqn:F.
    + split; [reflexivity|]. intros Hn. exfalso. apply Hn. eauto.
    + split; [intros (i & Hi); discriminate|]. intros _. exists s. auto using same_refl.
  - destruct (find (gmap s) g) as [gi|] eqn:F.
    2:{ split; [intros (i & j & Hi & _); unfold group_named in Hi; congruence|]. intros _. exists s. cbn [step]. rewrite F. auto using same_refl. }
    destruct (find (gmap s) p) as [pi|] eqn:F2.
    2:{ split; [intros (i & j & _ & Hj & _); unfold group_named in Hj; congruence|]. intros _. exists s. cbn [step]. rewrite F, F2. auto using same_refl. }
    destruct (find_valid _ _ _ I F) as (G & EG). destruct (find_valid _ _ _ I F2) as (Q & EQ).
    assert (Hne : pi <> gi). { destruct Hu as (Hs & _). cbn in Hs. rewrite F, F2 in Hs. destruct Hs; congruence. }
    split.
    + intros (i & j & Hi & Hj & Hn). unfold group_named in Hi, Hj. rewrite F in Hi. rewrite F2 in Hj. injection Hi as <-. injection Hj as <-.
      destruct (set_parent_effect s g gi G p pi Q H F EG F2 EQ Hne Hn) as (s' & -> & _). reflexivity.
    + intros Hn. exists s. split; [|apply same_refl]. 
      cbn [step]. rewrite F, F2. pose proof (cycle_check (enough s) s gi pi Q I (le_n _) EQ Hne) as Hc. cbn zeta in *.
      destruct (if oeqb _ _ then _ else _) as [[|]|]; [reflexivity| |destruct Hc].
      exfalso. apply Hn. exists gi, pi. repeat split; auto. apply Hc.
  - destruct (find (gmap s) g) as [gi|] eqn:F.
    + split; [|intros Hn; exfalso; apply Hn; unfold group_named; eauto]. intros _. destruct (find_valid _ _ _ I F) as (G & EG).
      destruct (unset_parent_effect s g gi G H F EG) as (s' & -> & _). reflexivity.
    + split; [intros (i & Hi); unfold group_named in Hi; congruence|]. intros _. exists s. cbn [step]. rewrite F. auto using same_refl.
  - destruct (find (smap s) k) as [ki|] eqn:F2.
    2:{ split; [intros (i & j & _ & Hj); unfold sink_named in Hj; congruence|]. intros _. exists s. cbn [step]. rewrite F2. auto using same_refl. }
    destruct (find (gmap s) g) as [gi|] eqn:F.
    + split; [|intros Hn; exfalso; apply Hn; unfold group_named, sink_named; eauto]. intros _. destruct (find_valid _ _ _ I F) as (G & EG).
      destruct (set_sink_effect s g gi G k ki H F EG F2) as (s' & -> & _). reflexivity.
    + split; [intros (i & j & Hi & _); unfold group_named in Hi; congruence|]. intros _. exists s. cbn [step]. rewrite F2, F. auto using same_refl.
  - destruct (find (gmap s) g) as [gi|] eqn:F.
    + split; [|intros Hn; exfalso; apply Hn; unfold group_named; eauto]. intros _. destruct (find_valid _ _ _ I F) as (G & EG).
      destruct (reset_sink_effect s g gi G H F EG) as (s' & -> & _). reflexivity.
    + split; [intros (i & Hi); unfold group_named in Hi; congruence|]. intros _. exists s. cbn [step]. rewrite F. auto using same_refl.
  - destruct (find (gmap s) g) as [gi|] eqn:F.
    + split; [|intros Hn; exfalso; apply Hn; unfold group_named; eauto]. intros _. destruct (find_valid _ _ _ I F) as (G & EG).
      destruct (set_level_effect s g gi G lv H F EG) as (s' & -> & _). reflexivity.
    + split; [intros (i & Hi); unfold group_named in Hi; congruence|]. intros _. exists s. cbn [step]. rewrite F. auto using same_refl.
  - destruct (find (gmap s) g) as [gi|] eqn:F.
    + split; [|intros Hn; exfalso; apply Hn; unfold group_named; eauto]. intros _. destruct (find_valid _ _ _ I F) as (G & EG).
      destruct (reset_level_effect s g gi G H F EG) as (s' & -> & _). reflexivity.
    + split; [intros (i & Hi); unfold group_named in Hi; congruence|]. intros _. exists s. cbn [step]. rewrite F. auto using same_refl.
  - cbn [step]. unfold group_named. destruct (find (gmap s) g) as [gi|] eqn:F.
    2:{ split; [intros (i & j & _ & Hj); congruence|]. intros _. exists s. auto using same_refl. }
    destruct (find_valid _ _ _ I F) as (G & EG). rewrite EG. destruct (live s x) as [i|] eqn:Lv.
    + split; [reflexivity|]. intros Hn. exfalso. apply Hn. exists i, gi. split; [apply live_spec; auto|reflexivity].
    + split; [intros (i & j & Hi & _); apply live_spec in Hi; auto; congruence|]. intros _. eexists. split; [reflexivity|]. apply same_drop; auto.
  - cbn [step]. unfold sink_named. destruct (find (smap s) k) as [ki|] eqn:F.
    2:{ split; [intros (i & j & _ & Hj); congruence|]. intros _. exists s. auto using same_refl. }
    destruct (live s x) as [i|] eqn:Lv.
    + split; [reflexivity|]. intros Hn. exfalso. apply Hn. exists i, ki. split; [apply live_spec; auto|reflexivity].
    + split; [intros (i & j & Hi & _); apply live_spec in Hi; auto; congruence|]. intros _. eexists. split; [reflexivity|]. apply same_drop; auto.
  - cbn [step]. destruct (live s x) as [i|] eqn:Lv.
    + destruct (live_some _ _ _ Lv) as (L & Fi & E & A). rewrite E. destruct (lt_nth_some _ _ (V_lgrp _ I _ _ E)) as (Y & EY). rewrite EY.
      split; [reflexivity|]. intros Hn. exfalso. apply Hn. exists i. apply live_spec; auto.
    + split; [intros (i & Hi); apply live_spec in Hi; auto; congruence|]. intros _. exists s. auto using same_refl.
  - cbn [step]. destruct (live s x) as [i|] eqn:Lv.
    + split; [reflexivity|]. intros Hn. exfalso. apply Hn. exists i. apply live_spec; auto.
    + split; [intros (i & Hi); apply live_spec in Hi; auto; congruence|]. intros _. eexists. split; [reflexivity|]. apply same_drop; auto.
  - cbn [step]. destruct (live s x) as [i|] eqn:Lv.
    + destruct (live_some _ _ _ Lv) as (L & Fi & E & A). rewrite E. destruct (lt_nth_some _ _ (V_lgrp _ I _ _ E)) as (Y & EY). rewrite EY.
      split; [reflexivity|]. intros Hn. exfalso. apply Hn. exists i. apply live_spec; auto.
    + split; [intros (i & Hi); apply live_spec in Hi; auto; congruence|]. intros _. eexists. split; [reflexivity|]. apply same_drop; auto.
Qed.

(** ** C49, C50 *)
Lemma new_logger_is s x i y k lv : is_new_logger s x i y k lv (new_logger s x i y k lv).
Proof.
  unfold is_new_logger, new_logger, l_construct, l_level_from, l_sink_from.
  destruct (g_sink y) as [j|]; destruct k as [n|]; try destruct (find (smap s) n); destruct lv; cbn; rewrite ?Nat.eqb_refl; cbn; repeat split.
Qed.

Lemma get_live s x i g k lv : reachable ord dbg usual s -> configured s = true -> live_named s x i ->
  step ord (enough s) dbg s (GetLogger x g k lv) = (s, RLogger i).
Proof.
  intros H Hc Hl. pose proof (usual_inv _ H) as I. apply live_spec in Hl; [|exact I]. cbn. unfold get_logger. rewrite Hc, Hl. reflexivity.
Qed.

Lemma one_live s x i j : reachable ord dbg usual s -> live_named s x i -> live_named s x j -> i = j.
Proof. intros H Hi Hj. pose proof (usual_inv _ H) as I. apply live_spec in Hi, Hj; auto. congruence. Qed.

Lemma alive_named s i L : reachable ord dbg usual s -> nth_error (loggers s) i = Some L -> l_alive L = true -> live_named s (l_name L) i.
Proof. intros H E A. pose proof (usual_inv _ H) as I. split; [eapply (LReg _ I); eauto|eauto]. Qed.

(** The system with a new logger. *)
Definition added (s s' : sys) (L : logger) : Prop :=
  groups s' = groups s /\ loggers s' = loggers s ++ [L] /\ sinks s' = sinks s /\ gmap s' = gmap s /\ smap s' = smap s /\
  configured s' = configured s /\
  (forall n i, live_named s' n i <-> live_named s n i \/ (n = l_name L /\ i = length (loggers s))).

Lemma added_new s x i y k lv : Inv s -> live s x = None -> nth_error (groups s) i = Some y ->
  added s (with_loggers s (loggers s ++ [new_logger s x i y k lv]) (assign (lmap s) x (length (loggers s)))) (new_logger s x i y k lv).
Proof.
  intros I Lv E. destruct (new_logger_ok s x i y k lv I E) as (Hok & Hn & Hg & Ha). set (L := new_logger s x i y k lv) in *.
  repeat (split; [reflexivity|]). intros n j. unfold live_named. cbn. rewrite (in_assign_iff _ _ _ _ _ (N_l _ I)), Hn. split.
  - intros ([(-> & ->)|(Hne & Hi)] & M & EM & A); [auto|]. left. split; [exact Hi|]. apply nth_app_cases in EM.
    destruct EM as [(_ & EM)|(-> & ->)]; [eauto|]. destruct (V_lmap _ I _ _ Hi) as (M' & EM' & _). apply nth_some_lt in EM'. lia.
  - intros [(Hi & M & EM & A)|(-> & ->)].
    + split.
      * right. split; [|exact Hi]. intros ->. rewrite (live_none _ _ _ _ I Lv Hi EM) in A. discriminate.
      * exists M. rewrite nth_error_app1 by (eapply nth_some_lt; eauto). auto.
    + split; [auto|]. exists L. rewrite nth_error_app2, Nat.sub_diag by lia. auto.
Qed.

Lemma get_new s x g gi G k lv : reachable ord dbg usual s -> configured s = true -> (forall i, ~ live_named s x i) ->
  g <> "*"%string -> group_named s g gi -> nth_error (groups s) gi = Some G ->
  exists s' L, step ord (enough s) dbg s (GetLogger x g k lv) = (s', RLogger (length (loggers s))) /\
    added s s' L /\ is_new_logger s x gi G k lv L.
Proof.
  intros H Hc Hl Hg F E. pose proof (usual_inv _ H) as I. cbn.
  assert (Lv : live s x = None). { destruct (live s x) as [i|] eqn:Lv; [|reflexivity]. apply live_spec in Lv; auto. exfalso. eapply Hl; eauto. }
  destruct (get_logger_cases dbg s x g k lv I) as [(Q & _)|[(_ & i & Q & _)|[(_ & _ & Q & _)|(i & y & w & _ & _ & Q & E' & Hgl)]]]; try congruence.
  - exfalso. unfold group_for in Q. destruct (String.eqb_spec g "*"); [contradiction|]. rewrite F in Q. discriminate.
  - unfold group_for in Q. destruct (String.eqb_spec g "*"); [contradiction|]. rewrite F in Q. injection Q as <- <-. cbn in Hgl.
    rewrite E in E'. injection E' as <-. do 2 eexists. split; [exact Hgl|]. split; [apply added_new; auto|apply new_logger_is].
Qed.

(** Unknown group, or "*" in a release build. *)
Lemma get_fallback s x g fi G k lv : reachable ord dbg usual s -> configured s = true -> (forall i, ~ live_named s x i) ->
  (forall i, ~ group_named s g i) \/ (g = "*"%string /\ dbg = false) ->
  group_named s "*" fi -> nth_error (groups s) fi = Some G -> g_sink G <> None ->
  exists s' L, step ord (enough s) dbg s (GetLogger x g k lv) = (s', RLogger (length (loggers s))) /\
    added s s' L /\ is_new_logger s x fi G k lv L.
Proof.
  intros H Hc Hl Hg F E Hk. pose proof (usual_inv _ H) as I. cbn.
  assert (Lv : live s x = None). { destruct (live s x) as [i|] eqn:Lv; [|reflexivity]. apply live_spec in Lv; auto. exfalso. eapply Hl; eauto. }
  assert (Q' : group_for dbg s g = Some (fi, true)).
  { unfold group_for. destruct (String.eqb_spec g "*") as [->|Hne].
    - destruct Hg as [Hg|(_ & ->)]; [exfalso; eapply Hg; eauto|]. rewrite F. reflexivity.
    - destruct Hg as [Hg|(-> & _)]; [|contradiction]. destruct (find (gmap s) g) as [i|] eqn:Fg; [exfalso; eapply Hg; eauto|]. rewrite F. reflexivity. }
  destruct (get_logger_cases dbg s x g k lv I) as [(Q & _)|[(_ & i & Q & _)|[(_ & _ & Q & _)|(i & y & w & _ & _ & Q & E' & Hgl)]]]; try congruence.
  rewrite Q' in Q. injection Q as <- <-. rewrite E in E'. injection E' as <-.
  assert (Hw : can_warn G = true) by (unfold can_warn; destruct (g_sink G); congruence). rewrite Hw in Hgl. cbn in Hgl.
  do 2 eexists. split; [exact Hgl|]. split; [apply added_new; auto|apply new_logger_is].
Qed.

(** What "*" names. *)
Lemma fallback_kept fuel s c : Inv s ->
  match c with
  | SetFallbackGroup g => forall i, group_named s g i -> group_named (fst (step ord fuel dbg s c)) "*" i
  | MakeGroup n _ _ _ => forall i, snd (step ord fuel dbg s c) = RGroup i ->
      if String.eqb n "*" then group_named (fst (step ord fuel dbg s c)) "*" i
      else match find (gmap s) "*" with
           | Some j => group_named (fst (step ord fuel dbg s c)) "*" j
           | None => group_named (fst (step ord fuel dbg s c)) "*" i
           end
  | _ => find (gmap (fst (step ord fuel dbg s c))) "*" = find (gmap s) "*"
  end.
Proof.
  intros I.
  assert (Hsp : forall o : option sys, (forall s', o = Some s' -> gmap s' = gmap s) -> find (gmap (fst (ret s o))) "*" = find (gmap s) "*").
  { intros [s'|] Ho; cbn; [rewrite (Ho _ eq_refl)|]; reflexivity. }
  assert (Hspread : forall ov up lup s1 g s', spread ord fuel ov up lup s1 g = Some s' -> gmap s1 = gmap s -> gmap s' = gmap s).
  { intros ov up lup s1 g s' Hs Hg. unfold spread in Hs. destruct (scan _ _ _ _ _ _ _) as [[passed st]|]; [|discriminate].
    destruct (spread_loggers _ _ _ _ _) as [ls lm]. injection Hs as <-. exact Hg. }
  assert (Hmod : forall s0 g f, gmap (mod_group s0 g f) = gmap s0) by (intros; unfold mod_group; destruct (nth_error _ _); reflexivity).
  assert (Hml : forall i f, gmap (mod_logger s i f) = gmap s) by (intros; unfold mod_logger; destruct (nth_error _ _); reflexivity).
  destruct c; cbn [step]; try reflexivity.
  - destruct (construct s name parent sink lv) as [[s' i]|] eqn:C; cbn; [|discriminate].
    destruct (construct_some _ _ _ _ _ _ _ I C) as (X & -> & -> & _ & _). intros i [= <-]. unfold group_named. cbn.
    rewrite find_assign. rewrite (String.eqb_sym "*" name). destruct (String.eqb name "*"); [reflexivity|].
    destruct (find (gmap s) "*") as [j|] eqn:F; [exact F|]. apply find_assign_same.
  - intros i Hi. rewrite Hi. cbn. apply find_assign_same.
  - destruct (find (gmap s) g); [|reflexivity]. destruct (find (gmap s) p) as [pi|]; [|reflexivity].
    destruct (if oeqb _ _ then _ else _) as [[|]|]; try reflexivity. apply Hsp. intros s' Hs. unfold set_parent_of_group in Hs.
    eapply Hspread; [exact Hs|]. rewrite Hmod. destruct (nth_error (groups s) pi) as [y|]; [|reflexivity].
    destruct (oeqb _ _); [apply Hmod|reflexivity].
  - destruct (find (gmap s) g); [|reflexivity]. apply Hsp. intros s' Hs. unfold set_parent_of_group in Hs. eapply Hspread; [exact Hs|]. apply Hmod.
  - destruct (find (smap s) k); [|reflexivity]. destruct (find (gmap s) g); [|reflexivity]. apply Hsp. intros s' Hs. unfold set_sink_of_group in Hs. eapply Hspread; [exact Hs|]. apply Hmod.
  - destruct (find (gmap s) g); [|reflexivity]. apply Hsp. intros s' Hs. unfold set_sink_of_group in Hs. eapply Hspread; [exact Hs|]. apply Hmod.
  - destruct (find (gmap s) g); [|reflexivity]. apply Hsp. intros s' Hs. unfold set_level_of_group in Hs. eapply Hspread; [exact Hs|]. apply Hmod.
  - destruct (find (gmap s) g); [|reflexivity]. apply Hsp. intros s' Hs. unfold set_level_of_group in Hs. eapply Hspread; [exact Hs|]. apply Hmod.
  - destruct (find (gmap s) g); [|reflexivity]. destruct (live s x); [|reflexivity]. destruct (nth_error _ _); [cbn; rewrite Hml|]; reflexivity.
  - destruct (find (smap s) k); [|reflexivity]. destruct (live s x); cbn; [rewrite Hml|]; reflexivity.
  - destruct (live s x); [|reflexivity]. destruct (nth_error (loggers s) _) as [L|]; [|reflexivity]. destruct (nth_error (groups s) _); cbn; [rewrite Hml|]; reflexivity.
  - destruct (live s x); cbn; [rewrite Hml|]; reflexivity.
  - destruct (live s x); [|reflexivity]. destruct (nth_error (loggers s) _) as [L|]; [|reflexivity]. destruct (nth_error (groups s) _); cbn; [rewrite Hml|]; reflexivity.
  - destruct (get_logger_cases dbg s x g k lv I) as [(_ & ->)|[(_ & i & _ & ->)|[(_ & _ & _ & ->)|(i & y & w & _ & _ & _ & _ & Hgl)]]]; try reflexivity.
    destruct (w && negb (can_warn y)); rewrite Hgl; reflexivity.
  - cbn. rewrite Hml. reflexivity.
  - destruct (nth_error (loggers s) _) as [L|]; [|reflexivity]. destruct (nth_error (groups s) _); cbn; [rewrite Hml|]; reflexivity.
  - destruct (nth_error (groups s) _); cbn; [rewrite Hml|]; reflexivity.
  - destruct (Nat.ltb _ _); cbn; [rewrite Hml|]; reflexivity.
  - destruct (nth_error (loggers s) _) as [L|]; [|reflexivity]. destruct (nth_error (groups s) _); cbn; [rewrite Hml|]; reflexivity.
  - destruct (nth_error (groups s) _); cbn; [rewrite Hml|]; reflexivity.
  - destruct (nth_error (groups s) _); cbn; [rewrite Hml|]; reflexivity.
  - cbn. rewrite Hml. reflexivity.
  - cbn. symmetry. apply find_perm; [apply Permutation_sym, swap_perm|exact (N_g _ I)].
Qed.

(** ** C53 *)
Lemma make_group_throws s n p k lv : Inv s -> ~ makeable s p k lv -> step ord (enough s) dbg s (MakeGroup n p k lv) = (s, RThrow).
Proof.
  intros I Hn. cbn. unfold construct, g_construct.
  destruct p as [pn|]; [fold (look s pn); destruct (look s pn) as [[pi P]|] eqn:LP; [|reflexivity]|].
  - rewrite g_set_parent_eq. cbn. unfold look in LP. destruct (find (gmap s) pn) as [j|] eqn:F; [|discriminate].
    destruct k as [kn|]; [destruct (find (smap s) kn) as [ki|] eqn:FK; [|reflexivity]|].
    + exfalso. apply Hn. split; [intros m [= <-]; exists j; exact F|]. split; [intros m [= <-]; exists ki; exact FK|discriminate].
    + exfalso. apply Hn. split; [intros m [= <-]; exists j; exact F|]. split; discriminate.
  - destruct k as [kn|]; [destruct (find (smap s) kn) as [ki|] eqn:FK; [|reflexivity]|]; destruct lv as [l|]; try reflexivity; exfalso; apply Hn.
    + split; [discriminate|]. split; [intros m [= <-]; exists ki; exact FK|discriminate].
    + split; [discriminate|]. split; discriminate.
Qed.

Lemma make_group_makes s n p k lv : Inv s -> makeable s p k lv ->
  exists s' X, step ord (enough s) dbg s (MakeGroup n p k lv) = (s', RGroup (length (groups s))) /\
    is_new_group s n p k lv X /\ groups s' = groups s ++ [X] /\
    loggers s' = loggers s /\ sinks s' = sinks s /\ lmap s' = lmap s /\ smap s' = smap s /\ configured s' = configured s /\
    group_named s' n (length (groups s)) /\
    (forall m, m <> n -> m <> "*"%string -> find (gmap s') m = find (gmap s) m) /\
    (n <> "*"%string -> find (gmap s') "*" = match find (gmap s) "*" with Some i => Some i | None => Some (length (groups s)) end).
Proof.
  intros I (M1 & M2 & M3).
  assert (C : exists X, construct s n p k lv = Some (with_groups s (groups s ++ [X]), length (groups s)) /\ is_new_group s n p k lv X).
  { unfold construct, g_construct.
    destruct p as [pn|].
    - destruct (M1 _ eq_refl) as (pi & F). destruct (find_valid _ _ _ I F) as (P & EP). unfold group_named in F. rewrite F, EP.
      rewrite g_set_parent_eq. cbn.
      destruct k as [kn|]; [destruct (M2 _ eq_refl) as (ki & FK); unfold sink_named in FK; rewrite FK|];
        destruct lv as [l|]; cbn; eexists; (split; [reflexivity|]); (split; [reflexivity|]); exists pi, P; cbn; rewrite ?FK; repeat split; auto.
    - destruct lv as [l|]; [|exfalso; apply M3; reflexivity].
      destruct k as [kn|]; [destruct (M2 _ eq_refl) as (ki & FK); unfold sink_named in FK; rewrite FK|]; cbn; eexists; (split; [reflexivity|]);
        repeat split; cbn; auto. }
  destruct C as (X & C & HX). cbn [step]. rewrite C. do 2 eexists. split; [reflexivity|]. split; [exact HX|]. cbn.
  repeat (split; [reflexivity|]). split; [apply find_assign_same|]. split.
  - intros m Hm Hs. rewrite find_assign_other by exact Hm. destruct (find (gmap s) "*"); [reflexivity|]. apply find_assign_other. exact Hs.
  - intros Hn. rewrite find_assign_other by auto. destruct (find (gmap s) "*") eqn:F; [exact F|]. apply find_assign_same.
Qed.

Lemma makeable_dec s p k lv : makeable s p k lv \/ ~ makeable s p k lv.
Proof.
  assert (D1 : (forall n, p = Some n -> exists i, group_named s n i) \/ ~ (forall n, p = Some n -> exists i, group_named s n i)).
  { destruct p as [n|]; [|left; discriminate]. unfold group_named. destruct (find (gmap s) n) as [i|] eqn:F.
    - left. intros m [= <-]. eauto.
    - right. intros H. destruct (H _ eq_refl). congruence. }
  assert (D2 : (forall n, k = Some n -> exists i, sink_named s n i) \/ ~ (forall n, k = Some n -> exists i, sink_named s n i)).
  { destruct k as [n|]; [|left; discriminate]. unfold sink_named. destruct (find (smap s) n) as [i|] eqn:F.
    - left. intros m [= <-]. eauto.
    - right. intros H. destruct (H _ eq_refl). congruence. }
  assert (D3 : (p = None -> lv <> None) \/ ~ (p = None -> lv <> None)).
  { destruct p; [left; discriminate|]. destruct lv; [left; discriminate|]. right. intros H. apply H; reflexivity. }
  unfold makeable. tauto.
Qed.

(** ** C51 *)
Lemma step_configured fuel s c : configured (fst (step ord fuel dbg s c)) = configured s.
Proof.
  assert (Hsp : forall o : option sys, (forall s', o = Some s' -> configured s' = configured s) -> configured (fst (ret s o)) = configured s).
  { intros [s'|] Ho; cbn; [rewrite (Ho _ eq_refl)|]; reflexivity. }
  assert (Hspread : forall ov up lup s1 g s', spread ord fuel ov up lup s1 g = Some s' -> configured s1 = configured s -> configured s' = configured s).
  { intros ov up lup s1 g s' Hs Hg. unfold spread in Hs. destruct (scan _ _ _ _ _ _ _) as [[passed st]|]; [|discriminate].
    destruct (spread_loggers _ _ _ _ _) as [ls lm]. injection Hs as <-. exact Hg. }
  assert (Hmod : forall s0 g f, configured (mod_group s0 g f) = configured s0) by (intros; unfold mod_group; destruct (nth_error _ _); reflexivity).
  assert (Hml : forall i f, configured (mod_logger s i f) = configured s) by (intros; unfold mod_logger; destruct (nth_error _ _); reflexivity).
  destruct c; cbn [step]; try reflexivity.
  - unfold construct. destruct (g_construct _ _ _ _); reflexivity.
  - destruct (find (gmap s) g); reflexivity.
  - destruct (find (gmap s) g); [|reflexivity]. destruct (find (gmap s) p) as [pi|]; [|reflexivity].
    destruct (if oeqb _ _ then _ else _) as [[|]|]; try reflexivity. apply Hsp. intros s' Hs. unfold set_parent_of_group in Hs.
    eapply Hspread; [exact Hs|]. rewrite Hmod. destruct (nth_error (groups s) pi) as [y|]; [|reflexivity].
    destruct (oeqb _ _); [apply Hmod|reflexivity].
  - destruct (find (gmap s) g); [|reflexivity]. apply Hsp. intros s' Hs. unfold set_parent_of_group in Hs. eapply Hspread; [exact Hs|]. apply Hmod.
  - destruct (find (smap s) k); [|reflexivity]. destruct (find (gmap s) g); [|reflexivity]. apply Hsp. intros s' Hs. unfold set_sink_of_group in Hs. eapply Hspread; [exact Hs|]. apply Hmod.
  - destruct (find (gmap s) g); [|reflexivity]. apply Hsp. intros s' Hs. unfold set_sink_of_group in Hs. eapply Hspread; [exact Hs|]. apply Hmod.
  - destruct (find (gmap s) g); [|reflexivity]. apply Hsp. intros s' Hs. unfold set_level_of_group in Hs. eapply Hspread; [exact Hs|]. apply Hmod.
  - destruct (find (gmap s) g); [|reflexivity]. apply Hsp. intros s' Hs. unfold set_level_of_group in Hs. eapply Hspread; [exact Hs|]. apply Hmod.
  - destruct (find (gmap s) g); [|reflexivity]. destruct (live s x); [|reflexivity]. destruct (nth_error _ _); [cbn; rewrite Hml|]; reflexivity.
  - destruct (find (smap s) k); [|reflexivity]. destruct (live s x); cbn; [rewrite Hml|]; reflexivity.
  - destruct (live s x); [|reflexivity]. destruct (nth_error (loggers s) _) as [L|]; [|reflexivity]. destruct (nth_error (groups s) _); cbn; [rewrite Hml|]; reflexivity.
  - destruct (live s x); cbn; [rewrite Hml|]; reflexivity.
  - destruct (live s x); [|reflexivity]. destruct (nth_error (loggers s) _) as [L|]; [|reflexivity]. destruct (nth_error (groups s) _); cbn; [rewrite Hml|]; reflexivity.
  - unfold get_logger. destruct (configured s) eqn:Cf; [|exact Cf]. cbn [negb]. destruct (live s x); [exact Cf|].
    destruct (String.eqb g "*").
    + destruct dbg; [exact Cf|]. destruct (find (gmap s) "*"); [|exact Cf]. destruct (nth_error _ _); [|exact Cf]. destruct (true && _); [exact Cf|]. exact Cf.
    + destruct (find (gmap s) g).
      * destruct (nth_error _ _); [|exact Cf]. cbn. exact Cf.
      * destruct (find (gmap s) "*"); [|exact Cf]. destruct (nth_error _ _); [|exact Cf]. destruct (true && _); exact Cf.
  - cbn. rewrite Hml. reflexivity.
  - destruct (nth_error (loggers s) _) as [L|]; [|reflexivity]. destruct (nth_error (groups s) _); cbn; [rewrite Hml|]; reflexivity.
  - destruct (nth_error (groups s) _); cbn; [rewrite Hml|]; reflexivity.
  - destruct (Nat.ltb _ _); cbn; [rewrite Hml|]; reflexivity.
  - destruct (nth_error (loggers s) _) as [L|]; [|reflexivity]. destruct (nth_error (groups s) _); cbn; [rewrite Hml|]; reflexivity.
  - destruct (nth_error (groups s) _); cbn; [rewrite Hml|]; reflexivity.
  - destruct (nth_error (groups s) _); cbn; [rewrite Hml|]; reflexivity.
  - cbn. rewrite Hml. reflexivity.
Qed.

Lemma run_configured fuel cs : forall s, configured (fst (run ord fuel dbg s cs)) = configured s.
Proof.
  induction cs as [|c cs IH]; intros s; cbn; [reflexivity|].
  pose proof (step_configured fuel s c) as Hc. destruct (step ord fuel dbg s c) as [s' o]. cbn in Hc.
  specialize (IH s'). destruct o; cbn; auto; destruct (run ord fuel dbg s' cs) as [s2 os]; cbn in *; congruence.
Qed.

End Props.
