(** * Invariant of the logging system, and the effect of changes of a group *)
From Coq Require Import String List Arith Bool Lia Permutation.
From Verif Require Import Base LevelModel SysModel SysSpec SysBase SysSpread.
Import ListNotations.

Record Inv (s : sys) : Prop := {
  V_par : forall x X p, nth_error (groups s) x = Some X -> g_parent X = Some p -> p < length (groups s);
  V_gmap : forall n i, In (n, i) (gmap s) -> i < length (groups s);
  V_lgrp : forall i L, nth_error (loggers s) i = Some L -> l_group L < length (groups s);
  V_lmap : forall n i, In (n, i) (lmap s) -> exists L, nth_error (loggers s) i = Some L /\ l_name L = n;
  V_smap : forall n i, In (n, i) (smap s) -> i < length (sinks s);
  V_gsnk : forall x X k, nth_error (groups s) x = Some X -> g_sink X = Some k -> k < length (sinks s);
  V_lsnk : forall i L k, nth_error (loggers s) i = Some L -> l_sink L = Some k -> k < length (sinks s);
  N_g : NoDup (map fst (gmap s));
  N_l : NoDup (map fst (lmap s));
  N_s : NoDup (map fst (smap s));
  A_root : rooted (groups s);
  H_lev : forall x X p Y, nth_error (groups s) x = Some X -> g_lov X = false -> g_parent X = Some p ->
    nth_error (groups s) p = Some Y -> g_level X = g_level Y;
  H_snk : forall x X p Y, nth_error (groups s) x = Some X -> g_sov X = false -> g_parent X = Some p ->
    nth_error (groups s) p = Some Y -> g_sink X = g_sink Y;
  L_lev : forall i L Y, nth_error (loggers s) i = Some L -> l_alive L = true -> l_lov L = false ->
    nth_error (groups s) (l_group L) = Some Y -> l_level L = g_level Y;
  L_snk : forall i L Y, nth_error (loggers s) i = Some L -> l_alive L = true -> l_sov L = false ->
    nth_error (groups s) (l_group L) = Some Y -> g_sink Y <> None -> l_sink L = g_sink Y;
  Reg : forall x X, nth_error (groups s) x = Some X -> g_parent X <> None -> In x (map snd (gmap s));
  LReg : forall i L, nth_error (loggers s) i = Some L -> l_alive L = true -> In (l_name L, i) (lmap s);
  Star : gmap s <> [] -> find (gmap s) "*" <> None
}.

Lemma lmap_nodup s : Inv s -> NoDup (map snd (lmap s)).
Proof.
  intros I. pose proof (N_l _ I) as Hn. pose proof (V_lmap _ I) as Hv. revert Hn Hv. generalize (lmap s).
  induction l as [|[n i] m IH]; intros Hn Hv; cbn; [constructor|].
  cbn in Hn. inversion Hn as [|? ? H1 H2]; subst. constructor.
  - intros Hi. apply in_map_iff in Hi. destruct Hi as ([n' i'] & Heq & Hi). cbn in Heq. subst i'. apply H1.
    destruct (Hv n i (or_introl eq_refl)) as (L & E & En). destruct (Hv n' i (or_intror Hi)) as (L' & E' & En').
    rewrite E in E'. injection E' as <-. rewrite <- En, En'. change n' with (fst (n', i)). apply in_map. exact Hi.
  - apply IH; [exact H2|]. intros n' i' Hi. apply Hv. right. exact Hi.
Qed.

Lemma inherits_dec ov s g x h : ht (groups s) x h -> inherits ov s g x \/ ~ inherits ov s g x.
Proof.
  intros H. induction H as [x X E P|x X p h E P H IH].
  - destruct (Nat.eq_dec x g) as [->|Hg]; [left; constructor|]. right. intros Hi. inversion Hi; subst; congruence.
  - destruct (Nat.eq_dec x g) as [->|Hg]; [left; constructor|].
    destruct (ov X) eqn:O; [right; intros Hi; inversion Hi; subst; congruence|].
    destruct IH as [IH|IH]; [left; econstructor; eauto|]. right. intros Hi. inversion Hi as [|? X' y E' O' P' Hi']; subst; [congruence|].
    apply IH. assert (y = p) by congruence. subst. exact Hi'.
Qed.

Lemma inherits_ht ov s g x hg hx : inherits ov s g x -> ht (groups s) g hg -> ht (groups s) x hx -> hg <= hx.
Proof.
  intros H Hg. revert hx. induction H as [|x X y E O P H IH]; intros hx Hx.
  - rewrite (ht_fun _ _ _ _ Hg Hx). lia.
  - inversion Hx as [|? X' p h' E' P' Hp]; subst; [congruence|]. assert (p = y) by congruence. subst. specialize (IH _ Hp). lia.
Qed.

Lemma inherits_up ov s g x X p : inherits ov s g x -> x <> g -> nth_error (groups s) x = Some X ->
  g_parent X = Some p -> inherits ov s g p /\ ov X = false.
Proof. intros H Hg E P. inversion H; subst; [congruence|]. rewrite E in H0. injection H0 as <-. rewrite P in H2. injection H2 as <-. auto. Qed.

Lemma inherits_mono (ov ov' : group -> bool) s g x : (forall X, ov X = false -> ov' X = false) ->
  inherits ov s g x -> inherits ov' s g x.
Proof. intros Ho H. induction H as [|x X y E O P H IH]; [constructor|]. econstructor; eauto. Qed.

(** A change of the groups that keeps the links outside [g]. *)
Lemma inherits_ext (ov : group -> bool) s s' g :
  (forall x X, x <> g -> nth_error (groups s) x = Some X ->
     exists X', nth_error (groups s') x = Some X' /\ (ov X = false -> ov X' = false) /\ g_parent X' = g_parent X) ->
  forall x, inherits ov s g x -> inherits ov s' g x.
Proof.
  intros Hs x H. induction H as [|x X y E O P H IH]; [constructor|].
  destruct (Nat.eq_dec x g) as [->|Hg]; [constructor|].
  destruct (Hs _ _ Hg E) as (X' & E' & O' & P'). apply (inh_parent ov s' g x X' y); [exact E'|auto|congruence|exact IH].
Qed.

(** Same shape. *)
Definition skel (gs gs' : list group) : Prop :=
  length gs' = length gs /\
  forall x X, nth_error gs x = Some X -> exists X', nth_error gs' x = Some X' /\ g_parent X' = g_parent X.

Lemma skel_back gs gs' x X' : skel gs gs' -> nth_error gs' x = Some X' ->
  exists X, nth_error gs x = Some X /\ g_parent X' = g_parent X.
Proof.
  intros (HL & H) E. destruct (lt_nth_some gs x) as (X & EX). { rewrite <- HL. eapply nth_some_lt; eauto. }
  destruct (H _ _ EX) as (X2 & E2 & P2). exists X. split; [exact EX|congruence].
Qed.

Lemma skel_ht gs gs' x h : skel gs gs' -> ht gs x h -> ht gs' x h.
Proof.
  intros S H. induction H as [x X E P|x X p h E P H IH]; destruct (proj2 S _ _ E) as (X' & E' & P').
  - eapply ht_root; [exact E'|congruence].
  - eapply ht_step; [exact E'|rewrite P'; exact P|exact IH].
Qed.

Lemma skel_rooted gs gs' : skel gs gs' -> rooted gs -> rooted gs'.
Proof.
  intros S R x X' E. destruct (skel_back _ _ _ _ S E) as (X & EX & _). destruct (R _ _ EX) as (h & H).
  exists h. eapply skel_ht; eauto.
Qed.

Lemma mod_group_groups s g f X : nth_error (groups s) g = Some X -> groups (mod_group s g f) = set_at (groups s) g (f X).
Proof. intros E. unfold mod_group. rewrite E. reflexivity. Qed.

Lemma mod_group_nth s g f X x : nth_error (groups s) g = Some X ->
  nth_error (groups (mod_group s g f)) x = if Nat.eqb x g then Some (f X) else nth_error (groups s) x.
Proof.
  intros E. rewrite (mod_group_groups _ _ _ _ E). destruct (Nat.eqb_spec x g) as [->|H].
  - apply nth_set_at. eapply nth_some_lt; eauto.
  - apply nth_set_at_other. exact H.
Qed.

Lemma mod_group_length s g f : length (groups (mod_group s g f)) = length (groups s).
Proof. unfold mod_group. destruct (nth_error (groups s) g); [apply set_at_length|reflexivity]. Qed.

Lemma mod_group_rest s g f : loggers (mod_group s g f) = loggers s /\ sinks (mod_group s g f) = sinks s /\
  gmap (mod_group s g f) = gmap s /\ lmap (mod_group s g f) = lmap s /\ smap (mod_group s g f) = smap s /\
  configured (mod_group s g f) = configured s.
Proof. unfold mod_group. destruct (nth_error (groups s) g); repeat split. Qed.

Section Changes.
Variable ord : list nat -> list nat.
Hypothesis ord_in : forall l x, In x (ord l) <-> In x l.

(** ** Levels *)

Lemma level_spread fuel s g X f :
  Inv s -> length (groups s) <= fuel -> In g (map snd (gmap s)) -> nth_error (groups s) g = Some X ->
  g_but_level (f X) = g_but_level X ->
  exists s', spread ord fuel g_lov up_level lup_level (mod_group s g f) g = Some s' /\
    level_changed s s' g (g_level (f X)) (g_lov (f X)).
Proof.
  intros I Hf Hg EX Hbut. set (s1 := mod_group s g f).
  assert (Hpar : g_parent (f X) = g_parent X) by (unfold g_but_level in Hbut; congruence).
  destruct (mod_group_rest s g f) as (M1 & M2 & M3 & M4 & M5 & M6). fold s1 in M1, M2, M3, M4, M5, M6.
  pose proof (mod_group_length s g f) as ML. fold s1 in ML.
  assert (Hnth : forall x, nth_error (groups s1) x = if Nat.eqb x g then Some (f X) else nth_error (groups s) x).
  { intros x. apply mod_group_nth. exact EX. }
  assert (Sk : skel (groups s) (groups s1)).
  { split; [exact ML|]. intros x Z E. rewrite Hnth. destruct (Nat.eqb_spec x g) as [->|Hx]; [|eauto].
    exists (f X). split; [reflexivity|]. congruence. }
  assert (Hinh : forall x, inherits g_lov s1 g x <-> inherits g_lov s g x).
  { intros x. split; apply inherits_ext; intros y Y Hy E.
    - rewrite Hnth in E. destruct (Nat.eqb_spec y g); [contradiction|]. eauto.
    - rewrite Hnth. destruct (Nat.eqb_spec y g); [contradiction|]. eauto. }
  destruct (spread_spec ord ord_in g_lov up_level lup_level) with (fuel := fuel) (s := s1) (g := g)
    as (s' & Hs' & HL & HLl & Hsi & Hgm & Hsm & Hcf & Hlm & Hgg & Hout & Hin & Lout & Lin).
  - intros p y x H. exact H.
  - intros p y x. unfold up_level, g_level_from. cbn. reflexivity.
  - rewrite ML. exact Hf.
  - eapply skel_rooted; [exact Sk|exact (A_root _ I)].
  - rewrite M3, ML. exact (V_gmap _ I).
  - rewrite M3. exact Hg.
  - rewrite M3. intros x Z E P. destruct (skel_back _ _ _ _ Sk E) as (Z' & E' & P'). eapply (Reg _ I); eauto. congruence.
  - rewrite M4. apply lmap_nodup. exact I.
  - exists s'. split; [exact Hs'|].
    assert (HG : forall x Z, nth_error (groups s) x = Some Z -> exists Z', nth_error (groups s') x = Some Z' /\
     g_but_level Z' = g_but_level Z /\ g_lov Z' = (if Nat.eqb x g then g_lov (f X) else g_lov Z) /\
     (inherits g_lov s g x -> g_level Z' = g_level (f X)) /\ (~ inherits g_lov s g x -> g_level Z' = g_level Z)).
    { intros x Z E. destruct (A_root _ I _ _ E) as (h & Hh). revert Z E.
      induction Hh as [x W EW PW|x W p h EW PW Hh IH]; intros Z E.
      - rewrite EW in E. injection E as <-. destruct (Nat.eqb_spec x g) as [->|Hx].
        + exists (f X). rewrite Hgg, Hnth, Nat.eqb_refl. assert (W = X) by congruence. subst W.
          repeat split; auto. intros Hn. exfalso. apply Hn. constructor.
        + assert (Hn : ~ inherits g_lov s g x) by (intros Hi; inversion Hi; subst; congruence).
          exists W. rewrite Hout by (rewrite Hinh; exact Hn). rewrite Hnth. destruct (Nat.eqb_spec x g); [contradiction|].
          repeat split; auto. intros Hi. contradiction.
      - rewrite EW in E. injection E as <-. destruct (Nat.eqb_spec x g) as [->|Hx].
        + exists (f X). rewrite Hgg, Hnth, Nat.eqb_refl. assert (W = X) by congruence. subst W.
          repeat split; auto. intros Hn. exfalso. apply Hn. constructor.
        + assert (E1 : nth_error (groups s1) x = Some W). { rewrite Hnth. destruct (Nat.eqb_spec x g); [contradiction|exact EW]. }
          destruct (inherits_dec g_lov s g x (S h) ltac:(eapply ht_step; eauto)) as [Hi|Hi].
          * destruct (Hin x W E1 (proj2 (Hinh x) Hi) Hx) as (p' & P' & O' & Hip & Hup).
            rewrite PW in P'. injection P' as <-.
            destruct (lt_nth_some (groups s) p (V_par _ I _ _ _ EW PW)) as (Y & EY).
            destruct (IH _ EY) as (Y' & EY' & _ & _ & Hl & _).
            exists (up_level p Y' W). split; [apply Hup; exact EY'|]. unfold up_level, g_level_from. cbn.
            split; [reflexivity|]. split; [|split].
            -- rewrite PW. cbn. rewrite Nat.eqb_refl. cbn. symmetry. exact O'.
            -- intros _. apply Hl. apply Hinh. exact Hip.
            -- intros Hn. contradiction.
          * exists W. rewrite Hout by (rewrite Hinh; exact Hi). split; [exact E1|]. repeat split; auto. intros ?. contradiction. }
    split; [|split].
    + unfold rest_same. rewrite HL, HLl, Hsi, Hgm, Hsm, Hcf, Hlm, M1, M2, M3, M4, M5, M6. repeat split. exact ML.
    + exact HG.
    + intros i L E. assert (E1 : nth_error (loggers s1) i = Some L) by (rewrite M1; exact E).
      destruct (lt_nth_some (groups s) (l_group L) (V_lgrp _ I _ _ E)) as (Y & EY).
      destruct (A_root _ I _ _ EY) as (h & Hh).
      destruct (HG _ _ EY) as (Y' & EY' & _ & _ & Hl & _).
      destruct (inherits_dec g_lov s g _ h Hh) as [Hi|Hi].
      * destruct (l_alive L) eqn:Al.
        -- assert (Hr : In i (map snd (lmap s1))).
           { rewrite M4. pose proof (LReg _ I _ _ E Al) as Hr. change i with (snd (l_name L, i)). apply in_map. exact Hr. }
           exists (lup_level (l_group L) Y' L). split; [exact (Lin i L Y' E1 Hr Al (proj2 (Hinh _) Hi) EY')|].
           unfold lup_level. destruct (l_lov L) eqn:Ov.
           ++ split; [reflexivity|]. split; [exact Ov|]. split; [discriminate|]. intros _. reflexivity.
           ++ unfold l_level_from, l_but_level. cbn. rewrite Nat.eqb_refl. cbn. repeat split.
              ** intros _ _ _. apply Hl. exact Hi.
              ** intros Hn. exfalso. apply Hn. auto.
        -- exists L. split; [apply Lout; [exact E1|intros (? & ? & ?); congruence]|]. repeat split; auto. discriminate.
      * exists L. split; [apply Lout; [exact E1|intros (? & ? & H); apply Hi, Hinh, H]|]. repeat split; auto. intros; contradiction.
Qed.

(** ** Sinks *)

Lemma sink_spread fuel s g X f :
  Inv s -> length (groups s) <= fuel -> In g (map snd (gmap s)) -> nth_error (groups s) g = Some X ->
  g_but_sink (f X) = g_but_sink X ->
  exists s', spread ord fuel g_sov up_sink lup_sink (mod_group s g f) g = Some s' /\
    sink_changed s s' g (g_sink (f X)) (g_sov (f X)).
Proof.
  intros I Hf Hg EX Hbut. set (s1 := mod_group s g f).
  assert (Hpar : g_parent (f X) = g_parent X) by (unfold g_but_sink in Hbut; congruence).
  destruct (mod_group_rest s g f) as (M1 & M2 & M3 & M4 & M5 & M6). fold s1 in M1, M2, M3, M4, M5, M6.
  pose proof (mod_group_length s g f) as ML. fold s1 in ML.
  assert (Hnth : forall x, nth_error (groups s1) x = if Nat.eqb x g then Some (f X) else nth_error (groups s) x).
  { intros x. apply mod_group_nth. exact EX. }
  assert (Sk : skel (groups s) (groups s1)).
  { split; [exact ML|]. intros x Z E. rewrite Hnth. destruct (Nat.eqb_spec x g) as [->|Hx]; [|eauto].
    exists (f X). split; [reflexivity|]. congruence. }
  assert (Hinh : forall x, inherits g_sov s1 g x <-> inherits g_sov s g x).
  { intros x. split; apply inherits_ext; intros y Y Hy E.
    - rewrite Hnth in E. destruct (Nat.eqb_spec y g); [contradiction|]. eauto.
    - rewrite Hnth. destruct (Nat.eqb_spec y g); [contradiction|]. eauto. }
  destruct (spread_spec ord ord_in g_sov up_sink lup_sink) with (fuel := fuel) (s := s1) (g := g)
    as (s' & Hs' & HL & HLl & Hsi & Hgm & Hsm & Hcf & Hlm & Hgg & Hout & Hin & Lout & Lin).
  - intros p y x H. exact H.
  - intros p y x. unfold up_sink, g_sink_from. cbn. reflexivity.
  - rewrite ML. exact Hf.
  - eapply skel_rooted; [exact Sk|exact (A_root _ I)].
  - rewrite M3, ML. exact (V_gmap _ I).
  - rewrite M3. exact Hg.
  - rewrite M3. intros x Z E P. destruct (skel_back _ _ _ _ Sk E) as (Z' & E' & P'). eapply (Reg _ I); eauto. congruence.
  - rewrite M4. apply lmap_nodup. exact I.
  - exists s'. split; [exact Hs'|].
    assert (HG : forall x Z, nth_error (groups s) x = Some Z -> exists Z', nth_error (groups s') x = Some Z' /\
     g_but_sink Z' = g_but_sink Z /\ g_sov Z' = (if Nat.eqb x g then g_sov (f X) else g_sov Z) /\
     (inherits g_sov s g x -> g_sink Z' = g_sink (f X)) /\ (~ inherits g_sov s g x -> g_sink Z' = g_sink Z)).
    { intros x Z E. destruct (A_root _ I _ _ E) as (h & Hh). revert Z E.
      induction Hh as [x W EW PW|x W p h EW PW Hh IH]; intros Z E.
      - rewrite EW in E. injection E as <-. destruct (Nat.eqb_spec x g) as [->|Hx].
        + exists (f X). rewrite Hgg, Hnth, Nat.eqb_refl. assert (W = X) by congruence. subst W.
          repeat split; auto. intros Hn. exfalso. apply Hn. constructor.
        + assert (Hn : ~ inherits g_sov s g x) by (intros Hi; inversion Hi; subst; congruence).
          exists W. rewrite Hout by (rewrite Hinh; exact Hn). rewrite Hnth. destruct (Nat.eqb_spec x g); [contradiction|].
          repeat split; auto. intros Hi. contradiction.
      - rewrite EW in E. injection E as <-. destruct (Nat.eqb_spec x g) as [->|Hx].
        + exists (f X). rewrite Hgg, Hnth, Nat.eqb_refl. assert (W = X) by congruence. subst W.
          repeat split; auto. intros Hn. exfalso. apply Hn. constructor.
        + assert (E1 : nth_error (groups s1) x = Some W). { rewrite Hnth. destruct (Nat.eqb_spec x g); [contradiction|exact EW]. }
          destruct (inherits_dec g_sov s g x (S h) ltac:(eapply ht_step; eauto)) as [Hi|Hi].
          * destruct (Hin x W E1 (proj2 (Hinh x) Hi) Hx) as (p' & P' & O' & Hip & Hup).
            rewrite PW in P'. injection P' as <-.
            destruct (lt_nth_some (groups s) p (V_par _ I _ _ _ EW PW)) as (Y & EY).
            destruct (IH _ EY) as (Y' & EY' & _ & _ & Hl & _).
            exists (up_sink p Y' W). split; [apply Hup; exact EY'|]. unfold up_sink, g_sink_from. cbn.
            split; [reflexivity|]. split; [|split].
            -- rewrite PW. cbn. rewrite Nat.eqb_refl. cbn. symmetry. exact O'.
            -- intros _. apply Hl. apply Hinh. exact Hip.
            -- intros Hn. contradiction.
          * exists W. rewrite Hout by (rewrite Hinh; exact Hi). split; [exact E1|]. repeat split; auto. intros ?. contradiction. }
    split; [|split].
    + unfold rest_same. rewrite HL, HLl, Hsi, Hgm, Hsm, Hcf, Hlm, M1, M2, M3, M4, M5, M6. repeat split. exact ML.
    + exact HG.
    + intros i L E. assert (E1 : nth_error (loggers s1) i = Some L) by (rewrite M1; exact E).
      destruct (lt_nth_some (groups s) (l_group L) (V_lgrp _ I _ _ E)) as (Y & EY).
      destruct (A_root _ I _ _ EY) as (h & Hh).
      destruct (HG _ _ EY) as (Y' & EY' & _ & _ & Hl & _).
      destruct (inherits_dec g_sov s g _ h Hh) as [Hi|Hi].
      * destruct (l_alive L) eqn:Al.
        -- assert (Hr : In i (map snd (lmap s1))).
           { rewrite M4. pose proof (LReg _ I _ _ E Al) as Hr. change i with (snd (l_name L, i)). apply in_map. exact Hr. }
           exists (lup_sink (l_group L) Y' L). split; [exact (Lin i L Y' E1 Hr Al (proj2 (Hinh _) Hi) EY')|].
           unfold lup_sink. destruct (l_sov L) eqn:Ov.
           ++ split; [reflexivity|]. split; [exact Ov|]. split; [discriminate|]. intros _. reflexivity.
           ++ unfold l_sink_from, l_but_sink. specialize (Hl Hi). rewrite Hl.
              destruct (g_sink (f X)) as [k|]; cbn; [rewrite Nat.eqb_refl; cbn|]; repeat split; auto.
              ** intros Hn. exfalso. apply Hn. repeat split; auto. discriminate.
              ** intros _ _ _ H. congruence.
        -- exists L. split; [apply Lout; [exact E1|intros (? & ? & ?); congruence]|]. repeat split; auto. discriminate.
      * exists L. split; [apply Lout; [exact E1|intros (? & ? & H); apply Hi, Hinh, H]|]. repeat split; auto. intros; contradiction.
Qed.

(** ** Parents *)

Lemma up_parent_eq p Y X : g_parent X = Some p ->
  up_parent p Y X = mkGroup (g_name X) (g_parent X) (if g_sov X then g_sink X else g_sink Y) (g_sov X)
                            (if g_lov X then g_level X else g_level Y) (g_lov X).
Proof.
  intros P. unfold up_parent, g_set_parent. destruct X as [n q k so l lo]. cbn in *. subst q.
  destruct so, lo; unfold g_sink_from, g_level_from; cbn; rewrite ?Nat.eqb_refl; cbn; reflexivity.
Qed.

Lemma up_parent_idem p Y X : up_parent p Y (up_parent p Y X) = up_parent p Y X.
Proof.
  destruct X as [n q k so l lo]. unfold up_parent, g_set_parent. unfold g_sink_from, g_level_from. destruct so, lo; cbn; rewrite ?Nat.eqb_refl; cbn; rewrite ?Nat.eqb_refl; reflexivity.
Qed.

Lemma lup_group_eq Y L :
  lup_group (l_group L) Y L = mkLogger (l_name L) (l_group L)
    (if l_sov L then l_sink L else match g_sink Y with Some k => Some k | None => l_sink L end) (l_sov L)
    (if l_lov L then l_level L else g_level Y) (l_lov L) (l_alive L).
Proof.
  destruct L as [n q k so l lo al]. unfold lup_group, l_set_group, l_sink_from. cbn. unfold l_level_from. destruct so, lo; cbn; destruct (g_sink Y); cbn; rewrite ?Nat.eqb_refl; reflexivity.
Qed.

(** [s'] has the links of [s2]; [l], [k]: the new level and sink of [g]. *)
Definition properties_passed (s s2 s' : sys) (g : nat) (l : level) (k : option nat) : Prop :=
  rest_same s s' /\
  (forall x X X2, nth_error (groups s) x = Some X -> nth_error (groups s2) x = Some X2 ->
     exists X', nth_error (groups s') x = Some X' /\
     g_name X' = g_name X2 /\ g_parent X' = g_parent X2 /\ g_sov X' = g_sov X2 /\ g_lov X' = g_lov X2 /\
     (inherits g_lov s' g x -> g_level X' = l) /\ (~ inherits g_lov s' g x -> g_level X' = g_level X) /\
     (inherits g_sov s' g x -> g_sink X' = k) /\ (~ inherits g_sov s' g x -> g_sink X' = g_sink X)) /\
  (forall i L, nth_error (loggers s) i = Some L -> exists L', nth_error (loggers s') i = Some L' /\
     l_name L' = l_name L /\ l_group L' = l_group L /\ l_sov L' = l_sov L /\ l_lov L' = l_lov L /\ l_alive L' = l_alive L /\
     (l_alive L = true -> l_lov L = false -> inherits g_lov s' g (l_group L) -> l_level L' = l) /\
     (~ (l_alive L = true /\ l_lov L = false /\ inherits g_lov s' g (l_group L)) -> l_level L' = l_level L) /\
     (l_alive L = true -> l_sov L = false -> inherits g_sov s' g (l_group L) -> k <> None -> l_sink L' = k) /\
     (~ (l_alive L = true /\ l_sov L = false /\ inherits g_sov s' g (l_group L) /\ k <> None) -> l_sink L' = l_sink L)).

Lemma parent_spread fuel s s2 g G2 :
  Inv s -> length (groups s) <= fuel -> In g (map snd (gmap s)) ->
  loggers s2 = loggers s -> sinks s2 = sinks s -> gmap s2 = gmap s -> lmap s2 = lmap s -> smap s2 = smap s ->
  configured s2 = configured s -> length (groups s2) = length (groups s) -> rooted (groups s2) ->
  (forall x X, x <> g -> nth_error (groups s) x = Some X -> exists X2, nth_error (groups s2) x = Some X2 /\
     g_sov X2 = g_sov X /\ g_lov X2 = g_lov X /\ g_level X2 = g_level X /\ g_sink X2 = g_sink X /\
     (g_parent X2 = g_parent X \/ g_parent X2 = None)) ->
  nth_error (groups s2) g = Some G2 ->
  exists s', spread ord fuel g_both up_parent lup_group s2 g = Some s' /\
    properties_passed s s2 s' g (g_level G2) (g_sink G2).
Proof.
  intros I Hf Hg M1 M2 M3 M4 M5 M6 ML Hr Hrel EG.
  assert (Hback : forall x X2, x <> g -> nth_error (groups s2) x = Some X2 -> exists X, nth_error (groups s) x = Some X /\
     g_sov X2 = g_sov X /\ g_lov X2 = g_lov X /\ g_level X2 = g_level X /\ g_sink X2 = g_sink X /\
     (g_parent X2 = g_parent X \/ g_parent X2 = None)).
  { intros x X2 Hx E. destruct (lt_nth_some (groups s) x) as (X & EX). { rewrite <- ML. eapply nth_some_lt; eauto. }
    destruct (Hrel _ _ Hx EX) as (X3 & E3 & H3). rewrite E in E3. injection E3 as <-. exists X. auto. }
  destruct (spread_spec ord ord_in g_both up_parent lup_group) with (fuel := fuel) (s := s2) (g := g)
    as (s' & Hs' & HL & HLl & Hsi & Hgm & Hsm & Hcf & Hlm & Hgg & Hout & Hin & Lout & Lin).
  - intros p y x H. rewrite up_parent_eq by exact H. exact H.
  - intros p y x. apply up_parent_idem.
  - rewrite ML. exact Hf.
  - exact Hr.
  - rewrite M3, ML. exact (V_gmap _ I).
  - rewrite M3. exact Hg.
  - rewrite M3. intros x Z E P. destruct (Nat.eq_dec x g) as [->|Hx]; [exact Hg|].
    destruct (Hback _ _ Hx E) as (Z' & E' & _ & _ & _ & _ & [P'|P']); [|congruence]. eapply (Reg _ I); eauto. congruence.
  - rewrite M4. apply lmap_nodup. exact I.
  - exists s'. split; [exact Hs'|].
    assert (HG : forall x X2, nth_error (groups s2) x = Some X2 -> exists X', nth_error (groups s') x = Some X' /\
     g_name X' = g_name X2 /\ g_parent X' = g_parent X2 /\ g_sov X' = g_sov X2 /\ g_lov X' = g_lov X2 /\
     (inherits g_lov s2 g x -> g_level X' = g_level G2) /\ (~ inherits g_lov s2 g x -> g_level X' = g_level X2) /\
     (inherits g_sov s2 g x -> g_sink X' = g_sink G2) /\ (~ inherits g_sov s2 g x -> g_sink X' = g_sink X2)).
    { intros x X2 E. destruct (Hr _ _ E) as (h & Hh). revert X2 E.
      induction Hh as [x W EW PW|x W p h EW PW Hh IH]; intros X2 E; rewrite EW in E; injection E as <-;
        (destruct (Nat.eq_dec x g) as [->|Hx];
         [exists G2; rewrite Hgg; assert (W = G2) by congruence; subst W; repeat split; auto; intros Hn; exfalso; apply Hn; constructor|]).
      - assert (Hn : forall ov, ~ inherits ov s2 g x) by (intros ov Hi; inversion Hi; subst; congruence).
        exists W. rewrite Hout by apply Hn. split; [exact EW|]. repeat split; auto; intros Hi; exfalso; eapply Hn; eauto.
      - assert (Hhx : ht (groups s2) x (S h)) by (eapply ht_step; eauto).
        destruct (Hback _ _ Hx EW) as (X & EX & F1 & F2 & F3 & F4 & [FP|FP]); [|congruence].
        destruct (lt_nth_some (groups s2) p (ht_valid _ _ _ Hh)) as (Y2 & EY).
        destruct (IH _ EY) as (Y' & EY' & _ & _ & _ & _ & Yl1 & Yl2 & Ys1 & Ys2).
        destruct (inherits_dec g_both s2 g x _ Hhx) as [Hi|Hi].
        + destruct (Hin x W EW Hi Hx) as (p' & P' & O' & Hip & Hup). rewrite PW in P'. injection P' as <-.
          specialize (Hup _ EY'). rewrite up_parent_eq in Hup by exact PW.
          eexists. split; [exact Hup|]. cbn. repeat (split; [reflexivity|]).
          assert (Hpar : forall ov : group -> bool, ov W = false -> inherits ov s2 g x -> inherits ov s2 g p).
          { intros ov Ho Hi'. eapply inherits_up; eauto. }
          (* a parent that does not pass it on: the old value *)
          assert (Hold : (~ inherits g_lov s2 g p -> g_lov W = false -> g_level Y' = g_level W) /\
                         (~ inherits g_sov s2 g p -> g_sov W = false -> g_sink Y' = g_sink W)).
          { assert (Hpg : p = g -> False \/ p = g) by auto.
            destruct (Nat.eq_dec p g) as [->|Hp]; [split; intros Hn; exfalso; apply Hn; constructor|].
            destruct (Hback _ _ Hp EY) as (Y & EY0 & _ & _ & K3 & K4 & _). split; intros Hn Ho.
            - rewrite (Yl2 Hn), K3, F3. symmetry. apply (H_lev _ I x X p Y); auto; congruence.
            - rewrite (Ys2 Hn), K4, F4. symmetry. apply (H_snk _ I x X p Y); auto; congruence. }
          destruct Hold as (Hol & Hos).
          split; [|split; [|split]].
          * intros Hl. destruct (inherits_up _ _ _ _ _ _ Hl Hx EW PW) as (Hlp & Hlo). rewrite Hlo. auto.
          * intros Hl. destruct (g_lov W) eqn:Lo; [reflexivity|]. apply Hol; [|reflexivity]. intros Hlp. apply Hl. econstructor; eauto.
          * intros Hl. destruct (inherits_up _ _ _ _ _ _ Hl Hx EW PW) as (Hlp & Hlo). rewrite Hlo. auto.
          * intros Hl. destruct (g_sov W) eqn:Lo; [reflexivity|]. apply Hos; [|reflexivity]. intros Hlp. apply Hl. econstructor; eauto.
        + exists W. rewrite Hout by exact Hi. split; [exact EW|]. repeat split; auto; intros Hl; exfalso; apply Hi;
            (eapply inherits_mono; [|exact Hl]); unfold g_both; intros Z Hz; rewrite Hz; [reflexivity|apply andb_false_r]. }
    assert (Hinh : forall (ov : group -> bool), (forall a b, g_sov a = g_sov b -> g_lov a = g_lov b -> ov a = ov b) ->
      forall x, inherits ov s' g x <-> inherits ov s2 g x).
    { intros ov Hov x. split; apply inherits_ext; intros y Y Hy E.
      - destruct (lt_nth_some (groups s2) y) as (Y2 & E2). { rewrite <- HL. eapply nth_some_lt; eauto. }
        destruct (HG _ _ E2) as (Y' & E' & _ & P' & So & Lo & _). rewrite E in E'. injection E' as <-.
        exists Y2. split; [exact E2|]. split; [rewrite (Hov Y Y2 So Lo); auto|congruence].
      - destruct (HG _ _ E) as (Y' & E' & _ & P' & So & Lo & _). exists Y'. split; [exact E'|].
        split; [rewrite (Hov Y' Y So Lo); auto|exact P']. }
    assert (HiL : forall x, inherits g_lov s' g x <-> inherits g_lov s2 g x) by (apply Hinh; auto).
    assert (HiS : forall x, inherits g_sov s' g x <-> inherits g_sov s2 g x) by (apply Hinh; auto).
    split; [|split].
    + unfold rest_same. rewrite HL, HLl, Hsi, Hgm, Hsm, Hcf, Hlm, M1, M2, M3, M4, M5, M6. repeat split. exact ML.
    + intros x X X2 EX E2. destruct (HG _ _ E2) as (X' & E' & A1 & A2 & A3 & A4 & B1 & B2 & B3 & B4).
      exists X'. split; [exact E'|]. repeat (split; [assumption|]).
      rewrite !HiL, !HiS. destruct (Nat.eq_dec x g) as [->|Hx].
      { assert (X2 = G2) by congruence. subst. repeat split; auto; intros Hn; exfalso; apply Hn; constructor. }
      destruct (Hrel _ _ Hx EX) as (X3 & E3 & _ & _ & K1 & K2 & _). rewrite E2 in E3. injection E3 as <-.
      rewrite <- K1, <- K2. repeat split; auto.
    + intros i L E. assert (E1 : nth_error (loggers s2) i = Some L) by (rewrite M1; exact E).
      destruct (lt_nth_some (groups s2) (l_group L)) as (Y & EY). { rewrite ML. exact (V_lgrp _ I _ _ E). }
      destruct (Hr _ _ EY) as (h & Hh).
      destruct (HG _ _ EY) as (Y' & EY' & _ & _ & _ & _ & Yl1 & Yl2 & Ys1 & Ys2).
      destruct (l_alive L) eqn:Al.
      2:{ exists L. split; [apply Lout; [exact E1|intros (? & ? & ?); congruence]|]. repeat split; auto; discriminate. }
      assert (Hr' : In i (map snd (lmap s2))).
      { rewrite M4. pose proof (LReg _ I _ _ E Al) as Hr'. change i with (snd (l_name L, i)). apply in_map. exact Hr'. }
      assert (Hold : (~ inherits g_lov s2 g (l_group L) -> l_lov L = false -> g_level Y' = l_level L) /\
                     (~ inherits g_sov s2 g (l_group L) -> l_sov L = false -> g_sink Y' <> None -> g_sink Y' = l_sink L)).
      { destruct (Nat.eq_dec (l_group L) g) as [Hq|Hq]; [split; intros Hn; exfalso; apply Hn; rewrite Hq; constructor|].
        destruct (Hback _ _ Hq EY) as (Y0 & EY0 & _ & _ & K3 & K4 & _). split; intros Hn Ho.
        - rewrite (Yl2 Hn), K3. symmetry. eapply (L_lev _ I); eauto.
        - rewrite (Ys2 Hn), K4. intros Hk. symmetry. eapply (L_snk _ I); eauto. }
      destruct Hold as (Hol & Hos).
      destruct (inherits_dec g_both s2 g _ h Hh) as [Hi|Hi].
      * specialize (Lin i L Y' E1 Hr' Al Hi EY'). rewrite lup_group_eq in Lin. eexists. split; [exact Lin|]. cbn.
        repeat (split; [first [reflexivity|exact Al]|]). rewrite !HiL, !HiS.
        split; [|split; [|split]].
        -- intros _ Ho Hl. rewrite Ho. auto.
        -- intros Hn. destruct (l_lov L) eqn:Lo; [reflexivity|]. apply Hol; [|reflexivity]. intros Hl. apply Hn. auto.
        -- intros _ Ho Hl Hk. rewrite Ho. rewrite (Ys1 Hl). destruct (g_sink G2); congruence.
        -- intros Hn. destruct (l_sov L) eqn:Lo; [reflexivity|]. destruct (g_sink Y') as [k|] eqn:Ek; [|reflexivity].
           destruct (inherits_dec g_sov s2 g _ h Hh) as [Hl|Hl].
           ++ exfalso. apply Hn. repeat split; auto. rewrite <- (Ys1 Hl). congruence.
           ++ apply Hos; auto. congruence.
      * exists L. split; [apply Lout; [exact E1|intros (? & ? & H); contradiction]|]. rewrite !HiL, !HiS.
        assert (Hno : ~ inherits g_lov s2 g (l_group L) /\ ~ inherits g_sov s2 g (l_group L)).
        { split; intros Hl; apply Hi; (eapply inherits_mono; [|exact Hl]); unfold g_both; intros Z Hz; rewrite Hz;
            [reflexivity|apply andb_false_r]. }
        repeat split; auto; intros; exfalso; tauto.
Qed.

(** ** The invariant after a change *)

Lemma filter_alive_in s n i : In (n, i) (filter (alive_in (loggers s)) (lmap s)) <->
  In (n, i) (lmap s) /\ exists L, nth_error (loggers s) i = Some L /\ l_alive L = true.
Proof.
  rewrite filter_In. unfold alive_in. cbn. split.
  - intros (H & A). split; [exact H|]. destruct (nth_error (loggers s) i) as [L|]; [eauto|discriminate].
  - intros (H & L & E & A). rewrite E. auto.
Qed.

Lemma nth_pull {A} (l l' : list A) i x' : length l' = length l -> nth_error l' i = Some x' -> exists x, nth_error l i = Some x.
Proof. intros HL E. apply lt_nth_some. rewrite <- HL. eapply nth_some_lt; eauto. Qed.

Lemma Inv_level s s' g l b G :
  Inv s -> level_changed s s' g l b -> nth_error (groups s) g = Some G ->
  (b = false -> forall p Y, g_parent G = Some p -> nth_error (groups s) p = Some Y -> l = g_level Y) ->
  Inv s'.
Proof.
  intros I ((HL & HLl & Hsi & Hgm & Hsm & Hcf & Hlm) & HG & HLg) EG Hb.
  assert (PG : forall x X', nth_error (groups s') x = Some X' -> exists X, nth_error (groups s) x = Some X /\
     g_but_level X' = g_but_level X /\ g_lov X' = (if Nat.eqb x g then b else g_lov X) /\
     (inherits g_lov s g x -> g_level X' = l) /\ (~ inherits g_lov s g x -> g_level X' = g_level X)).
  { intros x X' E. destruct (nth_pull _ _ _ _ HL E) as (X & EX). destruct (HG _ _ EX) as (X2 & E2 & H2).
    rewrite E in E2. injection E2 as <-. eauto. }
  assert (PL : forall i L', nth_error (loggers s') i = Some L' -> exists L, nth_error (loggers s) i = Some L /\
     l_but_level L' = l_but_level L /\ l_lov L' = l_lov L /\
     (l_alive L = true -> l_lov L = false -> inherits g_lov s g (l_group L) -> l_level L' = l) /\
     (~ (l_alive L = true /\ l_lov L = false /\ inherits g_lov s g (l_group L)) -> l_level L' = l_level L)).
  { intros i L' E. destruct (nth_pull _ _ _ _ HLl E) as (L & EL). destruct (HLg _ _ EL) as (L2 & E2 & H2).
    rewrite E in E2. injection E2 as <-. eauto. }
  unfold g_but_level in *. unfold l_but_level in *.
  assert (Sk : skel (groups s) (groups s')).
  { split; [exact HL|]. intros x X E. destruct (HG _ _ E) as (X' & E' & B & _). exists X'. split; [exact E'|congruence]. }
  constructor.
  - intros x X' p E P. destruct (PG _ _ E) as (X & EX & B & _). rewrite HL. eapply (V_par _ I); eauto. congruence.
  - rewrite Hgm, HL. exact (V_gmap _ I).
  - intros i L' E. destruct (PL _ _ E) as (L & EL & B & _). rewrite HL. replace (l_group L') with (l_group L) by congruence.
    eapply (V_lgrp _ I); eauto.
  - rewrite Hlm. intros n i H. apply filter_alive_in in H. destruct H as (H & L & E & _).
    destruct (HLg _ _ E) as (L' & E' & B & _). exists L'. split; [exact E'|].
    destruct (V_lmap _ I _ _ H) as (L2 & E2 & N2). congruence.
  - rewrite Hsm, Hsi. exact (V_smap _ I).
  - intros x X' k E K. destruct (PG _ _ E) as (X & EX & B & _). rewrite Hsi. eapply (V_gsnk _ I); eauto. congruence.
  - intros i L' k E K. destruct (PL _ _ E) as (L & EL & B & _). rewrite Hsi. eapply (V_lsnk _ I); eauto. congruence.
  - rewrite Hgm. exact (N_g _ I).
  - rewrite Hlm. apply filter_keys_nodup. exact (N_l _ I).
  - rewrite Hsm. exact (N_s _ I).
  - eapply skel_rooted; [exact Sk|exact (A_root _ I)].
  - intros x X' p Y' E O P EY. destruct (PG _ _ E) as (X & EX & B & Hlo & Hl1 & Hl2).
    destruct (PG _ _ EY) as (Y & EY0 & BY & _ & Hy1 & Hy2). assert (PX : g_parent X = Some p) by congruence.
    destruct (A_root _ I _ _ EX) as (hx & Hhx). destruct (A_root _ I _ _ EY0) as (hy & Hhy).
    destruct (Nat.eqb_spec x g) as [->|Hx].
    + assert (X = G) by congruence. subst X. rewrite (Hl1 (inh_self _ _ _)). rewrite Hlo in O.
      rewrite (Hb O p Y PX EY0). symmetry. apply Hy2. intros Hi.
      pose proof (inherits_ht _ _ _ _ _ _ Hi Hhx Hhy) as Hle.
      assert (ht (groups s) g (S hy)) as Hh2 by (eapply ht_step; eauto). pose proof (ht_fun _ _ _ _ Hhx Hh2). lia.
    + rewrite Hlo in O. destruct (inherits_dec g_lov s g p _ Hhy) as [Hi|Hi].
      * rewrite (Hy1 Hi). apply Hl1. econstructor; eauto.
      * rewrite (Hy2 Hi). assert (Hn : ~ inherits g_lov s g x) by (intros Hx'; apply Hi; eapply inherits_up; eauto).
        rewrite (Hl2 Hn). eapply (H_lev _ I); eauto.
  - intros x X' p Y' E O P EY. destruct (PG _ _ E) as (X & EX & B & _). destruct (PG _ _ EY) as (Y & EY0 & BY & _).
    replace (g_sink X') with (g_sink X) by congruence. replace (g_sink Y') with (g_sink Y) by congruence.
    eapply (H_snk _ I); eauto; congruence.
  - intros i L' Y' E A O EY. destruct (PL _ _ E) as (L & EL & B & Hlo & Hl1 & Hl2).
    destruct (PG _ _ EY) as (Y & EY0 & BY & _ & Hy1 & Hy2).
    destruct (A_root _ I _ _ EY0) as (hy & Hhy).
    assert (Hgr : l_group L' = l_group L) by congruence. rewrite Hgr in *. assert (Al : l_alive L = true) by congruence.
    destruct (inherits_dec g_lov s g _ _ Hhy) as [Hi|Hi].
    + rewrite (Hy1 Hi). apply Hl1; congruence || exact Hi.
    + rewrite (Hy2 Hi). rewrite Hl2 by tauto. eapply (L_lev _ I); eauto; congruence.
  - intros i L' Y' E A O EY K. destruct (PL _ _ E) as (L & EL & B & _). destruct (PG _ _ EY) as (Y & EY0 & BY & _).
    replace (g_sink Y') with (g_sink Y) in * by congruence. replace (l_sink L') with (l_sink L) by congruence.
    assert (Hgr : l_group L' = l_group L) by congruence. rewrite Hgr in *.
    eapply (L_snk _ I); eauto; congruence.
  - rewrite Hgm. intros x X' E P. destruct (PG _ _ E) as (X & EX & B & _). eapply (Reg _ I); eauto. congruence.
  - rewrite Hlm. intros i L' E A. destruct (PL _ _ E) as (L & EL & B & _). assert (Al : l_alive L = true) by congruence.
    apply filter_alive_in. split; [|eauto]. replace (l_name L') with (l_name L) by congruence. eapply (LReg _ I); eauto.
  - rewrite Hgm. exact (Star _ I).
Qed.

Lemma Inv_sink s s' g k b G :
  Inv s -> sink_changed s s' g k b -> nth_error (groups s) g = Some G ->
  (forall j, k = Some j -> j < length (sinks s)) ->
  (b = false -> forall p Y, g_parent G = Some p -> nth_error (groups s) p = Some Y -> k = g_sink Y) ->
  Inv s'.
Proof.
  intros I ((HL & HLl & Hsi & Hgm & Hsm & Hcf & Hlm) & HG & HLg) EG Hkv Hb.
  assert (PG : forall x X', nth_error (groups s') x = Some X' -> exists X, nth_error (groups s) x = Some X /\
     g_but_sink X' = g_but_sink X /\ g_sov X' = (if Nat.eqb x g then b else g_sov X) /\
     (inherits g_sov s g x -> g_sink X' = k) /\ (~ inherits g_sov s g x -> g_sink X' = g_sink X)).
  { intros x X' E. destruct (nth_pull _ _ _ _ HL E) as (X & EX). destruct (HG _ _ EX) as (X2 & E2 & H2).
    rewrite E in E2. injection E2 as <-. eauto. }
  assert (PL : forall i L', nth_error (loggers s') i = Some L' -> exists L, nth_error (loggers s) i = Some L /\
     l_but_sink L' = l_but_sink L /\ l_sov L' = l_sov L /\
     (l_alive L = true -> l_sov L = false -> inherits g_sov s g (l_group L) -> k <> None -> l_sink L' = k) /\
     (~ (l_alive L = true /\ l_sov L = false /\ inherits g_sov s g (l_group L) /\ k <> None) -> l_sink L' = l_sink L)).
  { intros i L' E. destruct (nth_pull _ _ _ _ HLl E) as (L & EL). destruct (HLg _ _ EL) as (L2 & E2 & H2).
    rewrite E in E2. injection E2 as <-. eauto. }
  unfold g_but_sink in *. unfold l_but_sink in *.
  assert (Sk : skel (groups s) (groups s')).
  { split; [exact HL|]. intros x X E. destruct (HG _ _ E) as (X' & E' & B & _). exists X'. split; [exact E'|congruence]. }
  constructor.
  - intros x X' p E P. destruct (PG _ _ E) as (X & EX & B & _). rewrite HL. eapply (V_par _ I); eauto. congruence.
  - rewrite Hgm, HL. exact (V_gmap _ I).
  - intros i L' E. destruct (PL _ _ E) as (L & EL & B & _). rewrite HL. replace (l_group L') with (l_group L) by congruence.
    eapply (V_lgrp _ I); eauto.
  - rewrite Hlm. intros n i H. apply filter_alive_in in H. destruct H as (H & L & E & _).
    destruct (HLg _ _ E) as (L' & E' & B & _). exists L'. split; [exact E'|].
    destruct (V_lmap _ I _ _ H) as (L2 & E2 & N2). congruence.
  - rewrite Hsm, Hsi. exact (V_smap _ I).
  - intros x X' j E K. destruct (PG _ _ E) as (X & EX & B & _ & K1 & K2). rewrite Hsi.
    destruct (A_root _ I _ _ EX) as (hx & Hhx). destruct (inherits_dec g_sov s g x _ Hhx) as [Hi|Hi].
    + rewrite (K1 Hi) in K. auto.
    + rewrite (K2 Hi) in K. eapply (V_gsnk _ I); eauto.
  - intros i L' j E K. destruct (PL _ _ E) as (L & EL & B & _ & K1 & K2). rewrite Hsi.
    destruct (lt_nth_some (groups s) (l_group L) (V_lgrp _ I _ _ EL)) as (Y & EY).
    destruct (A_root _ I _ _ EY) as (hy & Hhy). destruct (inherits_dec g_sov s g _ _ Hhy) as [Hi|Hi].
    + destruct (l_alive L) eqn:Al; [destruct (l_sov L) eqn:So; [|destruct k as [k0|] eqn:Ek]|].
      * rewrite K2 in K by (intros (? & ? & _); congruence). eapply (V_lsnk _ I); eauto.
      * rewrite K1 in K; auto; try discriminate.
      * rewrite K2 in K by (intros (? & ? & ? & ?); congruence). eapply (V_lsnk _ I); eauto.
      * rewrite K2 in K by (intros (? & ? & _); congruence). eapply (V_lsnk _ I); eauto.
    + rewrite K2 in K by tauto. eapply (V_lsnk _ I); eauto.
  - rewrite Hgm. exact (N_g _ I).
  - rewrite Hlm. apply filter_keys_nodup. exact (N_l _ I).
  - rewrite Hsm. exact (N_s _ I).
  - eapply skel_rooted; [exact Sk|exact (A_root _ I)].
  - intros x X' p Y' E O P EY. destruct (PG _ _ E) as (X & EX & B & _). destruct (PG _ _ EY) as (Y & EY0 & BY & _).
    replace (g_level X') with (g_level X) by congruence. replace (g_level Y') with (g_level Y) by congruence.
    eapply (H_lev _ I); eauto; congruence.
  - intros x X' p Y' E O P EY. destruct (PG _ _ E) as (X & EX & B & Hlo & Hl1 & Hl2).
    destruct (PG _ _ EY) as (Y & EY0 & BY & _ & Hy1 & Hy2). assert (PX : g_parent X = Some p) by congruence.
    destruct (A_root _ I _ _ EX) as (hx & Hhx). destruct (A_root _ I _ _ EY0) as (hy & Hhy).
    destruct (Nat.eqb_spec x g) as [->|Hx].
    + assert (X = G) by congruence. subst X. rewrite (Hl1 (inh_self _ _ _)). rewrite Hlo in O.
      rewrite (Hb O p Y PX EY0). symmetry. apply Hy2. intros Hi.
      pose proof (inherits_ht _ _ _ _ _ _ Hi Hhx Hhy) as Hle.
      assert (ht (groups s) g (S hy)) as Hh2 by (eapply ht_step; eauto). pose proof (ht_fun _ _ _ _ Hhx Hh2). lia.
    + rewrite Hlo in O. destruct (inherits_dec g_sov s g p _ Hhy) as [Hi|Hi].
      * rewrite (Hy1 Hi). apply Hl1. econstructor; eauto.
      * rewrite (Hy2 Hi). assert (Hn : ~ inherits g_sov s g x) by (intros Hx'; apply Hi; eapply inherits_up; eauto).
        rewrite (Hl2 Hn). eapply (H_snk _ I); eauto.
  - intros i L' Y' E A O EY. destruct (PL _ _ E) as (L & EL & B & _). destruct (PG _ _ EY) as (Y & EY0 & BY & _).
    replace (g_level Y') with (g_level Y) in * by congruence. replace (l_level L') with (l_level L) by congruence.
    assert (Hgr : l_group L' = l_group L) by congruence. rewrite Hgr in *.
    eapply (L_lev _ I); eauto; congruence.
  - intros i L' Y' E A O EY K. destruct (PL _ _ E) as (L & EL & B & Hlo & Hl1 & Hl2).
    destruct (PG _ _ EY) as (Y & EY0 & BY & _ & Hy1 & Hy2).
    destruct (A_root _ I _ _ EY0) as (hy & Hhy).
    assert (Hgr : l_group L' = l_group L) by congruence. rewrite Hgr in *. assert (Al : l_alive L = true) by congruence.
    destruct (inherits_dec g_sov s g _ _ Hhy) as [Hi|Hi].
    + rewrite (Hy1 Hi) in *. apply Hl1; congruence || exact Hi.
    + rewrite (Hy2 Hi) in *. rewrite Hl2 by tauto. eapply (L_snk _ I); eauto; congruence.
  - rewrite Hgm. intros x X' E P. destruct (PG _ _ E) as (X & EX & B & _). eapply (Reg _ I); eauto. congruence.
  - rewrite Hlm. intros i L' E A. destruct (PL _ _ E) as (L & EL & B & _). assert (Al : l_alive L = true) by congruence.
    apply filter_alive_in. split; [|eauto]. replace (l_name L') with (l_name L) by congruence. eapply (LReg _ I); eauto.
  - rewrite Hgm. exact (Star _ I).
Qed.

(** Old links may have gone; [g] has a new one, from which it took what it does not override. *)
Lemma Inv_parent s s2 s' g l k G2 :
  Inv s -> properties_passed s s2 s' g l k ->
  length (groups s2) = length (groups s) -> rooted (groups s2) ->
  (forall x X, x <> g -> nth_error (groups s) x = Some X -> exists X2, nth_error (groups s2) x = Some X2 /\
     g_sov X2 = g_sov X /\ g_lov X2 = g_lov X /\ g_level X2 = g_level X /\ g_sink X2 = g_sink X /\
     (g_parent X2 = g_parent X \/ g_parent X2 = None)) ->
  In g (map snd (gmap s)) ->
  nth_error (groups s2) g = Some G2 ->
  (forall j, k = Some j -> j < length (sinks s)) ->
  (forall p, g_parent G2 = Some p -> p < length (groups s)) ->
  (g_lov G2 = false -> forall p Y, g_parent G2 = Some p -> nth_error (groups s2) p = Some Y -> l = g_level Y) ->
  (g_sov G2 = false -> forall p Y, g_parent G2 = Some p -> nth_error (groups s2) p = Some Y -> k = g_sink Y) ->
  Inv s'.
Proof.
  intros I ((HL & HLl & Hsi & Hgm & Hsm & Hcf & Hlm) & HG & HLg) HL2 Hr2 Hrel Hg EG Hkv Hpv Hbl Hbs.
  assert (EGs : exists G, nth_error (groups s) g = Some G). { apply lt_nth_some. rewrite <- HL2. eapply nth_some_lt; eauto. }
  destruct EGs as (G & EGs).
  assert (P2 : forall x X, nth_error (groups s) x = Some X -> exists X2, nth_error (groups s2) x = Some X2).
  { intros x X E. apply lt_nth_some. rewrite HL2. eapply nth_some_lt; eauto. }
  assert (PG : forall x X', nth_error (groups s') x = Some X' -> exists X X2, nth_error (groups s) x = Some X /\
     nth_error (groups s2) x = Some X2 /\
     g_parent X' = g_parent X2 /\ g_sov X' = g_sov X2 /\ g_lov X' = g_lov X2 /\
     (inherits g_lov s' g x -> g_level X' = l) /\ (~ inherits g_lov s' g x -> g_level X' = g_level X) /\
     (inherits g_sov s' g x -> g_sink X' = k) /\ (~ inherits g_sov s' g x -> g_sink X' = g_sink X)).
  { intros x X' E. destruct (nth_pull _ _ _ _ HL E) as (X & EX). destruct (P2 _ _ EX) as (X2 & EX2).
    destruct (HG _ _ _ EX EX2) as (X3 & E3 & H3).
    rewrite E in E3. injection E3 as <-. exists X, X2. tauto. }
  assert (PL : forall i L', nth_error (loggers s') i = Some L' -> exists L, nth_error (loggers s) i = Some L /\
     l_name L' = l_name L /\ l_group L' = l_group L /\ l_sov L' = l_sov L /\ l_lov L' = l_lov L /\ l_alive L' = l_alive L /\
     (l_alive L = true -> l_lov L = false -> inherits g_lov s' g (l_group L) -> l_level L' = l) /\
     (~ (l_alive L = true /\ l_lov L = false /\ inherits g_lov s' g (l_group L)) -> l_level L' = l_level L) /\
     (l_alive L = true -> l_sov L = false -> inherits g_sov s' g (l_group L) -> k <> None -> l_sink L' = k) /\
     (~ (l_alive L = true /\ l_sov L = false /\ inherits g_sov s' g (l_group L) /\ k <> None) -> l_sink L' = l_sink L)).
  { intros i L' E. destruct (nth_pull _ _ _ _ HLl E) as (L & EL). destruct (HLg _ _ EL) as (L2 & E2 & H2).
    rewrite E in E2. injection E2 as <-. eauto. }
  assert (Sk : skel (groups s2) (groups s')).
  { split; [congruence|]. intros x X2 E. destruct (nth_pull (groups s) (groups s2) x X2 HL2 E) as (X & EX).
    destruct (HG _ _ _ EX E) as (X' & E' & B & P & _). exists X'. split; [exact E'|congruence]. }
  pose proof (skel_rooted _ _ Sk Hr2) as Hr'.
  (* a link of [s'] not from [g] is one of [s] *)
  assert (Hlink : forall x X' p, nth_error (groups s') x = Some X' -> g_parent X' = Some p -> x <> g ->
    exists X, nth_error (groups s) x = Some X /\ g_parent X = Some p /\ g_sov X' = g_sov X /\ g_lov X' = g_lov X).
  { intros x X' p E P Hx. destruct (PG _ _ E) as (X & X2 & EX & EX2 & Q1 & Q2 & Q3 & _).
    destruct (Hrel _ _ Hx EX) as (X3 & E3 & F1 & F2 & _ & _ & [F|F]); rewrite EX2 in E3; injection E3 as <-; [|congruence].
    exists X. repeat split; congruence. }
  constructor.
  - intros x X' p E P. rewrite HL. destruct (Nat.eq_dec x g) as [->|Hx].
    + apply Hpv. destruct (PG _ _ E) as (X & X2 & EX & EX2 & Q1 & _). congruence.
    + destruct (Hlink _ _ _ E P Hx) as (X & EX & PX & _). eapply (V_par _ I); eauto.
  - rewrite Hgm, HL. exact (V_gmap _ I).
  - intros i L' E. destruct (PL _ _ E) as (L & EL & _ & Q & _). rewrite HL, Q.
    eapply (V_lgrp _ I); eauto.
  - rewrite Hlm. intros n i H. apply filter_alive_in in H. destruct H as (H & L & E & _).
    destruct (HLg _ _ E) as (L' & E' & B & _). exists L'. split; [exact E'|].
    destruct (V_lmap _ I _ _ H) as (L2 & E2 & N2). congruence.
  - rewrite Hsm, Hsi. exact (V_smap _ I).
  - intros x X' j E K. destruct (PG _ _ E) as (X & X2 & EX & EX2 & _ & _ & _ & _ & _ & K1 & K2). rewrite Hsi.
    destruct (Hr' _ _ E) as (hx & Hhx). destruct (inherits_dec g_sov s' g x _ Hhx) as [Hi|Hi].
    + rewrite (K1 Hi) in K. auto.
    + rewrite (K2 Hi) in K. eapply (V_gsnk _ I); eauto.
  - intros i L' j E K. destruct (PL _ _ E) as (L & EL & _ & Q & _ & _ & _ & _ & _ & K1 & K2). rewrite Hsi.
    destruct (lt_nth_some (groups s') (l_group L)) as (Y & EY). { rewrite HL. exact (V_lgrp _ I _ _ EL). }
    destruct (Hr' _ _ EY) as (hy & Hhy). destruct (inherits_dec g_sov s' g _ _ Hhy) as [Hi|Hi].
    + destruct (l_alive L) eqn:Al; [destruct (l_sov L) eqn:So; [|destruct k as [k0|] eqn:Ek]|].
      * rewrite K2 in K by (intros (? & ? & _); congruence). eapply (V_lsnk _ I); eauto.
      * rewrite K1 in K; auto; try discriminate.
      * rewrite K2 in K by (intros (? & ? & ? & ?); congruence). eapply (V_lsnk _ I); eauto.
      * rewrite K2 in K by (intros (? & ? & _); congruence). eapply (V_lsnk _ I); eauto.
    + rewrite K2 in K by tauto. eapply (V_lsnk _ I); eauto.
  - rewrite Hgm. exact (N_g _ I).
  - rewrite Hlm. apply filter_keys_nodup. exact (N_l _ I).
  - rewrite Hsm. exact (N_s _ I).
  - exact Hr'.
  - intros x X' p Y' E O P EY.
    destruct (PG _ _ E) as (X & X2 & EX & EX2 & Q1 & Q2 & Q3 & Hl1 & Hl2 & _).
    destruct (PG _ _ EY) as (Y & Y2 & EY0 & EY2 & _ & _ & _ & Hy1 & Hy2 & _).
    destruct (Hr' _ _ E) as (hx & Hhx). destruct (Hr' _ _ EY) as (hy & Hhy).
    destruct (Nat.eq_dec x g) as [->|Hx].
    + assert (X2 = G2) by congruence. subst X2. rewrite (Hl1 (inh_self _ _ _)).
      rewrite (Hbl ltac:(congruence) p Y2 ltac:(congruence) EY2).
      assert (Hpg : p <> g). { intros ->. assert (ht (groups s') g (S hy)) as Hh2 by (eapply ht_step; [exact E|exact P|exact Hhy]). pose proof (ht_fun _ _ _ _ Hhy Hh2). lia. }
      destruct (Hrel _ _ Hpg EY0) as (Y3 & EY3 & _ & _ & F3 & _). rewrite EY2 in EY3. injection EY3 as <-.
      rewrite F3. symmetry. apply Hy2. intros Hi.
      pose proof (inherits_ht _ _ _ _ _ _ Hi Hhx Hhy) as Hle.
      assert (ht (groups s') g (S hy)) as Hh2 by (eapply ht_step; eauto). pose proof (ht_fun _ _ _ _ Hhx Hh2). lia.
    + destruct (Hlink _ _ _ E P Hx) as (X3 & EX3 & PX & _ & O3). rewrite EX in EX3. injection EX3 as <-.
      destruct (inherits_dec g_lov s' g p _ Hhy) as [Hi|Hi].
      * rewrite (Hy1 Hi). apply Hl1. econstructor; eauto.
      * rewrite (Hy2 Hi). assert (Hn : ~ inherits g_lov s' g x) by (intros Hx'; apply Hi; eapply inherits_up; eauto).
        rewrite (Hl2 Hn). eapply (H_lev _ I); eauto; congruence.
  - intros x X' p Y' E O P EY.
    destruct (PG _ _ E) as (X & X2 & EX & EX2 & Q1 & Q2 & Q3 & _ & _ & Hl1 & Hl2).
    destruct (PG _ _ EY) as (Y & Y2 & EY0 & EY2 & _ & _ & _ & _ & _ & Hy1 & Hy2).
    destruct (Hr' _ _ E) as (hx & Hhx). destruct (Hr' _ _ EY) as (hy & Hhy).
    destruct (Nat.eq_dec x g) as [->|Hx].
    + assert (X2 = G2) by congruence. subst X2. rewrite (Hl1 (inh_self _ _ _)).
      rewrite (Hbs ltac:(congruence) p Y2 ltac:(congruence) EY2).
      assert (Hpg : p <> g). { intros ->. assert (ht (groups s') g (S hy)) as Hh2 by (eapply ht_step; [exact E|exact P|exact Hhy]). pose proof (ht_fun _ _ _ _ Hhy Hh2). lia. }
      destruct (Hrel _ _ Hpg EY0) as (Y3 & EY3 & _ & _ & _ & F3 & _). rewrite EY2 in EY3. injection EY3 as <-.
      rewrite F3. symmetry. apply Hy2. intros Hi.
      pose proof (inherits_ht _ _ _ _ _ _ Hi Hhx Hhy) as Hle.
      assert (ht (groups s') g (S hy)) as Hh2 by (eapply ht_step; eauto). pose proof (ht_fun _ _ _ _ Hhx Hh2). lia.
    + destruct (Hlink _ _ _ E P Hx) as (X3 & EX3 & PX & O3 & _). rewrite EX in EX3. injection EX3 as <-.
      destruct (inherits_dec g_sov s' g p _ Hhy) as [Hi|Hi].
      * rewrite (Hy1 Hi). apply Hl1. econstructor; eauto.
      * rewrite (Hy2 Hi). assert (Hn : ~ inherits g_sov s' g x) by (intros Hx'; apply Hi; eapply inherits_up; eauto).
        rewrite (Hl2 Hn). eapply (H_snk _ I); eauto; congruence.
  - intros i L' Y' E A O EY. destruct (PL _ _ E) as (L & EL & N & Q & S1 & S2 & S3 & Hl1 & Hl2 & _).
    destruct (PG _ _ EY) as (Y & Y2 & EY0 & EY2 & _ & _ & _ & Hy1 & Hy2 & _).
    destruct (Hr' _ _ EY) as (hy & Hhy). rewrite Q in *.
    destruct (inherits_dec g_lov s' g _ _ Hhy) as [Hi|Hi].
    + rewrite (Hy1 Hi). apply Hl1; congruence || exact Hi.
    + rewrite (Hy2 Hi). rewrite Hl2 by tauto. eapply (L_lev _ I); eauto; congruence.
  - intros i L' Y' E A O EY K. destruct (PL _ _ E) as (L & EL & N & Q & S1 & S2 & S3 & _ & _ & Hl1 & Hl2).
    destruct (PG _ _ EY) as (Y & Y2 & EY0 & EY2 & _ & _ & _ & _ & _ & Hy1 & Hy2).
    destruct (Hr' _ _ EY) as (hy & Hhy). rewrite Q in *.
    destruct (inherits_dec g_sov s' g _ _ Hhy) as [Hi|Hi].
    + rewrite (Hy1 Hi) in *. apply Hl1; congruence || exact Hi.
    + rewrite (Hy2 Hi) in *. rewrite Hl2 by tauto. eapply (L_snk _ I); eauto; congruence.
  - rewrite Hgm. intros x X' E P. destruct (Nat.eq_dec x g) as [->|Hx]; [exact Hg|].
    destruct (g_parent X') as [p|] eqn:P'; [|congruence]. destruct (Hlink _ _ _ E P' Hx) as (X & EX & PX & _).
    eapply (Reg _ I); eauto. congruence.
  - rewrite Hlm. intros i L' E A. destruct (PL _ _ E) as (L & EL & N & Q & S1 & S2 & S3 & _). rewrite S3 in A.
    apply filter_alive_in. split; [|eauto]. rewrite N. eapply (LReg _ I); eauto.
  - rewrite Hgm. exact (Star _ I).
Qed.

End Changes.
