(** * The calls that change a group *)
From Coq Require Import String List Arith Bool Lia Permutation.
From Verif Require Import Base LevelModel SysModel SysSpec SysBase SysSpread SysInv.
Import ListNotations.

Section Ops.
Variable ord : list nat -> list nat.
Hypothesis ord_in : forall l x, In x (ord l) <-> In x l.

Definition has_parent (X : group) : bool := match g_parent X with Some _ => true | None => false end.

Lemma set_level_spec fuel s g X l :
  Inv s -> length (groups s) <= fuel -> In g (map snd (gmap s)) -> nth_error (groups s) g = Some X ->
  exists s', set_level_of_group ord fuel s g (Some l) = Some s' /\
    level_changed s s' g l (match g_parent X with Some _ => true | None => g_lov X end) /\ Inv s'.
Proof.
  intros I Hf Hg E. destruct (level_spread ord ord_in fuel s g X (g_set_level l) I Hf Hg E eq_refl) as (s' & Hs & Hc).
  exists s'. split; [exact Hs|]. split; [exact Hc|]. eapply Inv_level; eauto.
  intros Hb p Y P _. cbn in Hb. rewrite P in Hb. discriminate.
Qed.

Lemma reset_level_spec fuel s g X :
  Inv s -> length (groups s) <= fuel -> In g (map snd (gmap s)) -> nth_error (groups s) g = Some X ->
  exists s', set_level_of_group ord fuel s g None = Some s' /\
    level_changed s s' g (match parent_of (groups s) g with Some Y => g_level Y | None => g_level X end)
      (match g_parent X with Some _ => false | None => g_lov X end) /\ Inv s'.
Proof.
  intros I Hf Hg E.
  assert (Hbut : g_but_level (g_reset_level (parent_of (groups s) g) X) = g_but_level X).
  { destruct (parent_of (groups s) g); reflexivity. }
  destruct (level_spread ord ord_in fuel s g X _ I Hf Hg E Hbut) as (s' & Hs & Hc).
  exists s'. split; [exact Hs|].
  assert (Hp : parent_of (groups s) g = match g_parent X with Some p => nth_error (groups s) p | None => None end).
  { unfold parent_of. rewrite E. reflexivity. }
  rewrite Hp in *. destruct (g_parent X) as [p|] eqn:P.
  - destruct (lt_nth_some (groups s) p (V_par _ I _ _ _ E P)) as (Y & EY). rewrite EY in *. cbn in Hc.
    split; [exact Hc|]. eapply Inv_level; eauto. intros _ p' Y' P' EY'. rewrite P in P'. injection P' as <-.
    rewrite EY in EY'. injection EY' as <-. reflexivity.
  - cbn in Hc. split; [exact Hc|]. eapply Inv_level; eauto. intros _ p' Y' P'. congruence.
Qed.

Lemma set_sink_spec fuel s g X k :
  Inv s -> length (groups s) <= fuel -> In g (map snd (gmap s)) -> nth_error (groups s) g = Some X -> k < length (sinks s) ->
  exists s', set_sink_of_group ord fuel s g (Some k) = Some s' /\
    sink_changed s s' g (Some k) (match g_parent X with Some _ => true | None => g_sov X end) /\ Inv s'.
Proof.
  intros I Hf Hg E Hk. destruct (sink_spread ord ord_in fuel s g X (g_set_sink k) I Hf Hg E eq_refl) as (s' & Hs & Hc).
  exists s'. split; [exact Hs|]. split; [exact Hc|]. eapply Inv_sink; eauto.
  - intros j [= <-]. exact Hk.
  - intros Hb p Y P _. cbn in Hb. rewrite P in Hb. discriminate.
Qed.

Lemma reset_sink_spec fuel s g X :
  Inv s -> length (groups s) <= fuel -> In g (map snd (gmap s)) -> nth_error (groups s) g = Some X ->
  exists s', set_sink_of_group ord fuel s g None = Some s' /\
    sink_changed s s' g (match parent_of (groups s) g with Some Y => g_sink Y | None => g_sink X end)
      (match g_parent X with Some _ => false | None => g_sov X end) /\ Inv s'.
Proof.
  intros I Hf Hg E.
  assert (Hbut : g_but_sink (g_reset_sink (parent_of (groups s) g) X) = g_but_sink X).
  { destruct (parent_of (groups s) g); reflexivity. }
  destruct (sink_spread ord ord_in fuel s g X _ I Hf Hg E Hbut) as (s' & Hs & Hc).
  exists s'. split; [exact Hs|].
  assert (Hp : parent_of (groups s) g = match g_parent X with Some p => nth_error (groups s) p | None => None end).
  { unfold parent_of. rewrite E. reflexivity. }
  rewrite Hp in *. destruct (g_parent X) as [p|] eqn:P.
  - destruct (lt_nth_some (groups s) p (V_par _ I _ _ _ E P)) as (Y & EY). rewrite EY in *. cbn in Hc.
    split; [exact Hc|]. eapply Inv_sink; eauto.
    + intros j Hj. eapply (V_gsnk _ I); eauto.
    + intros _ p' Y' P' EY'. rewrite P in P'. injection P' as <-. rewrite EY in EY'. injection EY' as <-. reflexivity.
  - cbn in Hc. split; [exact Hc|]. eapply Inv_sink; eauto.
    + intros j Hj. eapply (V_gsnk _ I); eauto.
    + intros _ p' Y' P'. congruence.
Qed.

(** ** Parents *)

(** [g] is not among [x] and its ancestors. *)
Inductive avoids (gs : list group) (g : nat) : nat -> Prop :=
| av_root x X : x <> g -> nth_error gs x = Some X -> g_parent X = None -> avoids gs g x
| av_step x X p : x <> g -> nth_error gs x = Some X -> g_parent X = Some p -> avoids gs g p -> avoids gs g x.

Lemma climbs_spec fuel gs g i h b : (forall x X p, nth_error gs x = Some X -> g_parent X = Some p -> p < length gs) ->
  ht gs i h -> climbs_to fuel gs g (Some i) = Some b -> if b then ~ avoids gs g i else avoids gs g i.
Proof.
  intros Hv H. revert fuel. induction H as [x X E P|x X p h E P H IH]; intros fuel C.
  - destruct fuel as [|f]; cbn in C; destruct (Nat.eqb_spec x g) as [->|Hx]; try discriminate.
    + injection C as <-. intros A. inversion A; congruence.
    + injection C as <-. intros A. inversion A; congruence.
    + rewrite E, P in C. destruct f; cbn in C; injection C as <-; eapply av_root; eauto.
  - destruct fuel as [|f]; cbn in C; destruct (Nat.eqb_spec x g) as [->|Hx]; try discriminate.
    + injection C as <-. intros A. inversion A; congruence.
    + injection C as <-. intros A. inversion A; congruence.
    + rewrite E, P in C. specialize (IH f C). destruct b.
      * intros A. apply IH. inversion A as [|? X' p' ? E' P' A']; subst; [congruence|].
        assert (p' = p) by congruence. subst. exact A'.
      * eapply av_step; eauto.
Qed.

Lemma climbs_total fuel gs g i h : ht gs i h -> h < fuel -> climbs_to fuel gs g (Some i) <> None.
Proof.
  intros H. revert fuel. induction H as [x X E P|x X p h E P H IH]; intros [|f] Hf; try lia; cbn;
    destruct (Nat.eqb x g); try discriminate; rewrite E, P.
  - destruct f; cbn; discriminate.
  - apply IH. lia.
Qed.

Lemma avoids_dec gs g x h : ht gs x h -> avoids gs g x \/ ~ avoids gs g x.
Proof.
  intros H. induction H as [x X E P|x X p h E P H IH]; destruct (Nat.eq_dec x g) as [->|Hx];
    try (right; intros A; inversion A; congruence).
  - left. eapply av_root; eauto.
  - destruct IH as [A|A]; [left; eapply av_step; eauto|]. right. intros A'. inversion A' as [|? X' p' ? E' P' A2]; subst; [congruence|].
    apply A. assert (p' = p) by congruence. subst. exact A2.
Qed.

Lemma avoids_anc s g x h : ht (groups s) x h -> ~ avoids (groups s) g x <-> x = g \/ ancestor s g x.
Proof.
  intros H. induction H as [x X E P|x X p h E P H IH].
  - split.
    + intros A. destruct (Nat.eq_dec x g); [auto|]. exfalso. apply A. eapply av_root; eauto.
    + intros [->|An] A; inversion A; subst; try congruence; inversion An; congruence.
  - split.
    + intros A. destruct (Nat.eq_dec x g) as [|Hx]; [auto|]. right.
      assert (Ap : ~ avoids (groups s) g p) by (intros Ap; apply A; eapply av_step; eauto).
      apply IH in Ap. destruct Ap as [->|Ap]; [eapply anc_parent; eauto|eapply anc_step; eauto].
    + intros [->|An] A; [inversion A; subst; congruence|].
      assert (Ap : avoids (groups s) g p).
      { inversion A as [|? X' p' ? E' P' A']; subst; [congruence|]. assert (p' = p) by congruence. subst. exact A'. }
      apply (proj2 IH); [|exact Ap]. inversion An as [? X' E' P'|? X' y E' P' An']; subst.
      * left. congruence.
      * right. assert (y = p) by congruence. subst. exact An'.
Qed.

(** Removing a link, or redirecting one to a group above which its owner is not. *)
Lemma rooted_cut gs g X X' : rooted gs -> nth_error gs g = Some X -> g_parent X' = None -> rooted (set_at gs g X').
Proof.
  intros R E P x Z EZ. destruct (nth_pull gs _ x Z (set_at_length gs g X') EZ) as (Z0 & EZ0).
  destruct (R _ _ EZ0) as (h & Hh). clear Z EZ EZ0 Z0.
  assert (Hg : ht (set_at gs g X') g 0) by (eapply ht_root; [apply nth_set_at; eapply nth_some_lt; eauto|exact P]).
  induction Hh as [x W EW PW|x W p h EW PW Hh (h' & IH)]; destruct (Nat.eq_dec x g) as [->|Hx]; eauto.
  - exists 0. eapply ht_root; [rewrite nth_set_at_other by exact Hx; exact EW|exact PW].
  - exists (S h'). eapply ht_step; [rewrite nth_set_at_other by exact Hx; exact EW|exact PW|exact IH].
Qed.

Lemma rooted_link gs g X X' p : rooted gs -> nth_error gs g = Some X -> avoids gs g p -> g_parent X' = Some p ->
  rooted (set_at gs g X').
Proof.
  intros R E A P x Z EZ. destruct (nth_pull gs _ x Z (set_at_length gs g X') EZ) as (Z0 & EZ0).
  destruct (R _ _ EZ0) as (h & Hh). clear Z EZ EZ0 Z0.
  assert (Hp : exists h, ht (set_at gs g X') p h).
  { clear P Hh. induction A as [x0 W Hx EW PW|x0 W q Hx EW PW A (hq & IH)].
    - exists 0. eapply ht_root; [rewrite nth_set_at_other by exact Hx; exact EW|exact PW].
    - exists (S hq). eapply ht_step; [rewrite nth_set_at_other by exact Hx; exact EW|exact PW|exact IH]. }
  destruct Hp as (hp & Hp).
  assert (Hg : ht (set_at gs g X') g (S hp)) by (eapply ht_step; [apply nth_set_at; eapply nth_some_lt; eauto|exact P|exact Hp]).
  induction Hh as [x W EW PW|x W q h EW PW Hh (h' & IH)]; destruct (Nat.eq_dec x g) as [->|Hx]; eauto.
  - exists 0. eapply ht_root; [rewrite nth_set_at_other by exact Hx; exact EW|exact PW].
  - exists (S h'). eapply ht_step; [rewrite nth_set_at_other by exact Hx; exact EW|exact PW|exact IH].
Qed.

Lemma avoids_ext gs gs' g x : (forall y, nth_error gs' y = nth_error gs y) -> avoids gs g x -> avoids gs' g x.
Proof.
  intros H A. induction A as [x X Hx E P|x X p Hx E P A IH].
  - eapply av_root; eauto. rewrite H. exact E.
  - eapply av_step; eauto. rewrite H. exact E.
Qed.

Lemma g_set_parent_eq i Y X :
  g_set_parent (Some (i, Y)) X = mkGroup (g_name X) (Some i) (if g_sov X then g_sink X else g_sink Y) (g_sov X)
                                         (if g_lov X then g_level X else g_level Y) (g_lov X).
Proof.
  destruct X as [n q k so l lo]. unfold g_set_parent, g_sink_from, g_level_from. destruct so, lo; cbn; rewrite ?Nat.eqb_refl; reflexivity.
Qed.

Lemma set_parent_spec fuel s g G p P :
  Inv s -> length (groups s) <= fuel -> In g (map snd (gmap s)) ->
  nth_error (groups s) g = Some G -> nth_error (groups s) p = Some P -> p <> g ->
  (g_parent P = Some g \/ avoids (groups s) g p) ->
  exists s', set_parent_of_group ord fuel s g (Some p) = Some s' /\
    parent_changed s s' g (Some p) (if g_lov G then g_level G else g_level P) (if g_sov G then g_sink G else g_sink P) /\ Inv s'.
Proof.
  intros I Hf Hg EG EP Hpg Hcyc. unfold set_parent_of_group. rewrite EP.
  set (s1 := if oeqb (g_parent P) (Some g) then mod_group s p g_unset_parent else s).
  set (P1 := if oeqb (g_parent P) (Some g) then g_unset_parent P else P).
  assert (N1 : forall x, nth_error (groups s1) x = if Nat.eqb x p then Some P1 else nth_error (groups s) x).
  { intros x. unfold s1, P1. destruct (oeqb (g_parent P) (Some g)); [apply mod_group_nth; exact EP|].
    destruct (Nat.eqb_spec x p) as [->|]; [exact EP|reflexivity]. }
  assert (R1 : rooted (groups s1) /\ avoids (groups s1) g p).
  { unfold s1. destruct (oeqb (g_parent P) (Some g)) eqn:O.
    - rewrite (mod_group_groups _ _ _ _ EP). split; [eapply rooted_cut; eauto using (A_root _ I); reflexivity|].
      eapply av_root; [exact Hpg|apply nth_set_at; eapply nth_some_lt; eauto|reflexivity].
    - split; [exact (A_root _ I)|]. destruct Hcyc as [Hc|Hc]; [|exact Hc]. exfalso.
      assert (oeqb (g_parent P) (Some g) = true) by (apply oeqb_spec; exact Hc). congruence. }
  destruct R1 as (R1 & Av1).
  assert (EG1 : nth_error (groups s1) g = Some G). { rewrite N1. destruct (Nat.eqb_spec g p); [congruence|exact EG]. }
  assert (EP1 : nth_error (groups s1) p = Some P1). { rewrite N1, Nat.eqb_refl. reflexivity. }
  rewrite EP1. set (s2 := mod_group s1 g (g_set_parent (Some (p, P1)))).
  set (G2 := g_set_parent (Some (p, P1)) G).
  assert (N2 : forall x, nth_error (groups s2) x = if Nat.eqb x g then Some G2 else nth_error (groups s1) x).
  { intros x. apply mod_group_nth. exact EG1. }
  assert (HP1 : g_name P1 = g_name P /\ g_level P1 = g_level P /\ g_sink P1 = g_sink P /\ g_lov P1 = g_lov P /\ g_sov P1 = g_sov P /\
    (g_parent P1 = g_parent P \/ g_parent P1 = None) /\
    g_parent P1 = if oeqb (g_parent P) (Some g) then None else g_parent P).
  { unfold P1. destruct (oeqb (g_parent P) (Some g)); cbn; repeat split; auto. }
  destruct HP1 as (HPn & HP1 & HP2 & HP3 & HP4 & HP5 & HP6).
  assert (Hrel : forall x X, x <> g -> nth_error (groups s) x = Some X -> exists X2, nth_error (groups s2) x = Some X2 /\
     g_sov X2 = g_sov X /\ g_lov X2 = g_lov X /\ g_level X2 = g_level X /\ g_sink X2 = g_sink X /\
     (g_parent X2 = g_parent X \/ g_parent X2 = None)).
  { intros x X Hx E. rewrite N2. destruct (Nat.eqb_spec x g); [contradiction|]. rewrite N1.
    destruct (Nat.eqb_spec x p) as [->|Hxp]; [|exists X; auto 8]. rewrite EP in E. injection E as <-. exists P1. auto 8. }
  assert (EG2 : nth_error (groups s2) g = Some G2) by (rewrite N2, Nat.eqb_refl; reflexivity).
  assert (Q2 : loggers s2 = loggers s /\ sinks s2 = sinks s /\ gmap s2 = gmap s /\ lmap s2 = lmap s /\ smap s2 = smap s /\
     configured s2 = configured s /\ length (groups s2) = length (groups s)).
  { unfold s2, s1. destruct (mod_group_rest s1 g (g_set_parent (Some (p, P1)))) as (W1 & W2 & W3 & W4 & W5 & W6).
    fold s1. rewrite W1, W2, W3, W4, W5, W6, mod_group_length. unfold s1.
    destruct (oeqb (g_parent P) (Some g)); [|repeat split].
    destruct (mod_group_rest s p g_unset_parent) as (U1 & U2 & U3 & U4 & U5 & U6). rewrite mod_group_length. auto 8. }
  destruct Q2 as (W1 & W2 & W3 & W4 & W5 & W6 & WL).
  assert (R2 : rooted (groups s2)).
  { unfold s2. rewrite (mod_group_groups _ _ _ _ EG1). eapply rooted_link; eauto. rewrite g_set_parent_eq. reflexivity. }
  destruct (parent_spread ord ord_in fuel s s2 g G2 I Hf Hg W1 W2 W3 W4 W5 W6 WL R2 Hrel EG2) as (s' & Hs' & Hpp).
  exists s'. split; [exact Hs'|].
  assert (Hl : g_level G2 = if g_lov G then g_level G else g_level P) by (unfold G2; rewrite g_set_parent_eq; cbn; rewrite HP1; reflexivity).
  assert (Hk : g_sink G2 = if g_sov G then g_sink G else g_sink P) by (unfold G2; rewrite g_set_parent_eq; cbn; rewrite HP2; reflexivity).
  rewrite <- Hl, <- Hk. split.
  - destruct Hpp as (A1 & A2 & A3). split; [exact A1|]. split; [|exact A3].
    intros x X E. destruct (lt_nth_some (groups s2) x) as (X2 & E2). { rewrite WL. eapply nth_some_lt; eauto. }
    destruct (A2 _ _ _ E E2) as (X' & E' & B1 & B2 & B3 & B4 & B5). exists X'. split; [exact E'|].
    rewrite B1, B2, B3, B4. rewrite N2 in E2. destruct (Nat.eqb_spec x g) as [->|Hx].
    + injection E2 as <-. assert (X = G) by congruence. subst X. unfold G2 at 1 2 3 4. rewrite g_set_parent_eq. cbn. repeat (split; [reflexivity|]). exact B5.
    + rewrite N1 in E2. destruct (Nat.eqb_spec x p) as [->|Hxp].
      * injection E2 as <-. assert (X = P) by congruence. subst X. rewrite HPn, HP3, HP4, HP6. cbn. rewrite Nat.eqb_refl. cbn.
        repeat (split; [reflexivity|]). exact B5.
      * assert (X2 = X) by congruence. subst X2. assert (Hoe : oeqb (Some p) (Some x) = false).
        { cbn. apply Nat.eqb_neq. auto. } rewrite Hoe. cbn. repeat (split; [reflexivity|]). exact B5.
  - assert (G2p : g_parent G2 = Some p) by (unfold G2; rewrite g_set_parent_eq; reflexivity).
    assert (EP2 : nth_error (groups s2) p = Some P1). { rewrite N2. destruct (Nat.eqb_spec p g); [contradiction|exact EP1]. }
    assert (G2f : g_lov G2 = g_lov G /\ g_sov G2 = g_sov G) by (unfold G2; rewrite g_set_parent_eq; cbn; auto).
    eapply (Inv_parent s s2 s' g _ _ G2); eauto.
    + intros j Hj. rewrite Hk in Hj. destruct (g_sov G); [exact (V_gsnk _ I _ _ _ EG Hj)|exact (V_gsnk _ I _ _ _ EP Hj)].
    + intros q Hq. rewrite G2p in Hq. injection Hq as <-. eapply nth_some_lt; eauto.
    + intros Ho q Y Hq EY. rewrite G2p in Hq. injection Hq as <-. rewrite EP2 in EY. injection EY as <-.
      rewrite (proj1 G2f) in Ho. rewrite Hl, Ho. congruence.
    + intros Ho q Y Hq EY. rewrite G2p in Hq. injection Hq as <-. rewrite EP2 in EY. injection EY as <-.
      rewrite (proj2 G2f) in Ho. rewrite Hk, Ho. congruence.
Qed.

Lemma unset_parent_spec fuel s g G :
  Inv s -> length (groups s) <= fuel -> In g (map snd (gmap s)) -> nth_error (groups s) g = Some G ->
  exists s', set_parent_of_group ord fuel s g None = Some s' /\
    parent_changed s s' g None (g_level G) (g_sink G) /\ Inv s'.
Proof.
  intros I Hf Hg EG. unfold set_parent_of_group.
  set (s2 := mod_group s g (g_set_parent None)). set (G2 := g_set_parent None G).
  assert (N2 : forall x, nth_error (groups s2) x = if Nat.eqb x g then Some G2 else nth_error (groups s) x).
  { intros x. apply mod_group_nth. exact EG. }
  destruct (mod_group_rest s g (g_set_parent None)) as (W1 & W2 & W3 & W4 & W5 & W6). fold s2 in W1, W2, W3, W4, W5, W6.
  pose proof (mod_group_length s g (g_set_parent None)) as WL. fold s2 in WL.
  assert (R2 : rooted (groups s2)).
  { unfold s2. rewrite (mod_group_groups _ _ _ _ EG). eapply rooted_cut; [exact (A_root _ I)|exact EG|reflexivity]. }
  assert (Hrel : forall x X, x <> g -> nth_error (groups s) x = Some X -> exists X2, nth_error (groups s2) x = Some X2 /\
     g_sov X2 = g_sov X /\ g_lov X2 = g_lov X /\ g_level X2 = g_level X /\ g_sink X2 = g_sink X /\
     (g_parent X2 = g_parent X \/ g_parent X2 = None)).
  { intros x X Hx E. rewrite N2. destruct (Nat.eqb_spec x g); [contradiction|]. exists X. auto 8. }
  assert (EG2 : nth_error (groups s2) g = Some G2) by (rewrite N2, Nat.eqb_refl; reflexivity).
  destruct (parent_spread ord ord_in fuel s s2 g G2 I Hf Hg W1 W2 W3 W4 W5 W6 WL R2 Hrel EG2) as (s' & Hs' & Hpp).
  exists s'. split; [exact Hs'|]. change (g_level G) with (g_level G2). change (g_sink G) with (g_sink G2). split.
  - destruct Hpp as (A1 & A2 & A3). split; [exact A1|]. split; [|exact A3].
    intros x X E. destruct (lt_nth_some (groups s2) x) as (X2 & E2). { rewrite WL. eapply nth_some_lt; eauto. }
    destruct (A2 _ _ _ E E2) as (X' & E' & B1 & B2 & B3 & B4 & B5). exists X'. split; [exact E'|].
    rewrite B1, B2, B3, B4. rewrite N2 in E2. destruct (Nat.eqb_spec x g) as [->|Hx].
    + injection E2 as <-. assert (X = G) by congruence. subst X. cbn. repeat (split; [reflexivity|]). exact B5.
    + assert (X2 = X) by congruence. subst X2. cbn. repeat (split; [reflexivity|]). exact B5.
  - eapply (Inv_parent s s2 s' g _ _ G2); eauto.
    + intros j Hj. exact (V_gsnk _ I _ _ _ EG Hj).
    + intros q Hq. discriminate Hq.
    + intros _ q Y Hq. discriminate Hq.
    + intros _ q Y Hq. discriminate Hq.
Qed.

End Ops.
