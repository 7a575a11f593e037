From Coq Require Import String List Arith Bool Lia.
From Verif Require Import Base LevelModel SysModel SysSpec SysBase SysWitness GroupModel GroupSpec.
Import ListNotations.

Lemma set_at_length {A} (l : list A) i x : length (set_at l i x) = length l.
Proof. revert i. induction l as [|y l IH]; intros [|i]; cbn; auto. Qed.
Lemma set_at_same {A} (l : list A) i x y : nth_error l i = Some y -> nth_error (set_at l i x) i = Some x.
Proof. revert i. induction l as [|z l IH]; intros [|i] H; cbn in *; try discriminate; auto. Qed.
Lemma set_at_other {A} (l : list A) i j x : j <> i -> nth_error (set_at l i x) j = nth_error l j.
Proof.
  revert i j. induction l as [|z l IH]; intros [|i] [|j] H; cbn; auto; try lia.
Qed.
Lemma set_at_twice {A} (l : list A) i x y : set_at (set_at l i x) i y = set_at l i y.
Proof. revert i. induction l as [|z l IH]; intros [|i]; cbn; auto. now rewrite IH. Qed.

Lemma mod_only s g f X : nth_error (groups s) g = Some X -> only_group s (mod_group s g f) g (f X).
Proof.
  intros H. unfold mod_group. rewrite H. unfold only_group; cbn. repeat split; auto.
  - apply set_at_length.
  - eapply set_at_same; eauto.
  - intros h Hh. apply set_at_other; auto.
Qed.

Lemma mod_twice s g f f' X : nth_error (groups s) g = Some X -> f (f' X) = f X ->
  mod_group (mod_group s g f') g f = mod_group s g f.
Proof.
  intros H E. unfold mod_group. rewrite H. cbn. rewrite (set_at_same _ _ _ _ H). unfold with_groups; cbn.
  rewrite set_at_twice, E. reflexivity.
Qed.

Lemma g_set_parent_child h Y X : g_set_parent (Some (h, Y)) X = child_of (with_parent X (Some h)) Y.
Proof.
  destruct X as [n p k sov l lov]. unfold g_set_parent, child_of, with_parent, g_sink_from, g_level_from; cbn.
  destruct sov, lov; cbn; rewrite ?Nat.eqb_refl; reflexivity.
Qed.

(** ** Acyclicity *)
Lemma anc_trans s a b c : ancestor s a b -> ancestor s b c -> ancestor s a c.
Proof.
  intros H1 H2. induction H2 as [x X E P|x X y E P _ IH]; [eapply anc_step; eauto|eapply anc_step; eauto].
Qed.

Section Cycle.
Variables (s s' : sys) (g p : nat) (X' : group).
Hypothesis O : only_group s s' g X'.
Hypothesis P' : g_parent X' = Some p.
Hypothesis Hne : p <> g.
Hypothesis Hanc : ~ ancestor s g p.

Lemma anc_back a x : ancestor s' a x ->
  ancestor s a x \/ ((x = g \/ ancestor s g x) /\ (a = p \/ ancestor s a p)).
Proof.
  destruct O as (_ & _ & _ & _ & _ & _ & _ & Eg & Eo).
  induction 1 as [x X E P|x X y E P _ IH].
  - destruct (Nat.eq_dec x g) as [->|N].
    + rewrite Eg in E. injection E as <-. right. split; [auto|left; congruence].
    + rewrite Eo in E by exact N. left. eapply anc_parent; eauto.
  - destruct (Nat.eq_dec x g) as [->|N].
    + rewrite Eg in E. injection E as <-. assert (y = p) as -> by congruence.
      destruct IH as [IH|[[IH|IH] _]]; [right; auto|congruence|contradiction].
    + rewrite Eo in E by exact N. destruct IH as [IH|[IH IH']].
      * left. eapply anc_step; eauto.
      * right. split; [right|exact IH']. destruct IH as [->|IH]; [eapply anc_parent; eauto|eapply anc_step; eauto].
Qed.

Lemma stays_acyclic : acyclic s -> acyclic s'.
Proof.
  intros A x H. apply anc_back in H. destruct H as [H|[[->|H1] [H2|H2]]].
  - exact (A x H).
  - congruence.
  - contradiction.
  - subst. contradiction.
  - exact (Hanc (anc_trans _ _ _ _ H1 H2)).
Qed.
End Cycle.

Lemma cut_acyclic s s' g X' : only_group s s' g X' -> g_parent X' = None -> acyclic s -> acyclic s'.
Proof.
  intros (_ & _ & _ & _ & _ & _ & _ & Eg & Eo) P A.
  assert (B : forall a x, ancestor s' a x -> ancestor s a x).
  { induction 1 as [x X E Q|x X y E Q _ IH]; (destruct (Nat.eq_dec x g) as [->|N]; [rewrite Eg in E; congruence|rewrite Eo in E by exact N]).
    - eapply anc_parent; eauto.
    - eapply anc_step; eauto. }
  intros x H. exact (A x (B _ _ H)).
Qed.

(** ** Two roots made each other's parents *)
Definition two_sys : sys := Eval vm_compute in
  fst (run idord 10 true init [MakeGroup "a" None (Some "*"%string) (Some INFO); MakeGroup "b" None (Some "*"%string) (Some INFO);
                               MakeGroup "c" None (Some "*"%string) (Some INFO)]).
Lemma two_reachable ord dbg : reachable ord dbg usual_sinks two_sys.
Proof.
  reach [MakeGroup "a" None (Some "*"%string) (Some INFO); MakeGroup "b" None (Some "*"%string) (Some INFO);
         MakeGroup "c" None (Some "*"%string) (Some INFO)].
Qed.
Definition ring_sys : sys := Eval vm_compute in
  fst (gstep (fst (gstep two_sys (GSetParentGroup 0 (Some 1)))) (GSetParentGroup 1 (Some 0))).

Lemma ring_fn fuel l st i :
  (i = 0 \/ i = 1) -> fn fuel g_lov (groups (mod_group ring_sys 2 (g_set_level l))) 2 [] st i = None.
Proof.
  revert i st. induction fuel as [|f IH]; intros i st [->| ->]; cbn; try reflexivity.
  - cbn in IH. rewrite IH by auto. reflexivity.
  - cbn in IH. rewrite IH by auto. reflexivity.
Qed.
Lemma ring_level ord fuel dbg l : snd (step ord fuel dbg ring_sys (SetLevelOfGroup "c" l)) = RHang.
Proof.
  cbn [step]. change (find (gmap ring_sys) "c") with (Some 2). cbn iota. unfold set_level_of_group, spread.
  change (gmap (mod_group ring_sys 2 (g_set_level l))) with (("*"%string, 0) :: [("a"%string, 0); ("b"%string, 1); ("c"%string, 2)]).
  cbn [scan]. rewrite ring_fn by auto. reflexivity.
Qed.

(** ** Properties that are a group's own *)
Definition own_level (g : nat) (l : level) (s : sys) : Prop :=
  exists X, nth_error (groups s) g = Some X /\ g_level X = l /\ g_lov X = true.
Definition own_sink (g k : nat) (s : sys) : Prop :=
  exists X, nth_error (groups s) g = Some X /\ g_sink X = Some k /\ g_sov X = true.
Lemma mod_own_level s g l h f : own_level g l s ->
  (h = g -> forall X, g_level X = l -> g_lov X = true -> g_level (f X) = l /\ g_lov (f X) = true) -> own_level g l (mod_group s h f).
Proof.
  intros (X & Q & A & B) H. destruct (nth_error (groups s) h) as [Y|] eqn:Hh; [|unfold mod_group; rewrite Hh; exists X; auto].
  destruct (mod_only s h f Y Hh) as (_ & _ & _ & _ & _ & _ & _ & M1 & M2). destruct (Nat.eq_dec h g) as [->|N].
  - assert (Y = X) by congruence. subst Y. destruct (H eq_refl X A B). exists (f X). auto.
  - exists X. rewrite M2 by auto. auto.
Qed.
Lemma mod_own_sink s g k h f : own_sink g k s ->
  (h = g -> forall X, g_sink X = Some k -> g_sov X = true -> g_sink (f X) = Some k /\ g_sov (f X) = true) -> own_sink g k (mod_group s h f).
Proof.
  intros (X & Q & A & B) H. destruct (nth_error (groups s) h) as [Y|] eqn:Hh; [|unfold mod_group; rewrite Hh; exists X; auto].
  destruct (mod_only s h f Y Hh) as (_ & _ & _ & _ & _ & _ & _ & M1 & M2). destruct (Nat.eq_dec h g) as [->|N].
  - assert (Y = X) by congruence. subst Y. destruct (H eq_refl X A B). exists (f X). auto.
  - exists X. rewrite M2 by auto. auto.
Qed.
Ltac own_cases f N :=
  cbn in N; unfold from_named, from_group;
  repeat match goal with
  | |- context [match ?x with _ => _ end] => match type of x with option _ => destruct x | bool => destruct x end
  end; cbn [fst]; try assumption;
  (apply f; [assumption|intros -> Z A B; try (rewrite Nat.eqb_refl in N; discriminate N)]).
Lemma gstep_own_level s g l c : sets_level g c = false -> own_level g l s -> own_level g l (fst (gstep s c)).
Proof.
  intros N O. destruct c as [h l'|h|h h'|h m|h k|h m|h|h h'|h m|h p|h m|h]; cbn [gstep]; try destruct p as [p|]; own_cases mod_own_level N;
  destruct Z as [zn zp zk zs zl zo]; cbn in A, B; subst zl zo;
  unfold set_parent, g_set_parent, g_unset_parent, g_set_sink, g_reset_sink, g_sink_from; cbn; auto;
  try (destruct zs; cbn; auto); try (destruct (parent_of (groups s) g); cbn; auto).
Qed.
Lemma gstep_own_sink s g k c : sets_sink g c = false -> own_sink g k s -> own_sink g k (fst (gstep s c)).
Proof.
  intros N O. destruct c as [h l'|h|h h'|h m|h k'|h m|h|h h'|h m|h p|h m|h]; cbn [gstep]; try destruct p as [p|]; own_cases mod_own_sink N;
  destruct Z as [zn zp zk zs zl zo]; cbn in A, B; subst zk zs;
  unfold set_parent, g_set_parent, g_unset_parent, g_set_level, g_reset_level, g_level_from; cbn; auto;
  try (destruct zo; cbn; auto); try (destruct (parent_of (groups s) g); cbn; auto).
Qed.
Lemma own_level_stays g l cs : forall s, Forall (fun c => sets_level g c = false) cs -> own_level g l s -> own_level g l (gcalls s cs).
Proof. induction cs as [|c cs IH]; intros s F O; [exact O|]. inversion F; subst. apply (IH (fst (gstep s c))); [assumption|]. apply gstep_own_level; assumption. Qed.
Lemma own_sink_stays g k cs : forall s, Forall (fun c => sets_sink g c = false) cs -> own_sink g k s -> own_sink g k (gcalls s cs).
Proof. induction cs as [|c cs IH]; intros s F O; [exact O|]. inversion F; subst. apply (IH (fst (gstep s c))); [assumption|]. apply gstep_own_sink; assumption. Qed.
Lemma marked_with_parent s g X p : nth_error (groups s) g = Some X -> g_parent X = Some p ->
  (forall l cs, Forall (fun c => sets_level g c = false) cs ->
     exists X', nth_error (groups (gcalls s (GSetLevel g l :: cs))) g = Some X' /\ g_level X' = l /\ g_lov X' = true) /\
  (forall k cs, k < length (sinks s) -> Forall (fun c => sets_sink g c = false) cs ->
     exists X', nth_error (groups (gcalls s (GSetSink g k :: cs))) g = Some X' /\ g_sink X' = Some k /\ g_sov X' = true).
Proof.
  intros H P. split.
  - intros l cs F. apply (own_level_stays g l cs (fst (gstep s (GSetLevel g l))) F). cbn [gstep fst].
    destruct (mod_only s g (g_set_level l) X H) as (_ & _ & _ & _ & _ & _ & _ & M & _). exists (g_set_level l X). split; [exact M|]. cbn. rewrite P. auto.
  - intros k cs K F. apply (own_sink_stays g k cs (fst (gstep s (GSetSink g k))) F). cbn [gstep fst].
    rewrite (proj2 (Nat.ltb_lt k (length (sinks s))) K). cbn [fst].
    destruct (mod_only s g (g_set_sink k) X H) as (_ & _ & _ & _ & _ & _ & _ & M & _). exists (g_set_sink k X). split; [exact M|]. cbn. rewrite P. auto.
Qed.
