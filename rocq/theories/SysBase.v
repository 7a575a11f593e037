(** * Lemmas about maps and heaps *)
From Coq Require Import String List Arith Bool Lia Permutation.
From Verif Require Import Base LevelModel SysModel.
Import ListNotations.

Lemma set_at_length {A} (l : list A) i x : length (set_at l i x) = length l.
Proof. revert i. induction l as [|y l IH]; intros [|i]; cbn; auto. Qed.

Lemma nth_set_at {A} (l : list A) i x : i < length l -> nth_error (set_at l i x) i = Some x.
Proof. revert i. induction l as [|y l IH]; intros [|i] H; cbn in *; try lia; [reflexivity|]. apply IH. lia. Qed.

Lemma nth_set_at_other {A} (l : list A) i j x : j <> i -> nth_error (set_at l i x) j = nth_error l j.
Proof.
  revert i j. induction l as [|y l IH]; intros [|i] [|j] H; cbn; try reflexivity; try congruence.
  apply IH. lia.
Qed.

Lemma nth_some_lt {A} (l : list A) i x : nth_error l i = Some x -> i < length l.
Proof. intros H. apply nth_error_Some. congruence. Qed.

Lemma lt_nth_some {A} (l : list A) i : i < length l -> exists x, nth_error l i = Some x.
Proof. intros H. destruct (nth_error l i) as [x|] eqn:E; [eauto|]. apply nth_error_None in E. lia. Qed.

Lemma find_In m k v : find m k = Some v -> In (k, v) m.
Proof.
  induction m as [|[k' v'] m IH]; [discriminate|]. cbn. destruct (String.eqb_spec k' k) as [->|H].
  - intros [= ->]. auto.
  - auto.
Qed.

Lemma In_find m k v : NoDup (map fst m) -> In (k, v) m -> find m k = Some v.
Proof.
  induction m as [|[k' v'] m IH]; [intros _ []|]. cbn. intros Hn. inversion Hn as [|? ? H1 H2]; subst.
  intros [[= -> ->]|H].
  - rewrite String.eqb_refl. reflexivity.
  - destruct (String.eqb_spec k' k) as [->|Hk]; [|auto]. exfalso. apply H1. change k with (fst (k, v)). apply in_map. exact H.
Qed.

Lemma find_None m k : find m k = None <-> ~ In k (map fst m).
Proof.
  induction m as [|[k' v'] m IH]; [cbn; tauto|]. cbn. destruct (String.eqb_spec k' k) as [->|H].
  - split; [discriminate|tauto].
  - rewrite IH. split; intros; intuition congruence.
Qed.

Lemma find_assign_same m k v : find (assign m k v) k = Some v.
Proof.
  induction m as [|[k' v'] m IH]; cbn; [rewrite String.eqb_refl; reflexivity|].
  destruct (String.eqb_spec k' k) as [->|H]; cbn; [rewrite String.eqb_refl; reflexivity|].
  destruct (String.eqb_spec k' k); [contradiction|]. exact IH.
Qed.

Lemma find_assign_other m k k' v : k' <> k -> find (assign m k v) k' = find m k'.
Proof.
  intros Hk. induction m as [|[k0 v0] m IH]; cbn.
  - destruct (String.eqb_spec k k'); [congruence|reflexivity].
  - destruct (String.eqb_spec k0 k) as [->|H]; cbn.
    + destruct (String.eqb_spec k k'); [congruence|reflexivity].
    + destruct (String.eqb_spec k0 k'); [reflexivity|]. exact IH.
Qed.

Lemma find_assign m k v k' : find (assign m k v) k' = if String.eqb k' k then Some v else find m k'.
Proof.
  destruct (String.eqb_spec k' k) as [->|H]; [apply find_assign_same|apply find_assign_other; exact H].
Qed.

Lemma assign_keys m k v : map fst (assign m k v) = if existsb (String.eqb k) (map fst m) then map fst m else map fst m ++ [k].
Proof.
  induction m as [|[k' v'] m IH]; cbn; [reflexivity|].
  rewrite (String.eqb_sym k k'). destruct (String.eqb_spec k' k) as [->|H]; cbn; [reflexivity|].
  rewrite IH. destruct (existsb _ _); reflexivity.
Qed.

Lemma assign_nodup m k v : NoDup (map fst m) -> NoDup (map fst (assign m k v)).
Proof.
  intros H. rewrite assign_keys. destruct (existsb (String.eqb k) (map fst m)) eqn:E; [exact H|].
  apply NoDup_rev in H. rewrite <- (rev_involutive (map fst m ++ [k])). apply NoDup_rev. rewrite rev_app_distr. cbn.
  constructor; [|exact H]. rewrite <- in_rev. intros Hin.
  assert (existsb (String.eqb k) (map fst m) = true); [|congruence].
  apply existsb_exists. exists k. split; [exact Hin|apply String.eqb_refl].
Qed.

Lemma in_assign m k v k' v' : In (k', v') (assign m k v) -> (k' = k /\ v' = v) \/ In (k', v') m.
Proof.
  induction m as [|[k0 v0] m IH]; cbn; [intros [[= <- <-]|[]]; auto|].
  destruct (String.eqb_spec k0 k) as [->|H]; cbn.
  - intros [[= <- <-]|H]; auto.
  - intros [[= <- <-]|H']; auto. destruct (IH H') as [?|?]; auto.
Qed.

Lemma in_assign_iff m k v k' v' : NoDup (map fst m) ->
  (In (k', v') (assign m k v) <-> (k' = k /\ v' = v) \/ (k' <> k /\ In (k', v') m)).
Proof.
  intros Hn. pose proof (assign_nodup m k v Hn) as Hn'. split.
  - intros H. apply In_find in H; [|exact Hn']. rewrite find_assign in H.
    destruct (String.eqb_spec k' k) as [->|Hk]; [injection H as ->; auto|]. right. split; [exact Hk|].
    apply find_In. exact H.
  - intros [[-> ->]|[Hk H]]; apply find_In; [apply find_assign_same|].
    rewrite find_assign_other by exact Hk. apply In_find; assumption.
Qed.

Lemma swap_perm {A} i (l : list A) : Permutation (swap i l) l.
Proof.
  revert l. induction i as [|i IH]; intros [|x l]; cbn; try reflexivity.
  - destruct l; [reflexivity|]. apply perm_swap.
  - apply perm_skip. apply IH.
Qed.

Lemma find_perm m m' k : Permutation m m' -> NoDup (map fst m) -> find m k = find m' k.
Proof.
  intros Hp Hn. assert (Hn' : NoDup (map fst m')) by (eapply Permutation_NoDup; [apply Permutation_map; exact Hp|exact Hn]).
  destruct (find m k) as [v|] eqn:E.
  - symmetry. apply In_find; [exact Hn'|]. eapply Permutation_in; [exact Hp|]. apply find_In. exact E.
  - symmetry. apply find_None. apply find_None in E. intros H. apply E.
    eapply Permutation_in; [apply Permutation_sym, Permutation_map; exact Hp|exact H].
Qed.

Lemma erase_in m k k' v : In (k', v) (erase m k) <-> In (k', v) m /\ k' <> k.
Proof.
  unfold erase. rewrite filter_In. cbn. rewrite negb_true_iff. destruct (String.eqb_spec k' k); intuition congruence.
Qed.

Lemma filter_keys_nodup {A B} (f : A * B -> bool) m : NoDup (map fst m) -> NoDup (map fst (filter f m)).
Proof.
  induction m as [|x m IH]; [auto|]. cbn. intros H. inversion H as [|? ? H1 H2]; subst.
  destruct (f x); [|auto]. cbn. constructor; [|auto]. intros Hin. apply H1.
  apply in_map_iff in Hin. destruct Hin as (y & Hy & Hf). apply filter_In in Hf. apply in_map_iff. exists y. tauto.
Qed.

Lemma erase_nodup m k : NoDup (map fst m) -> NoDup (map fst (erase m k)).
Proof. apply filter_keys_nodup. Qed.

Lemma oeqb_spec a b : oeqb a b = true <-> a = b.
Proof.
  destruct a as [x|], b as [y|]; cbn; try (split; (discriminate || congruence)); try tauto.
  rewrite Nat.eqb_eq. split; congruence.
Qed.
