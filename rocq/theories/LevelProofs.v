(** * Proofs about levels *)
From Coq Require Import Ascii String NArith Arith List Lia.
From Verif Require Import Base LevelModel.
Import ListNotations.

(** The documented order, lowest first. *)
Definition documented_order : list level :=
  [OFF; CRITICAL; ERROR; WARN; INFO; VERBOSE; DEBUG; TRACE; IGNORE].

Lemma level_order :
  forall i j a b, nth_error documented_order i = Some a -> nth_error documented_order j = Some b ->
    (lle a b = true <-> i <= j) /\ (llt a b = true <-> i < j) /\ (leqb a b = true <-> a = b) /\
    (a = b <-> i = j).
Proof.
  intros i j a b Hi Hj.
  destruct i as [|[|[|[|[|[|[|[|[|i]]]]]]]]]; cbn in Hi; try (destruct i; discriminate);
  injection Hi as <-;
  destruct j as [|[|[|[|[|[|[|[|[|j]]]]]]]]]; cbn in Hj; try (destruct j; discriminate);
  injection Hj as <-; cbn; repeat split; intros; try lia; try congruence.
Qed.

Lemma level_complete : forall l, In l documented_order.
Proof. intros l. destruct l; cbn; tauto. Qed.

Lemma level_names :
  forall a b,
    (levelToStr a = levelToStr b -> a = b) /\
    1 <= length (levelToStr a) <= 8 /\ ~ In nul (levelToStr a) /\
    hd_error (levelToStr a) = Some (levelToChar a).
Proof.
  intros a b. split; [|split; [|split]].
  - destruct a, b; vm_compute; congruence.
  - destruct a; vm_compute; lia.
  - destruct a; vm_compute; intuition discriminate.
  - destruct a; reflexivity.
Qed.

Lemma level_letters :
  forall a b, In a [CRITICAL; ERROR; WARN; INFO; VERBOSE; DEBUG; TRACE] ->
    In b [CRITICAL; ERROR; WARN; INFO; VERBOSE; DEBUG; TRACE] ->
    levelToChar a = levelToChar b -> a = b.
Proof.
  intros a b Ha Hb. destruct a, b; vm_compute; try congruence;
    cbn in Ha, Hb; intuition discriminate.
Qed.

