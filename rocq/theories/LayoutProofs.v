(** * Proofs about the buffer layout *)
From Coq Require Import NArith Lia.
From Verif Require Import LayoutModel.
Local Open Scope N_scope.

Section Layout.
Variables (tsize align cap padding : N).
Hypothesis Halign : 0 < align.
Hypothesis Hdiv : tsize mod align = 0.
Hypothesis Hcap : cap <= int_max.
Hypothesis Hfit : cap * (node_size tsize align + padding + align) <= vector_max.
Hypothesis Hfit1 : node_size tsize align + padding + align <= vector_max.

Let e := element_size tsize align padding.

Lemma small_mod x : x <= vector_max -> w64 x = x.
Proof. intros H. apply N.mod_small. unfold vector_max, size_t_mod in *. lia. Qed.

Lemma padding_div : exists p', (padding <= p' < padding + align) /\ p' mod align = 0 /\
  e = node_size tsize align + p'.
Proof.
  unfold e, element_size. pose proof (N.mod_lt padding align) as Hm.
  pose proof (N.div_mod padding align) as Hd.
  destruct (N.eqb_spec (padding mod align) 0) as [E|E].
  - exists padding. rewrite small_mod by lia. split; [lia|]. split; [exact E|reflexivity].
  - assert (Hlt : padding mod align < align) by (apply Hm; lia).
    assert (Hd' : padding = align * (padding / align) + padding mod align) by (apply Hd; lia).
    clear Hm Hd. generalize dependent (padding mod align). intros m E Hlt Hd'.
    exists (padding + (align - m)).
    rewrite (small_mod (padding + (align - m))) by lia. rewrite small_mod by lia.
    split; [lia|]. split; [|reflexivity].
    replace (padding + (align - m)) with ((padding / align + 1) * align) by lia.
    apply N.mod_mul. lia.
Qed.

Lemma elem_ge : node_size tsize align + padding <= e.
Proof. destruct padding_div as (p & H & _ & ->). lia. Qed.

Lemma elem_le : e < node_size tsize align + padding + align.
Proof. destruct padding_div as (p & H & _ & ->). lia. Qed.

Lemma elem_mod : e mod align = 0.
Proof.
  destruct padding_div as (p & _ & Hp & ->). unfold node_size.
  assert (Ht : exists k, tsize = k * align).
  { exists (tsize / align). pose proof (N.div_mod tsize align). lia. }
  assert (Hq : exists k, p = k * align).
  { exists (p / align). pose proof (N.div_mod p align). lia. }
  destruct Ht as [k1 ->], Hq as [k2 ->].
  replace (align + k1 * align + k2 * align) with ((1 + k1 + k2) * align) by lia.
  apply N.mod_mul. lia.
Qed.

Lemma cap_e : cap * e <= vector_max.
Proof. pose proof elem_le. nia. Qed.

Lemma alloc_eq : alloc_size tsize align cap padding = cap * e.
Proof. unfold alloc_size. fold e. apply small_mod. exact cap_e. Qed.

Lemma off_eq i : i < cap -> slot_offset tsize align padding i = e * i.
Proof.
  intros Hi. unfold slot_offset. fold e. apply small_mod. pose proof cap_e. nia.
Qed.

Lemma layout_ok :
  ctor_defined tsize align cap padding /\
  (forall i, i < cap ->
     slot_offset tsize align padding i mod align = 0 /\
     slot_offset tsize align padding i + node_size tsize align + padding
       <= alloc_size tsize align cap padding) /\
  (forall i j, i < j -> j < cap ->
     slot_offset tsize align padding i + node_size tsize align + padding
       <= slot_offset tsize align padding j).
Proof.
  pose proof elem_ge as Hge. split; [|split].
  - split; [rewrite alloc_eq; exact cap_e|]. split; [exact Hcap|].
    intros i Hi. rewrite off_eq, alloc_eq by exact Hi. nia.
  - intros i Hi. rewrite off_eq, alloc_eq by exact Hi. split; [|nia].
    assert (Hq : exists k, e = k * align).
    { exists (e / align). pose proof (N.div_mod e align). pose proof elem_mod. lia. }
    destruct Hq as [k ->]. replace (k * align * i) with (k * i * align) by lia.
    apply N.mod_mul. lia.
  - intros i j Hij Hj. rewrite !off_eq by lia. nia.
Qed.
End Layout.
