(** * Proofs for C87 *)

From Coq Require Import List Arith Bool Lia.
From Verif Require Import RaceModel RaceSpec.
Import ListNotations.

(** ** Equality tests *)

Lemma rw_eqb_eq a b : rw_eqb a b = true <-> a = b.
Proof. destruct a, b; simpl; split; congruence. Qed.
Lemma gf_eqb_eq a b : gf_eqb a b = true <-> a = b.
Proof. destruct a, b; simpl; split; congruence. Qed.
Lemma lf_eqb_eq a b : lf_eqb a b = true <-> a = b.
Proof. destruct a, b; simpl; split; congruence. Qed.
Lemma loc_eqb_eq a b : loc_eqb a b = true <-> a = b.
Proof.
  destruct a, b; simpl; try (split; congruence);
    rewrite andb_true_iff, Nat.eqb_eq, ?gf_eqb_eq, ?lf_eqb_eq;
    split; [intros [-> ->]; auto | intros E; inversion E; auto
           |intros [-> ->]; auto | intros E; inversion E; auto].
Qed.

(** ** Depth of the lock along a call *)

Fixpoint dpt (d : nat) (l : list item) : nat :=
  match l with
  | [] => d
  | Lock :: l => dpt (S d) l
  | Unlock :: l => dpt (pred d) l
  | _ :: l => dpt d l
  end.

Fixpoint wl (d : nat) (l : list item) : bool :=
  match l with
  | [] => Nat.eqb d 0
  | Lock :: l => wl (S d) l
  | Unlock :: l => negb (Nat.eqb d 0) && wl (pred d) l
  | _ :: l => wl d l
  end.

Lemma prog_wl a : wl 0 (prog a) = true.
Proof. destruct a; try destruct named; try destruct parent; try destruct sink; reflexivity. Qed.

Lemma wl_app d p l : wl d (p ++ l) = true -> wl (dpt d p) l = true.
Proof.
  revert d. induction p as [|i p IH]; intros d H; simpl in *; auto.
  destruct i; auto. apply andb_true_iff in H. apply IH, H.
Qed.

Lemma dpt_app d p l : dpt d (p ++ l) = dpt (dpt d p) l.
Proof. revert d. induction p as [|[] p IH]; intros d; simpl; auto. Qed.

(** ** What a call does, and where *)

Fixpoint acc_at (u : bool) (d : nat) (l : list item) (k : rw) (x : loc) : bool :=
  match l with
  | [] => false
  | Lock :: l => acc_at u (S d) l k x
  | Unlock :: l => acc_at u (pred d) l k x
  | i :: l => ((negb u || Nat.eqb d 0) && does i k x) || acc_at u d l k x
  end.

Lemma acc_at_spec u d l k x :
  acc_at u d l k x = true <->
  exists p i q, l = p ++ i :: q /\ does i k x = true /\ (u = true -> dpt d p = 0).
Proof.
  revert d. induction l as [|i l IH]; intros d; simpl.
  - split; [discriminate|]. intros (p & i & q & E & _). destruct p; discriminate.
  - assert (G : forall d', dpt d' [i] = dpt d' [i]) by reflexivity.
    assert (T : (exists p j q, l = p ++ j :: q /\ does j k x = true /\ (u = true -> dpt (dpt d [i]) p = 0)) <->
                (exists p j q, p <> [] /\ i :: l = p ++ j :: q /\ does j k x = true /\ (u = true -> dpt d p = 0))).
    { split.
      - intros (p & j & q & -> & D & E). exists (i :: p), j, q. repeat split; auto; try discriminate.
        intros U. change (i :: p) with ([i] ++ p). rewrite dpt_app. auto.
      - intros (p & j & q & N & E & D & F). destruct p as [|i' p]; [congruence|].
        inversion E; subst. exists p, j, q. repeat split; auto.
        intros U. rewrite <- dpt_app. apply F, U. }
    assert (T' : forall X, (X = true <-> exists p j q, p <> [] /\ i :: l = p ++ j :: q /\ does j k x = true /\ (u = true -> dpt d p = 0)) ->
                 ((negb u || Nat.eqb d 0) && does i k x || X = true <->
                  exists p j q, i :: l = p ++ j :: q /\ does j k x = true /\ (u = true -> dpt d p = 0))).
    { intros X HX. rewrite orb_true_iff, andb_true_iff, orb_true_iff, negb_true_iff, Nat.eqb_eq, HX. split.
      - intros [[U D]|(p & j & q & _ & H)]; [|exists p, j, q; exact H].
        exists [], i, l. repeat split; auto. intros ->. destruct U; [discriminate|auto].
      - intros (p & j & q & E & D & F). destruct p as [|i' p].
        + inversion E; subst. left. split; auto. destruct u; auto.
        + right. exists (i' :: p), j, q. repeat split; auto. discriminate. }
    assert (Z : forall e, acc_at u (dpt d [i]) l k x = e -> does i k x = false ->
                (e = true <-> exists p j q, i :: l = p ++ j :: q /\ does j k x = true /\ (u = true -> dpt d p = 0))).
    { intros e He N. rewrite <- (T' e); [rewrite N, andb_false_r; reflexivity|].
      rewrite <- He, IH. exact T. }
    destruct i.
    + apply (Z _ eq_refl eq_refl).
    + apply (Z _ eq_refl eq_refl).
    + apply T'. rewrite IH. exact T.
    + apply T'. rewrite IH. exact T.
Qed.

Ltac boolify :=
  repeat rewrite ?orb_true_iff, ?andb_true_iff, ?rw_eqb_eq, ?loc_eqb_eq, ?orb_false_r,
    ?orb_false_l, ?andb_true_r, ?andb_true_l in *.

Lemma unguarded_acc a k x : In (k, x) (unguarded a) <-> acc_at true 0 (prog a) k x = true.
Proof.
  destruct a; try destruct named; try destruct parent; try destruct sink;
    cbn -[rw_eqb loc_eqb]; boolify; rewrite ?pair_equal_spec; try solve [intuition congruence].
Qed.


Ltac bools :=
  cbn -[Nat.eqb]; rewrite ?andb_true_r, ?andb_false_r, ?orb_true_r, ?orb_false_r;
  cbn -[Nat.eqb]; repeat rewrite ?orb_true_iff, ?Nat.eqb_eq.
Ltac brk :=
  repeat match goal with
         | H : _ \/ _ |- _ => destruct H
         | H : exists _, _ |- _ => destruct H
         | H : _ /\ _ |- _ => destruct H
         | H : _ = _ |- _ => discriminate H
         | H : (_, _) = (_, _) |- _ => injection H; clear H; intros
         | H : Some _ = Some _ |- _ => injection H; clear H; intros; subst
         | H : LGrp _ _ = LGrp _ _ |- _ => injection H; clear H; intros; subst
         | H : LLog _ _ = LLog _ _ |- _ => injection H; clear H; intros; subst
         end.
Ltac fin := intros; brk; subst; try contradiction; try reflexivity; eauto 8; tauto.
Ltac fin2 := split; fin.

Lemma write_acc a x : may_write a x <-> acc_at false 0 (prog a) W x = true.
Proof.
  destruct a; try destruct named; try destruct parent; try destruct sink;
    destruct x as [| | | |hh ee|hh ee]; try destruct ee; bools; fin2.
Qed.

Lemma read_acc a x : may_read a x <-> acc_at false 0 (prog a) R x = true.
Proof.
  destruct a; try destruct named; try destruct parent; try destruct sink; try destruct f;
    destruct x as [| | | |hh ee|hh ee]; try destruct ee; bools; fin2.
Qed.
