(** * Facts about decimal printing *)
From Coq Require Import Ascii String NArith Arith List Bool Lia.
From Verif Require Import Base.
Import ListNotations.
Local Open Scope N_scope.

Lemma size_nat_lt n : n < 2 ^ N.of_nat (N.size_nat n).
Proof.
  destruct n as [|p]; [reflexivity|]. cbn [N.size_nat].
  induction p as [p IH|p IH|]; cbn [Pos.size_nat]; try reflexivity;
    rewrite Nat2N.inj_succ, N.pow_succ_r'; lia.
Qed.

Lemma div10_lt n f : n < 2 ^ N.of_nat (S f) -> n / 10 < 2 ^ N.of_nat f.
Proof.
  rewrite Nat2N.inj_succ, N.pow_succ_r'. intros H.
  apply N.div_lt_upper_bound; lia.
Qed.

Lemma fuel_irrel f : forall f' n, n < 2 ^ N.of_nat f -> n < 2 ^ N.of_nat f' ->
  (0 < f)%nat -> (0 < f')%nat -> dec_fuel f n = dec_fuel f' n.
Proof.
  induction f as [|f IH]; intros f' n H H' L L'; [lia|].
  destruct f' as [|f']; [lia|]. cbn [dec_fuel].
  destruct (N.ltb_spec n 10) as [Hn|Hn]; [reflexivity|].
  assert (P : forall g, n < 2 ^ N.of_nat (S g) -> (0 < g)%nat).
  { intros g Hg. destruct g; [|lia]. cbn in Hg. lia. }
  rewrite (IH f'); auto using div10_lt.
Qed.

Lemma dec_small n : n < 10 -> dec n = [digit n].
Proof.
  intros H. unfold dec. cbn [dec_fuel]. apply N.ltb_lt in H. rewrite H. reflexivity.
Qed.

Lemma dec_step n : 10 <= n -> dec n = dec (n / 10) ++ [digit (n mod 10)].
Proof.
  intros H. unfold dec at 1. cbn [dec_fuel].
  destruct (N.ltb_spec n 10) as [Hn|Hn]; [lia|]. f_equal.
  pose proof (size_nat_lt n) as H1. pose proof (size_nat_lt (n / 10)) as H2.
  apply fuel_irrel; try lia.
  - apply N.le_lt_trans with n; [|exact H1]. apply N.div_le_upper_bound; lia.
  - rewrite Nat2N.inj_succ, N.pow_succ_r'. lia.
  - destruct (N.size_nat n); [cbn in H1; lia|lia].
Qed.

Lemma dec_ind (P : N -> Prop) :
  (forall n, n < 10 -> P n) -> (forall n, 10 <= n -> P (n / 10) -> P n) -> forall n, P n.
Proof.
  intros H0 Hs n. induction n as [n IH] using (well_founded_induction N.lt_wf_0).
  destruct (N.lt_ge_cases n 10) as [H|H]; [auto|].
  apply Hs; [exact H|]. apply IH. apply N.div_lt; lia.
Qed.

Definition is_digit (c : byte) : Prop := 48 <= N_of_ascii c <= 57.

Lemma digit_code d : d < 10 -> N_of_ascii (digit d) = 48 + d.
Proof. intros H. unfold digit. apply N_ascii_embedding. lia. Qed.

Lemma digit_is d : d < 10 -> is_digit (digit d).
Proof. intros H. unfold is_digit. rewrite digit_code by exact H. lia. Qed.

Lemma dec_digits n : Forall is_digit (dec n).
Proof.
  induction n as [n H|n H IH] using dec_ind.
  - rewrite dec_small by exact H. constructor; [apply digit_is; exact H|constructor].
  - rewrite dec_step by exact H. apply Forall_app. split; [exact IH|].
    constructor; [apply digit_is; apply N.mod_lt; lia|constructor].
Qed.

Lemma undec_app a b : undec (a ++ [b]) = 10 * undec a + (N_of_ascii b - 48).
Proof. unfold undec. rewrite fold_left_app. reflexivity. Qed.

Lemma undec_dec n : undec (dec n) = n.
Proof.
  induction n as [n H|n H IH] using dec_ind.
  - rewrite dec_small by exact H. change [digit n] with ([] ++ [digit n]).
    rewrite undec_app, digit_code by exact H. unfold undec. cbn [fold_left]. lia.
  - rewrite dec_step, undec_app, IH by exact H.
    rewrite digit_code by (apply N.mod_lt; lia).
    assert (E : n = 10 * (n / 10) + n mod 10) by (apply N.div_mod; discriminate).
    revert E. generalize (n / 10) (n mod 10). intros q r ->. lia.
Qed.

Lemma dec_inj a b : dec a = dec b -> a = b.
Proof. intros H. rewrite <- (undec_dec a), <- (undec_dec b), H. reflexivity. Qed.

Lemma dec_nonempty n : (1 <= length (dec n))%nat.
Proof.
  induction n as [n H|n H IH] using dec_ind.
  - rewrite dec_small by exact H. simpl. lia.
  - rewrite dec_step by exact H. rewrite app_length. simpl. lia.
Qed.

Lemma dec_length k : forall n, n < 10 ^ N.of_nat k -> (1 <= k)%nat -> (length (dec n) <= k)%nat.
Proof.
  induction k as [|k IH]; intros n H L; [lia|].
  destruct (N.lt_ge_cases n 10) as [Hn|Hn].
  - rewrite dec_small by exact Hn. simpl. lia.
  - rewrite dec_step by exact Hn. rewrite app_length. cbn [length].
    assert (Hk : (1 <= k)%nat).
    { destruct k; [|lia]. cbn in H. lia. }
    assert (Hd : n / 10 < 10 ^ N.of_nat k).
    { rewrite Nat2N.inj_succ, N.pow_succ_r' in H. apply N.div_lt_upper_bound; lia. }
    specialize (IH _ Hd Hk). lia.
Qed.

Lemma repeat_snoc (X : Type) (x : X) n : repeat x n ++ [x] = repeat x (S n).
Proof. induction n as [|n IH]; [reflexivity|]. simpl. f_equal. exact IH. Qed.

Lemma pad_step k n : (1 <= k)%nat ->
  pad_left "0"%char (S k) (dec n) = pad_left "0"%char k (dec (n / 10)) ++ [digit (n mod 10)].
Proof.
  intros Hk. unfold pad_left. destruct (N.lt_ge_cases n 10) as [Hn|Hn].
  - rewrite (N.div_small n 10), (N.mod_small n 10) by exact Hn.
    rewrite !dec_small by (exact Hn || reflexivity). cbn [length].
    destruct k as [|k]; [lia|]. replace (S (S k) - 1)%nat with (S k) by lia.
    replace (S k - 1)%nat with k by lia.
    change (digit 0) with "0"%char. rewrite repeat_snoc. reflexivity.
  - rewrite (dec_step n) by exact Hn. rewrite app_length, app_assoc. cbn [length].
    replace (S k - (length (dec (n / 10)) + 1))%nat with (k - length (dec (n / 10)))%nat by lia.
    reflexivity.
Qed.

Lemma pad_one n : n < 10 -> pad_left "0"%char 1 (dec n) = [digit n].
Proof. intros H. rewrite dec_small by exact H. reflexivity. Qed.

Lemma div_lt10 n k : n < 10 * k -> n / 10 < k.
Proof. intros H. apply N.div_lt_upper_bound; lia. Qed.
