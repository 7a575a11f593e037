(** * Proofs about the Event constructor *)
From Coq Require Import Ascii String NArith Arith List Lia.
From Verif Require Import Base LevelModel EventModel LayoutModel LayoutProofs.
Import ListNotations.
Local Open Scope N_scope.

Arguments N.add : simpl never.
Arguments N.mul : simpl never.

Lemma store_out l : forall m a x, x < a \/ a + N.of_nat (length l) <= x -> store m a l x = m x.
Proof.
  induction l as [|b l IH]; intros m a x H; [reflexivity|].
  cbn [store length] in *. rewrite IH by lia.
  destruct (N.eqb_spec x a); [lia|reflexivity].
Qed.

Lemma load_ext n : forall m m' a,
  (forall x, a <= x -> x < a + N.of_nat n -> m x = m' x) -> load m a n = load m' a n.
Proof.
  induction n as [|n IH]; intros m m' a H; [reflexivity|]. cbn [load]. f_equal.
  - apply H; lia.
  - apply IH. intros x H1 H2. apply H; lia.
Qed.

Lemma load_disj m a l a' n :
  a' + N.of_nat n <= a \/ a + N.of_nat (length l) <= a' ->
  load (store m a l) a' n = load m a' n.
Proof.
  intros H. apply load_ext. intros x H1 H2. apply store_out. lia.
Qed.

Lemma load_same l : forall m a, load (store m a l) a (length l) = l.
Proof.
  induction l as [|b l IH]; intros m a; [reflexivity|]. cbn [store load length]. f_equal.
  - rewrite store_out by lia. rewrite N.eqb_refl. reflexivity.
  - apply IH.
Qed.

Lemma load_same_n m a l n : n = length l -> load (store m a l) a n = l.
Proof. intros ->. apply load_same. Qed.

Lemma le_length k : forall n, length (le k n) = k.
Proof. induction k as [|k IH]; intros n; [reflexivity|]. cbn [le length]. rewrite IH. reflexivity. Qed.

Lemma unle_le k : forall n, n < 256 ^ N.of_nat k -> unle (le k n) = n.
Proof.
  induction k as [|k IH]; intros n H.
  - cbn in *. lia.
  - cbn [le unle]. rewrite N_ascii_embedding by (apply N.mod_lt; lia).
    rewrite IH.
    + pose proof (N.div_mod n 256). lia.
    + rewrite Nat2N.inj_succ, N.pow_succ_r' in H. apply N.div_lt_upper_bound; lia.
Qed.

Lemma unle_le8 n : n < 2 ^ 64 -> unle (le 8 n) = n.
Proof. intros H. apply unle_le. exact H. Qed.

Ltac offs := unfold off_timestamp, off_thread_number, off_thread_name, off_thread_name_size,
  off_name, off_name_size, off_level, off_message_data, off_message_size, sizeof_Event,
  name_capacity, thread_name_capacity in *.

Lemma strnlen_le l : forall n, (strnlen l n <= n)%nat.
Proof.
  induction l as [|b l IH]; intros [|n]; simpl; try lia.
  destruct (Ascii.eqb b nul); [lia|]. specialize (IH n). lia.
Qed.

Lemma strnlen_len l : forall n, (strnlen l n <= length l)%nat.
Proof.
  induction l as [|b l IH]; intros [|n]; simpl; try lia.
  destruct (Ascii.eqb b nul); [lia|]. specialize (IH n). lia.
Qed.

Lemma load_prefix m a l n : (n <= length l)%nat -> load (store m a l) a n = firstn n l.
Proof.
  revert m a n. induction l as [|b l IH]; intros m a n H.
  - simpl in H. assert (n = 0)%nat as -> by lia. reflexivity.
  - destruct n as [|n]; [reflexivity|]. cbn [store load firstn]. f_equal.
    + rewrite store_out by lia. rewrite N.eqb_refl. reflexivity.
    + apply IH. simpl in H. lia.
Qed.

Definition thread_part (ti : thread_info) (tname : bytes) (tnum : N) : N * bytes :=
  match ti with
  | TI_NONE => (0, [])
  | TI_ID => (tnum, [])
  | TI_NAME => (tnum, firstn (strnlen tname 15) tname)
  end.

Lemma code_byte l : N_of_ascii (ascii_of_nat (lcode l)) = N.of_nat (lcode l).
Proof. destruct l; reflexivity. Qed.


(** What the header holds before formatting. *)
Record header (m : mem) (p now tnum : N) (tn : bytes) (code : N) : Prop := {
  h_time : load m (p + off_timestamp) 8 = le 8 now;
  h_num : load m (p + off_thread_number) 8 = le 8 tnum;
  h_nsize : load m (p + off_thread_name_size) 8 = le 8 (N.of_nat (length tn));
  h_tname : load m (p + off_thread_name) (length tn) = tn;
  h_level : N_of_ascii (m (p + off_level)) = code;
  h_data : load m (p + off_message_data) 8 = le 8 (p + sizeof_Event)
}.

Ltac len := cbn [length]; rewrite ?le_length, ?firstn_length, ?app_length; lia.
Ltac side := offs; len.
Ltac hit := rewrite load_same_n by (rewrite le_length; reflexivity).

Definition init_stores (m : mem) (p now : N) (lvl : level) : mem :=
  store (store (store (store (store m (p + off_timestamp) (le 8 now))
    (p + off_thread_number) (le 8 0)) (p + off_thread_name_size) (le 8 0))
    (p + off_level) [ascii_of_nat (lcode lvl)])
    (p + off_message_data) (le 8 (p + sizeof_Event)).

Lemma init_header m p now lvl :
  header (init_stores m p now lvl) p now 0 [] (N.of_nat (lcode lvl)).
Proof.
  unfold init_stores. split.
  - do 4 rewrite load_disj by side. hit. reflexivity.
  - do 3 rewrite load_disj by side. hit. reflexivity.
  - do 2 rewrite load_disj by side. hit. reflexivity.
  - reflexivity.
  - rewrite store_out by side. cbn [store]. rewrite N.eqb_refl. apply code_byte.
  - hit. reflexivity.
Qed.

Definition thread_stores (m : mem) (p : N) (ti : thread_info) (tname : bytes) (tnum : N) : mem :=
  match ti with
  | TI_NAME => store (store (store m (p + off_thread_name) tname)
      (p + off_thread_name_size) (le 8 (N.of_nat (strnlen tname 15))))
      (p + off_thread_number) (le 8 tnum)
  | TI_ID => store m (p + off_thread_number) (le 8 tnum)
  | TI_NONE => m
  end.

Lemma thread_header m p ti tname tnum now code :
  length tname = 16%nat -> header m p now 0 [] code ->
  header (thread_stores m p ti tname tnum) p now (fst (thread_part ti tname tnum))
         (snd (thread_part ti tname tnum)) code.
Proof.
  intros Htn [H1 H2 H3 H4 H5 H6]. destruct ti; cbn [thread_stores thread_part fst snd].
  - split; auto.
  - pose proof (strnlen_le tname 15) as L.
    assert (Ll : length (firstn (strnlen tname 15) tname) = strnlen tname 15)
      by (rewrite firstn_length; lia).
    split.
    + do 3 rewrite load_disj by side. exact H1.
    + hit. reflexivity.
    + rewrite load_disj by side. hit. rewrite Ll. reflexivity.
    + rewrite Ll. do 2 rewrite load_disj by side. apply load_prefix. lia.
    + do 3 rewrite store_out by side. exact H5.
    + do 3 rewrite load_disj by side. exact H6.
  - split; [rewrite load_disj by side; exact H1|hit; reflexivity| | | |].
    + rewrite load_disj by side. exact H3.
    + reflexivity.
    + rewrite store_out by side. exact H5.
    + rewrite load_disj by side. exact H6.
Qed.

Lemma firstn_min (X : Type) (l : list X) n : firstn (Nat.min (length l) n) l = firstn n l.
Proof.
  destruct (Nat.le_ge_cases n (length l)).
  - rewrite Nat.min_r by lia. reflexivity.
  - rewrite Nat.min_l by lia. rewrite firstn_all. symmetry. apply firstn_all2. lia.
Qed.

(** The final stores (event.hpp:109-111) on a memory whose message area holds
    the cut text. *)
Definition final_stores (m : mem) (p : N) (max tlen : nat) (name : bytes) : mem :=
  store (store (store m (p + off_message_size) (le 8 (N.min (N.of_nat max) (N.of_nat tlen))))
    (p + off_name_size) (le 8 (N.of_nat (Nat.min (length name) name_capacity))))
    (p + off_name) (firstn (Nat.min (length name) name_capacity) name).

Lemma final_view m p max text name now tnum tn code :
  now < 2 ^ 64 -> tnum < 2 ^ 64 -> (length tn <= 16)%nat -> p + sizeof_Event < 2 ^ 64 ->
  N.of_nat max < 2 ^ 64 ->
  header m p now tnum tn code ->
  load m (p + sizeof_Event) (Nat.min max (length text)) = firstn max text ->
  view (final_stores m p max (length text) name) p =
  {| e_time := now; e_thread_number := tnum; e_thread_name := tn;
     e_name := firstn 32 name; e_level_code := code; e_message := firstn max text |}.
Proof.
  intros Hnow Hnum Htn Hp Hmax [H1 H2 H3 H4 H5 H6] Hm. unfold view, final_stores.
  assert (Hs : N.min (N.of_nat max) (N.of_nat (length text)) < 2 ^ 64) by lia.
  assert (Hn : N.of_nat (Nat.min (length name) name_capacity) < 2 ^ 64).
  { unfold name_capacity. assert (Nat.min (length name) 32 <= 32)%nat by lia.
    apply N.le_lt_trans with 32; [lia|reflexivity]. }
  assert (Ht : N.of_nat (length tn) < 2 ^ 64).
  { apply N.le_lt_trans with 16; [lia|reflexivity]. }
  f_equal.
  - do 3 rewrite load_disj by side. rewrite H1. apply unle_le8. exact Hnow.
  - do 3 rewrite load_disj by side. rewrite H2. apply unle_le8. exact Hnum.
  - match goal with |- load _ _ ?k = _ => replace k with (length tn) end.
    + do 3 rewrite load_disj by side. exact H4.
    + symmetry. do 3 rewrite load_disj by side. rewrite H3, unle_le8 by exact Ht. lia.
  - rewrite load_disj with (a' := p + off_name_size) by side.
    rewrite (load_same_n _ (p + off_name_size)) by (rewrite le_length; reflexivity).
    rewrite unle_le8 by exact Hn. rewrite Nat2N.id.
    rewrite load_same_n by (rewrite firstn_length; lia).
    apply firstn_min.
  - do 3 rewrite store_out by side. exact H5.
  - match goal with |- load _ ?a ?k = _ =>
      replace a with (p + sizeof_Event); [replace k with (Nat.min max (length text))|] end.
    + do 3 rewrite load_disj by side. exact Hm.
    + symmetry. do 2 rewrite load_disj by side. hit.
      rewrite unle_le8 by exact Hs. lia.
    + symmetry. do 3 rewrite load_disj by side. rewrite H6. apply unle_le8. exact Hp.
Qed.

Lemma area_header m p l now tnum tn code :
  (length tn <= 16)%nat ->
  header m p now tnum tn code -> header (store m (p + sizeof_Event) l) p now tnum tn code.
Proof.
  intros Ht [H1 H2 H3 H4 H5 H6].
  split; rewrite ?load_disj by side; rewrite ?store_out by side; assumption.
Qed.

Lemma level_header m p now tnum tn code l :
  (length tn <= 16)%nat ->
  header m p now tnum tn code ->
  header (store m (p + off_level) [ascii_of_nat (lcode l)]) p now tnum tn (N.of_nat (lcode l)).
Proof.
  intros Ht [H1 H2 H3 H4 H5 H6].
  split; rewrite ?load_disj by side; try assumption.
  cbn [store]. rewrite N.eqb_refl. apply code_byte.
Qed.

Lemma thread_part_len ti tname tnum : (length (snd (thread_part ti tname tnum)) <= 16)%nat.
Proof.
  destruct ti; simpl; try lia. rewrite firstn_length. pose proof (strnlen_le tname 15). lia.
Qed.

Definition error_text (what ft : bytes) : bytes :=
  bs "Format error: " ++ what ++ bs "; Format: " ++ ft.

Section Construct.
Variables (m : mem) (p : N) (name : bytes) (ti : thread_info) (lvl : level)
          (max : nat) (now : N) (tname : bytes) (tnum : N) (ft : bytes).

Lemma construct_ok_eq text :
  construct m p name ti lvl max now tname tnum (FmtOk text) ft =
  final_stores (store (thread_stores (init_stores m p now lvl) p ti tname tnum)
                      (p + sizeof_Event) (firstn max text)) p max (length text) name.
Proof. reflexivity. Qed.

Lemma construct_throw_eq partial what :
  construct m p name ti lvl max now tname tnum (FmtThrow partial what) ft =
  final_stores (store (store (store (thread_stores (init_stores m p now lvl) p ti tname tnum)
                 (p + sizeof_Event) (firstn max partial))
                 (p + sizeof_Event) (firstn max (error_text what ft)))
                 (p + off_level) [ascii_of_nat (lcode ERROR)])
    p max (length (error_text what ft)) (bs "Soralog").
Proof. reflexivity. Qed.

Hypothesis Htn : length tname = 16%nat.
Hypothesis Hnow : now < 2 ^ 64.
Hypothesis Hnum : tnum < 2 ^ 64.
Hypothesis Hp : p + sizeof_Event < 2 ^ 64.
Hypothesis Hmax : N.of_nat max < 2 ^ 64.

Lemma part_num : fst (thread_part ti tname tnum) < 2 ^ 64.
Proof. destruct ti; simpl; try assumption; reflexivity. Qed.

Lemma view_ok text :
  view (construct m p name ti lvl max now tname tnum (FmtOk text) ft) p =
  {| e_time := now;
     e_thread_number := fst (thread_part ti tname tnum);
     e_thread_name := snd (thread_part ti tname tnum);
     e_name := firstn 32 name;
     e_level_code := N.of_nat (lcode lvl);
     e_message := firstn max text |}.
Proof.
  rewrite construct_ok_eq. apply final_view; try assumption.
  - exact part_num.
  - apply thread_part_len.
  - apply area_header; [apply thread_part_len|]. apply thread_header; [exact Htn|].
    apply init_header.
  - apply load_same_n. rewrite firstn_length. reflexivity.
Qed.

Lemma view_throw partial what :
  view (construct m p name ti lvl max now tname tnum (FmtThrow partial what) ft) p =
  {| e_time := now;
     e_thread_number := fst (thread_part ti tname tnum);
     e_thread_name := snd (thread_part ti tname tnum);
     e_name := bs "Soralog";
     e_level_code := N.of_nat (lcode ERROR);
     e_message := firstn max (error_text what ft) |}.
Proof.
  rewrite construct_throw_eq.
  assert (En : forall a b c d e f, a = bs "Soralog" ->
     mkEvent b c d a e f = mkEvent b c d (bs "Soralog") e f) by (intros; subst; reflexivity).
  rewrite <- (En (firstn 32 (bs "Soralog"))) by reflexivity.
  apply final_view; try assumption.
  - exact part_num.
  - apply thread_part_len.
  - eapply level_header; [apply thread_part_len|].
    apply area_header; [apply thread_part_len|]. apply area_header; [apply thread_part_len|].
    apply thread_header; [exact Htn|]. apply init_header.
  - rewrite load_disj by (offs; len). apply load_same_n. rewrite firstn_length. reflexivity.
Qed.

Lemma frame fr x :
  x < p \/ p + sizeof_Event + N.of_nat max <= x ->
  construct m p name ti lvl max now tname tnum fr ft x = m x.
Proof.
  clear Hnow Hnum Hp Hmax. intros Hx.
  assert (Hf : forall mm tlen nm, final_stores mm p max tlen nm x = mm x).
  { intros. unfold final_stores. do 3 rewrite store_out by side. reflexivity. }
  assert (Ht : forall mm, thread_stores mm p ti tname tnum x = mm x).
  { intros. unfold thread_stores. destruct ti; rewrite ?store_out by side; reflexivity. }
  assert (Hi : init_stores m p now lvl x = m x).
  { unfold init_stores. do 5 rewrite store_out by side. reflexivity. }
  destruct fr as [text|partial what].
  - rewrite construct_ok_eq, Hf. rewrite store_out by side. rewrite Ht. exact Hi.
  - rewrite construct_throw_eq, Hf. do 3 rewrite store_out by side. rewrite Ht. exact Hi.
Qed.

End Construct.

(** ** Property-level lemmas *)

Lemma strnlen_spec t : forall n,
  Forall (fun b => b <> nul) (firstn (strnlen t n) t) /\
  (strnlen t n = n \/ strnlen t n = length t \/ nth_error t (strnlen t n) = Some nul).
Proof.
  induction t as [|b t IH]; intros [|n]; cbn [strnlen firstn]; try (split; [constructor|auto]).
  destruct (Ascii.eqb_spec b nul) as [->|N].
  - split; [constructor|]. right. right. reflexivity.
  - destruct (IH n) as [H1 H2]. split.
    + cbn [firstn]. constructor; assumption.
    + cbn [length nth_error]. destruct H2 as [->|[->|H2]]; auto.
Qed.

Lemma neighbours m b cap padding i j name ti lvl max now tname tnum fr ft x :
  length tname = 16%nat -> N.of_nat max <= padding ->
  cap <= int_max ->
  cap * (node_size sizeof_Event 8 + padding + 8) <= vector_max ->
  node_size sizeof_Event 8 + padding + 8 <= vector_max ->
  i < cap -> j < cap -> i <> j ->
  b + slot_offset sizeof_Event 8 padding j <= x ->
  x < b + slot_offset sizeof_Event 8 padding j + node_size sizeof_Event 8 + padding ->
  construct m (b + slot_offset sizeof_Event 8 padding i + item_offset 8)
            name ti lvl max now tname tnum fr ft x = m x.
Proof.
  intros Htn Hmax Hc Hf Hf1 Hi Hj Hij Hx1 Hx2.
  destruct (@layout_ok sizeof_Event 8 cap padding) as (_ & _ & L); try assumption; try reflexivity.
  apply frame; [exact Htn|].
  unfold node_size, item_offset in *. unfold sizeof_Event in *.
  destruct (N.lt_trichotomy i j) as [H|[H|H]]; [|contradiction|].
  - specialize (L i j H Hj). unfold node_size in L. lia.
  - specialize (L j i H Hi). unfold node_size in L. lia.
Qed.

Lemma thread_view m p name ti lvl max now tname tnum fr ft :
  length tname = 16%nat -> now < 2 ^ 64 -> tnum < 2 ^ 64 ->
  p + sizeof_Event < 2 ^ 64 -> N.of_nat max < 2 ^ 64 ->
  let e := view (construct m p name ti lvl max now tname tnum fr ft) p in
  e_thread_number e = fst (thread_part ti tname tnum) /\
  e_thread_name e = snd (thread_part ti tname tnum).
Proof.
  intros H1 H2 H3 H4 H5 e. unfold e. destruct fr.
  - rewrite view_ok by assumption. split; reflexivity.
  - rewrite view_throw by assumption. split; reflexivity.
Qed.

Lemma thread_information m p name ti lvl max now tname tnum fr ft :
  length tname = 16%nat -> now < 2 ^ 64 -> tnum < 2 ^ 64 ->
  p + sizeof_Event < 2 ^ 64 -> N.of_nat max < 2 ^ 64 ->
  let e := view (construct m p name ti lvl max now tname tnum fr ft) p in
  match ti with
  | TI_NONE => e_thread_number e = 0 /\ e_thread_name e = []
  | TI_ID => e_thread_number e = tnum /\ e_thread_name e = []
  | TI_NAME => e_thread_number e = tnum /\
      (length (e_thread_name e) <= 15)%nat /\
      Forall (fun b => b <> nul) (e_thread_name e) /\
      (exists rest, tname = e_thread_name e ++ rest /\
         (hd nul rest = nul \/ length (e_thread_name e) = 15%nat))
  end.
Proof.
  intros H1 H2 H3 H4 H5 e.
  destruct (thread_view m p name ti lvl max now tname tnum fr ft H1 H2 H3 H4 H5) as [En Et].
  fold e in En, Et. destruct ti; cbn [thread_part fst snd] in *.
  - auto.
  - pose proof (strnlen_le tname 15) as L. destruct (strnlen_spec tname 15) as [S1 S2].
    assert (Ll : length (e_thread_name e) = strnlen tname 15)
      by (rewrite Et, firstn_length; lia).
    split; [exact En|]. split; [lia|]. split; [rewrite Et; exact S1|].
    exists (skipn (strnlen tname 15) tname). split.
    + rewrite Et. symmetry. apply firstn_skipn.
    + rewrite Ll. destruct S2 as [S2|[S2|S2]]; [auto|lia|].
      left. revert S2. generalize (strnlen tname 15). intros k.
      clear. revert tname. induction k as [|k IH]; intros [|b l] H; simpl in *; try discriminate; auto.
      congruence.
  - auto.
Qed.

Lemma exact_event m p name ti lvl max now tname tnum text ft :
  length tname = 16%nat -> now < 2 ^ 64 -> tnum < 2 ^ 64 ->
  p + sizeof_Event < 2 ^ 64 -> N.of_nat max < 2 ^ 64 ->
  let e := view (construct m p name ti lvl max now tname tnum (FmtOk text) ft) p in
  e_message e = firstn max text /\ e_name e = firstn 32 name /\
  e_level_code e = N.of_nat (lcode lvl) /\ e_time e = now.
Proof. intros H1 H2 H3 H4 H5 e. unfold e. rewrite view_ok by assumption. auto. Qed.

Lemma uncut_event m p name ti lvl max now tname tnum text ft :
  length tname = 16%nat -> now < 2 ^ 64 -> tnum < 2 ^ 64 ->
  p + sizeof_Event < 2 ^ 64 -> N.of_nat max < 2 ^ 64 ->
  (length text <= max)%nat -> (length name <= 32)%nat ->
  let e := view (construct m p name ti lvl max now tname tnum (FmtOk text) ft) p in
  e_message e = text /\ e_name e = name.
Proof.
  intros H1 H2 H3 H4 H5 L1 L2 e. unfold e. rewrite view_ok by assumption. cbn [e_message e_name].
  rewrite !firstn_all2 by assumption. auto.
Qed.

Lemma format_error_event m p name ti lvl max now tname tnum partial what ft :
  length tname = 16%nat -> now < 2 ^ 64 -> tnum < 2 ^ 64 ->
  p + sizeof_Event < 2 ^ 64 -> N.of_nat max < 2 ^ 64 ->
  let e := view (construct m p name ti lvl max now tname tnum (FmtThrow partial what) ft) p in
  e_name e = bs "Soralog" /\ e_level_code e = N.of_nat (lcode ERROR) /\ e_time e = now /\
  e_message e = firstn max (bs "Format error: " ++ what ++ bs "; Format: " ++ ft).
Proof. intros H1 H2 H3 H4 H5 e. unfold e. rewrite view_throw by assumption. auto. Qed.
