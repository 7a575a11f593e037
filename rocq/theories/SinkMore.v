(** * The size counter, the files and what survives a crash (C24, C27, C28) *)
From Coq Require Import List Arith NArith Bool Lia.
From Verif Require Import Base LevelModel SinkModel SinkSpec SinkProofs SinkLabels SinkLife SinkProps.
Import ListNotations.

Section More.
Context {E : Type}.
Variable C : cfg E.
Notation state := (state E).
Notation pc := (pc E).

Lemma total_app (f : E -> N) a b : total f (a ++ b) = (total f a + total f b)%N.
Proof.
  unfold total. induction a as [|x a IH]; cbn [app map fold_right]; [reflexivity|]. rewrite IH. lia.
Qed.

Lemma sized_counted (l : list (entry E)) :
  sized l = flat_map (fun x => match q_stage x with Reserved => [] | _ => [q_ev x] end) l.
Proof.
  unfold sized. induction l as [|x l IH]; [reflexivity|]. cbn [filter flat_map].
  unfold is_reserved at 1. destruct (q_stage x); cbn; rewrite IH; reflexivity.
Qed.

(** ** C24 *)
Lemma size_counts op n s ls : sizes_ok C -> has_dest C op -> reach C op n s ls ->
  size s = (total (c_msize C) (counted s) mod 2 ^ 64)%N.
Proof.
  intros Hs Hd Hr. pose proof (reach_inv C op n s ls Hs Hd Hr) as HI.
  rewrite (I_size C s HI), M64_eq. unfold counted. rewrite total_app, sized_counted, N.add_comm. reflexivity.
Qed.

Lemma size_exact op n s ls : sizes_ok C -> has_dest C op -> reach C op n s ls ->
  (total (c_msize C) (counted s) < 2 ^ 64)%N ->
  size s = total (c_msize C) (counted s) /\
  (forall t k e, nth_error (thr s) t = Some (FSub k e) -> (c_msize C e <= size s)%N) /\
  (at_rest s -> size s = total (c_msize C) (map (@q_ev E) (q s))).
Proof.
  intros Hs Hd Hr Hlt. assert (Hz : size s = total (c_msize C) (counted s)).
  { rewrite (size_counts op n s ls Hs Hd Hr). apply N.mod_small. exact Hlt. }
  split; [exact Hz|]. split.
  - intros t k e Ht. rewrite Hz. unfold counted.
    destruct (thr_split _ _ _ Ht) as (l1 & l2 & E1 & _). rewrite E1.
    rewrite flat_map_app. cbn [flat_map]. rewrite !total_app. unfold total at 2. cbn [map fold_right]. lia.
  - intros (_ & Hf & Hq). rewrite Hz. unfold counted. rewrite flat_map_nil.
    + cbn [app]. f_equal. clear -Hq. induction (q s) as [|x l IH]; [reflexivity|].
      inversion Hq as [|? ? H1 H2]; subst. cbn [flat_map map]. rewrite H1, (IH H2). reflexivity.
    + intros p Hp. rewrite Forall_forall in Hf. destruct (Hf p Hp) as [-> | [-> | ->]]; reflexivity.
Qed.

(** The counted events are among the at most capacity + 1 pending ones. *)
Lemma counted_le op n s ls : sizes_ok C -> has_dest C op -> reach C op n s ls ->
  length (counted s) <= c_cap C + 1.
Proof.
  intros Hs Hd Hr. pose proof (pending_bound C op n s ls Hs Hd Hr) as HP.
  unfold pending, counted in *. rewrite app_length, map_length in *.
  assert (length (flat_map (fun x : entry E => match q_stage x with Reserved => [] | _ => [q_ev x] end) (q s)) <= length (q s)).
  { clear. induction (q s) as [|x l IH]; [auto|]. cbn [flat_map]. rewrite app_length.
    destruct (q_stage x); cbn [length]; lia. }
  assert (length (flat_map (fun p : pc => match p with FSub _ e => [e] | _ => [] end) (thr s)) <= length (flat_map in_hand (thr s))).
  { clear. induction (thr s) as [|p l IH]; [auto|]. cbn [flat_map]. rewrite !app_length.
    enough (length (match p with FSub _ e => [e] | _ => [] end) <= length (in_hand p)) by lia.
    destruct p as [| | | | | | | | | | ? [?|] | | | | | | | | | | | | | | | ]; cbn; lia. }
  lia.
Qed.

Lemma total_bound (f : E -> N) (M : N) l : (forall e, f e <= M)%N -> (total f l <= M * N.of_nat (length l))%N.
Proof.
  intros H. induction l as [|x l IH]; [unfold total; cbn; lia|].
  change (total f (x :: l)) with (f x + total f l)%N. cbn [length]. specialize (H x).
  rewrite Nat2N.inj_succ, N.mul_succ_r. lia.
Qed.

Lemma size_never_wraps op n s ls (M : N) : sizes_ok C -> has_dest C op -> reach C op n s ls ->
  (forall e, c_msize C e <= M)%N -> (M * (N.of_nat (c_cap C) + 1) < 2 ^ 64)%N ->
  (total (c_msize C) (counted s) < 2 ^ 64)%N.
Proof.
  intros Hs Hd Hr HM Hlt. pose proof (total_bound (c_msize C) M (counted s) HM).
  pose proof (counted_le op n s ls Hs Hd Hr).
  assert (M * N.of_nat (length (counted s)) <= M * (N.of_nat (c_cap C) + 1))%N; [|lia].
  apply N.mul_le_mono_l. lia.
Qed.

Lemma threshold_exact M : (M < 2 ^ 62)%N -> threshold_of M = (4 * M / 5)%N.
Proof.
  intros H. unfold threshold_of. rewrite N.mod_small; [f_equal; lia|].
  change (2 ^ 64)%N with (2 ^ 62 * 4)%N. apply N.mul_lt_mono_pos_r; [reflexivity|exact H].
Qed.

Lemma threshold_triggers (s : state) (t : nat) (c : choice E) : c_lat0 C = false -> t <> 0 -> nth_error (thr s) t = Some PDecide ->
  let s' := fst (step C s (MThread t c)) in
  In (LReturn t) (snd (step C s (MThread t c))) /\
  ((c_threshold C <= size s)%N -> ntf s' = true /\ (nth_error (thr s) 0 = Some WWait ->
     nth_error (thr (fst (step C s' (MThread 0 (CWake false))))) 0 = Some (FTas KWorker))) /\
  ((size s < c_threshold C)%N -> ntf s' = ntf s).
Proof.
  intros Hl Ht Hp. cbn [step]. rewrite Hp. cbn [step_thread]. rewrite Hl.
  destruct (N.leb_spec (c_threshold C) (size s)) as [H|H]; cbn [fst snd].
  - split; [left; reflexivity|]. split; [|intros; lia]. intros _. split; [reflexivity|]. intros H0.
    assert (H0' : nth_error (thr (s_thr (s_flags s (fip s) true (ntr s) (fin s)) t Idle)) 0 = Some WWait).
    { cbn [s_thr s_flags thr]. destruct (thr s) as [|w l]; [discriminate|]. destruct t; [congruence|]. exact H0. }
    rewrite H0'. cbn [step_thread s_thr s_flags ntf orb fst thr].
    destruct (thr s) as [|w l]; [discriminate|]. destruct t; [congruence|]. reflexivity.
  - split; [left; reflexivity|]. split; [intros; lia|]. reflexivity.
Qed.

(** ** C27 *)
Lemma rotation_runs n s ls : sizes_ok C -> reach C true n s ls ->
  exists runs, length runs = 1 + fresh_files ls /\ concat runs = written ls /\
    files s = map (fun r => concat (map (c_render C) r)) runs.
Proof.
  intros Hs Hr. assert (Hd : has_dest C true) by (right; reflexivity).
  destruct (files_runs C true n s ls Hs Hd Hr) as [F1 F2].
  destruct (opened_stays C n s ls Hr) as (_ & _ & F3).
  exists (h_closed s ++ [h_cur s]). split; [rewrite app_length, F3; cbn; lia|]. auto.
Qed.

Lemma reopen_step s m t r : In (LReopen t r) (snd (step C s m)) ->
  exists k, nth_error (thr s) t = Some (FReopen k) /\ m = MThread t (COpen r).
Proof.
  destruct m as [u c|k]; [|intros []]. cbn [step].
  destruct (nth_error (thr s) u) as [p|] eqn:Hp; [|intros []].
  destruct p as [ |e|x e|x e| | | |k|k|k e|k oe|k|k|k|k|k|k| | | | | | | | | ]; cbn [step_thread];
  try (destruct k as [ek| | |]); cbn [after_flush ret_label];
  repeat match goal with
  | |- context [match ?x with _ => _ end] =>
      match type of x with
      | choice _ => destruct x
      | bool => destruct x
      | list _ => destruct x
      | option _ => destruct x
      | stage => destruct x
      | reopen => destruct x
      | sink_kind => destruct x
      | SinkModel.pc _ => destruct x
      end
  end; cbn [snd fst In]; intros H; try (exfalso; intuition discriminate);
  destruct H as [H|[]]; injection H as <- <-; eexists; split; eauto.
Qed.

Lemma reopen_fails s m t : In (LReopen t ROFail) (snd (step C s m)) ->
  let s' := fst (step C s m) in
  files s' = files s /\ disk s' = disk s /\ opened s' = opened s /\ pending s' = pending s.
Proof.
  intros H. destruct (reopen_step s m t ROFail H) as (k & Hp & ->).
  cbn [step]. rewrite Hp. cbn [step_thread fst].
  split; [reflexivity|]. split; [reflexivity|]. split; [reflexivity|].
  unfold pending. cbn [s_thr thr q]. f_equal.
  destruct (thr_split _ _ _ Hp) as (l1 & l2 & E1 & _ & E3). rewrite (E3 (FClear k)), E1.
  rewrite !flat_map_app. reflexivity.
Qed.

Lemma reopen_works s m t r : In (LReopen t r) (snd (step C s m)) -> opened s = true ->
  let s' := fst (step C s m) in
  opened s' = true /\
  match r with
  | ROFail => files s' = files s
  | ROSame => files s' = files s /\ disk s' = files s
  | ROFresh => files s' = files s ++ [[]] /\ disk s' = files s ++ [[]]
  end.
Proof.
  intros H Ho. destruct (reopen_step s m t r H) as (k & Hp & ->).
  cbn [step]. rewrite Hp. cbn [step_thread fst].
  destruct r; rewrite ?Ho; unfold files, disk; cbn [fst s_thr s_out opened closed cur obuf].
  - auto.
  - rewrite app_nil_r. auto.
  - cbn. auto.
Qed.

(** ** C28 *)
Lemma crash_prefix n s ls : sizes_ok C -> c_kind C <> KSyslog -> reach C true n s ls ->
  is_prefix (concat (disk s)) (concat (map (c_render C) (accepted ls))) /\
  exists runs last before beyond, written ls = concat (runs ++ [last]) /\
    disk s = map (fun r => concat (map (c_render C) r)) runs ++ [before] /\
    concat (map (c_render C) last) = before ++ beyond.
Proof.
  intros Hs Hk Hr. assert (Hd : has_dest C true) by (right; reflexivity).
  destruct (output_is_accepted C n s ls Hs Hk Hr) as (Ha & Hf & _).
  pose proof (reach_inv C true n s ls Hs Hd Hr) as HI.
  destruct (files_runs C true n s ls Hs Hd Hr) as [F1 F2]. split.
  - exists (obuf s ++ concat (map (c_render C) (pending s))). rewrite Ha, map_app, concat_app, <- Hf.
    unfold disk, files. rewrite !concat_app. cbn [concat]. rewrite !app_nil_r, <- !app_assoc. reflexivity.
  - exists (h_closed s), (h_cur s), (cur s), (obuf s). split; [symmetry; exact F2|].
    split; [unfold disk; rewrite (I_closed C s HI); reflexivity|]. symmetry. apply (I_cur C s HI).
Qed.

(** What the operating system has is never taken back. *)
Lemma prefix_refl {A} (a : list A) : is_prefix a a.
Proof. exists []. symmetry. apply app_nil_r. Qed.

Lemma disk_step s m : opened s = true -> is_prefix (concat (disk s)) (concat (disk (fst (step C s m)))).
Proof.
  intros Ho. destruct m as [u c|k]; cbn [step].
  2:{ unfold disk. cbn. exists (firstn k (obuf s)). rewrite !concat_app. cbn.
      rewrite !app_nil_r, <- app_assoc. reflexivity. }
  destruct (nth_error (thr s) u) as [p|] eqn:Hp; [|apply prefix_refl].
  destruct p as [ |e|x e|x e| | | |k|k|k e|k oe|k|k|k|k|k|k| | | | | | | | | ]; cbn [step_thread];
  rewrite ?Ho;
  repeat match goal with
  | |- context [match ?x with _ => _ end] =>
      match type of x with
      | choice _ => destruct x
      | bool => destruct x
      | list _ => destruct x
      | option _ => destruct x
      | stage => destruct x
      | reopen => destruct x
      | sink_kind => destruct x
      | SinkModel.pc _ => destruct x
      end
  end; cbn [fst]; unfold disk; cbn [s_thr s_q s_acc s_flags s_out closed cur];
  try apply prefix_refl; exists (obuf s); rewrite ?concat_app; cbn [concat];
  rewrite ?app_nil_r, <- ?app_assoc; reflexivity.
Qed.

Lemma disk_grows n s ls ms s' ls' : reach C true n s ls -> exec C s ms = (s', ls') ->
  is_prefix (concat (disk s)) (concat (disk s')).
Proof.
  revert s ls s' ls'. induction ms as [|m ms IH]; intros s ls s' ls' Hr He.
  - cbn in He. injection He as <- <-. apply prefix_refl.
  - cbn [exec] in He. destruct (opened_stays C n s ls Hr) as (Ho & _).
    pose proof (disk_step s m Ho) as (c1 & H1). pose proof (reach_step C true n s ls m Hr) as Hr1.
    destruct (step C s m) as [s1 l1]. destruct (exec C s1 ms) as [s2 l2] eqn:E2. injection He as <- <-.
    destruct (IH s1 _ s2 l2 Hr1 E2) as (c2 & H2). cbn [fst] in *.
    exists (c1 ++ c2). rewrite H2, H1, app_assoc. reflexivity.
Qed.

End More.
