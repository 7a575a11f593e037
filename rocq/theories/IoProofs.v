(** * Streams that refuse (C105) *)
From Coq Require Import List Arith NArith Bool Lia.
From Verif Require Import Base LevelModel SinkModel SinkSpec SinkProofs SinkLabels SinkLife SinkProps SinkProgress SinkReturn IoModel IoSpec.
Import ListNotations.

Section Io.
Context {E : Type}.
Variable C : cfg E.
Notation iostate := (iostate E).

Ltac cases :=
  repeat match goal with
  | |- context [match ?x with _ => _ end] =>
      match type of x with
      | choice _ => destruct x
      | bool => destruct x eqn:?
      | list _ => destruct x eqn:?
      | option _ => destruct x
      | stage => destruct x
      | reopen => destruct x
      | sink_kind => destruct x eqn:?
      | SinkModel.pc _ => destruct x
      | label _ => destruct x
      end
  end.

Lemma iostep_base (w : iostate) t c p : base (io_after C w p (fst (step_thread C (base w) t c p)) (snd (step_thread C (base w) t c p)))
  = fst (step_thread C (base w) t c p).
Proof.
  generalize (fst (step_thread C (base w) t c p)) as s. generalize (snd (step_thread C (base w) t c p)) as ls. intros ls s.
  unfold io_after, io_write, io_flush, io_close, io_reopen.
  destruct p; try reflexivity; cases; reflexivity.
Qed.

Lemma ioexec_app (w : iostate) a b : ioexec C w (a ++ b) =
  (let '(w1, l1) := ioexec C w a in let '(w2, l2) := ioexec C w1 b in (w2, l1 ++ l2)).
Proof.
  revert w. induction a as [|m a IH]; intros w; cbn [app ioexec]; [destruct (ioexec C w b); reflexivity|].
  destruct (iostep C w m) as [w1 l1]. rewrite IH. destruct (ioexec C w1 a) as [w2 l2]. destruct (ioexec C w2 b) as [w3 l3].
  rewrite app_assoc. reflexivity.
Qed.

Lemma iostep_sink (w : iostate) m : exists ms, exec C (base w) ms = (base (fst (iostep C w m)), snd (iostep C w m)).
Proof.
  destruct m as [t c|n|n kp]; cbn [iostep].
  - exists [MThread t c]. cbn [exec step]. destruct (nth_error (thr (base w)) t) as [p|]; [|reflexivity].
    pose proof (iostep_base w t c p) as B. destruct (step_thread C (base w) t c p) as [s ls]. cbn [fst snd] in *.
    rewrite B, app_nil_r. reflexivity.
  - exists []. reflexivity.
  - exists []. reflexivity.
Qed.

(** It is the sink of [SinkModel] all the same. *)
Lemma ioreach_base op n (w : iostate) ls : ioreach C op n w ls -> reach C op n (base w) ls.
Proof.
  intros (ms & He). revert w ls He. induction ms as [|m ms IH] using rev_ind; intros w ls He.
  - cbn in He. injection He as <- <-. exists []. reflexivity.
  - rewrite ioexec_app in He. destruct (ioexec C (ioinit C op n) ms) as [w1 l1] eqn:E1. cbn [ioexec] in He.
    destruct (IH w1 l1 eq_refl) as (ks & K). destruct (iostep_sink w1 m) as (js & J).
    destruct (iostep C w1 m) as [w2 l2]. rewrite app_nil_r in He. injection He as <- <-. cbn [fst snd] in J.
    exists (ks ++ js). rewrite exec_app, K, J. reflexivity.
Qed.

(** ** A stream that has refused *)
(** [w'] has on disk what [w] has, and some of what was in the buffer of [w]. *)
Definition only_buf (w w' : iostate) : Prop :=
  i_closed w' = i_closed w /\ exists p r, i_cur w' = i_cur w ++ p /\ i_buf w = p ++ r /\ (i_buf w' = r \/ i_buf w' = []).

Lemma only_buf_same (w w' : iostate) : i_closed w' = i_closed w -> i_cur w' = i_cur w -> i_buf w' = i_buf w -> only_buf w w'.
Proof. intros A B D. split; [exact A|]. exists [], (i_buf w). rewrite B, D, app_nil_r. auto. Qed.
Lemma only_buf_take (w w' : iostate) n : i_closed w' = i_closed w -> i_cur w' = i_cur w ++ firstn n (i_buf w) ->
  (i_buf w' = skipn n (i_buf w) \/ i_buf w' = []) -> only_buf w w'.
Proof. intros A B D. split; [exact A|]. exists (firstn n (i_buf w)), (skipn n (i_buf w)). rewrite B, firstn_skipn. auto. Qed.
Lemma only_buf_all (w w' : iostate) : i_closed w' = i_closed w -> i_cur w' = i_cur w ++ i_buf w -> i_buf w' = [] -> only_buf w w'.
Proof. intros A B D. split; [exact A|]. exists (i_buf w), []. rewrite B, D, app_nil_r. auto. Qed.
Lemma only_buf_trans (a b c : iostate) : only_buf a b -> only_buf b c -> only_buf a c.
Proof.
  intros (A & p & r & P1 & P2 & P3) (B & p' & r' & Q1 & Q2 & Q3). split; [congruence|].
  destruct P3 as [P3|P3]; rewrite P3 in Q2.
  - exists (p ++ p'), r'. rewrite Q1, P1, P2, Q2, <- !app_assoc. auto.
  - symmetry in Q2. apply app_eq_nil in Q2. destruct Q2 as [-> ->]. exists p, r. rewrite Q1, P1, app_nil_r. intuition.
Qed.

Lemma bad_step (w : iostate) m : good w = false -> not_reopened (snd (iostep C w m)) ->
  good (fst (iostep C w m)) = false /\ only_buf w (fst (iostep C w m)).
Proof.
  intros G N. destruct m as [t c|n|n kp]; cbn [iostep] in *.
  - destruct (nth_error (thr (base w)) t) as [p|]; [|split; [exact G|apply only_buf_same; reflexivity]].
    destruct (step_thread C (base w) t c p) as [s ls]. cbn [fst snd] in *.
    unfold io_after, io_write, io_flush, io_close. rewrite G.
    destruct p; try (split; [reflexivity|apply only_buf_same; reflexivity]);
    cases; cbn [good]; try (split; [first [exact G|reflexivity]|first [apply only_buf_same; reflexivity|apply only_buf_all; reflexivity]]);
    exfalso; match goal with H : not_reopened [LReopen ?v ?r] |- _ => specialize (H v r (or_introl eq_refl)); discriminate end.
  - split; [exact G|]. apply only_buf_take with n; auto.
  - split; [reflexivity|]. apply only_buf_take with n; auto. destruct kp; auto.
Qed.

Lemma bad_stays0 ms : forall (w w' : iostate) l, good w = false -> ioexec C w ms = (w', l) -> not_reopened l ->
  good w' = false /\ only_buf w w'.
Proof.
  induction ms as [|m ms IH]; intros w w' l G He N.
  - cbn in He. injection He as <- <-. split; [exact G|apply only_buf_same; reflexivity].
  - cbn [ioexec] in He. pose proof (bad_step w m G) as B. destruct (iostep C w m) as [w1 l1].
    destruct (ioexec C w1 ms) as [w2 l2] eqn:E2. injection He as <- <-. cbn [fst snd] in B.
    destruct B as [B1 B2]; [intros t r H; apply (N t r); apply in_app_iff; auto|].
    destruct (IH w1 w2 l2 B1 E2) as [A1 A2]; [intros t r H; apply (N t r); apply in_app_iff; auto|].
    split; [exact A1|]. exact (only_buf_trans _ _ _ B2 A2).
Qed.

(** Whatever is done after a refusal, until the file is opened again: the disk gets nothing but
    what was in the buffer of the stream then. *)
Theorem bad_stays n keep ms : forall (w w1 w' : iostate) l l1, iostep C w (IRefuse n keep) = (w1, l1) ->
  ioexec C w1 ms = (w', l) -> not_reopened l ->
  exists p r, i_buf w = p ++ r /\ concat (on_disk w') = concat (on_disk w) ++ p.
Proof.
  intros w w1 w' l l1 Hs He N. assert (G : good w1 = false) by (cbn in Hs; injection Hs as <- <-; reflexivity).
  assert (O : only_buf w w1) by (cbn in Hs; injection Hs as <- <-; apply only_buf_take with n; auto; destruct keep; auto).
  destruct (bad_stays0 ms w1 w' l G He N) as [_ B]. destruct (only_buf_trans _ _ _ O B) as (A & p & r & P1 & P2 & _).
  exists p, r. split; [exact P2|]. unfold on_disk. rewrite A, P1, !concat_app. cbn [concat]. rewrite !app_nil_r, app_assoc. reflexivity.
Qed.

(** ** A good stream *)
Definition given (w : iostate) : bytes := concat (on_disk w) ++ i_buf w.
Definition bytes_of (ls : list (label E)) : bytes := concat (map (c_render C) (written ls)).

Hypothesis nosys : c_kind C <> KSyslog.

Lemma good_step (w : iostate) m : good w = true -> opened (base w) = true -> refuses m = false ->
  good (fst (iostep C w m)) = true /\ opened (base (fst (iostep C w m))) = true /\
  given (fst (iostep C w m)) = given w ++ bytes_of (snd (iostep C w m)).
Proof.
  intros G O R. destruct m as [t c|n|n kp]; cbn [iostep] in *.
  - destruct (nth_error (thr (base w)) t) as [p|]; [|cbn; rewrite app_nil_r; auto].
    unfold given, on_disk, bytes_of.
    destruct p as [ |e|n e|n e| | | |k|k|k e|k oe|k|k|k|k|k|k| | | | | | | | | ]; cbn [step_thread];
    try (destruct k as [ek| | |]); cbn [after_flush ret_label];
    cases; try congruence;
    cbn [fst snd io_after io_write io_flush io_reopen good base opened i_closed i_cur i_buf s_thr s_q s_acc s_flags s_out written flat_map map concat app andb];
    unfold io_write, io_flush, io_close, io_reopen; rewrite ?G, ?O, ?Heqs; try rewrite Heqb;
    cbn [fst snd good base opened i_closed i_cur i_buf s_thr s_q s_acc s_flags s_out andb];
    rewrite ?concat_app; cbn [concat app]; rewrite ?app_nil_r, <- ?app_assoc; auto.
  - cbn [fst snd good base]. split; [exact G|]. split; [exact O|].
    unfold given, on_disk, bytes_of. cbn [i_closed i_cur i_buf written flat_map map concat]. rewrite !concat_app. cbn [concat].
    rewrite !app_nil_r, <- !app_assoc. rewrite firstn_skipn. reflexivity.
  - discriminate.
Qed.

Lemma written_app2 (a b : list (label E)) : written (a ++ b) = written a ++ written b.
Proof. unfold written. apply flat_map_app. Qed.

Theorem good_all ms : forall (w w' : iostate) l, good w = true -> opened (base w) = true -> no_refusal ms ->
  ioexec C w ms = (w', l) ->
  good w' = true /\ concat (on_disk w') ++ i_buf w' = concat (on_disk w) ++ i_buf w ++ concat (map (c_render C) (written l)).
Proof.
  induction ms as [|m ms IH]; intros w w' l G O N He.
  - cbn in He. injection He as <- <-. cbn. rewrite app_nil_r. auto.
  - cbn [ioexec] in He. inversion N as [|x y N1 N2]; subst. pose proof (good_step w m G O N1) as (B1 & B2 & B3).
    destruct (iostep C w m) as [w1 l1]. destruct (ioexec C w1 ms) as [w2 l2] eqn:E2. injection He as <- <-. cbn [fst snd] in *.
    destruct (IH w1 w2 l2 B1 B2 N2 E2) as [A1 A2]. split; [exact A1|]. rewrite A2.
    unfold given, bytes_of in B3. rewrite written_app2, map_app, concat_app. rewrite app_assoc, B3, <- !app_assoc. reflexivity.
Qed.

(** A stream just opened is good and empty. *)
Lemma reopened (w : iostate) m w1 l1 t r : iostep C w m = (w1, l1) -> In (LReopen t r) l1 -> r <> ROFail ->
  good w1 = true /\ opened (base w1) = true /\ i_buf w1 = [].
Proof.
  intros Hs Hin Hr. destruct m as [u c|n|n kp]; cbn [iostep] in Hs.
  - destruct (nth_error (thr (base w)) u) as [p|]; [|injection Hs as <- <-; destruct Hin].
    revert Hs.
    destruct p as [ |e|n e|n e| | | |k|k|k e|k oe|k|k|k|k|k|k| | | | | | | | | ]; cbn [step_thread];
    try (destruct k as [ek| | |]); cbn [after_flush ret_label];
    cases; intros Hs; injection Hs as <- <-; cbn in Hin; try contradiction;
    try (exfalso; intuition congruence);
    unfold io_after, io_reopen; rewrite ?andb_false_l; cbn [andb]; rewrite ?Heqb; cbn; auto.
  - injection Hs as <- <-. destruct Hin.
  - injection Hs as <- <-. destruct Hin.
Qed.

(** ** The buffer of the stream *)
Lemma buf_step (w : iostate) m :
  (good w = true -> length (i_buf w) <= length (obuf (base w))) ->
  good (fst (iostep C w m)) = true -> length (i_buf (fst (iostep C w m))) <= length (obuf (base (fst (iostep C w m)))).
Proof using nosys.
  intros L. destruct m as [t c|k|k kp]; cbn [iostep].
  - destruct (nth_error (thr (base w)) t) as [p|]; [|exact L].
    destruct p as [ |e|x e|x e| | | |k|k|k e|k oe|k|k|k|k|k|k| | | | | | | | | ]; cbn [step_thread];
    try (destruct k as [ek| | |]); cbn [after_flush ret_label];
    cases; try congruence;
    unfold io_after, io_write, io_flush, io_close, io_reopen; rewrite ?Heqs;
    cases; cbn [fst snd good base obuf i_closed i_cur i_buf s_thr s_q s_acc s_flags s_out];
    intros G; try specialize (L G); try specialize (L eq_refl);
    rewrite ?app_length; cbn [length]; try lia; congruence.
  - cbn [fst base i_buf good]. intros G. specialize (L G). rewrite skipn_length. lia.
  - discriminate.
Qed.

Lemma ioreach_buf op n (w : iostate) ls : ioreach C op n w ls -> good w = true ->
  length (i_buf w) <= length (obuf (base w)).
Proof using nosys.
  intros (ms & He). revert w ls He. induction ms as [|m ms IH] using rev_ind; intros w ls He.
  - cbn in He. injection He as <- <-. cbn. lia.
  - rewrite ioexec_app in He. destruct (ioexec C (ioinit C op n) ms) as [w1 l1] eqn:E1. cbn [ioexec] in He.
    pose proof (buf_step w1 m (IH w1 l1 eq_refl)) as B.
    destruct (iostep C w1 m) as [w2 l2]. injection He as <- <-. exact B.
Qed.

(** ** File by file, while nothing is refused *)
Definition same_files (w : iostate) : Prop :=
  good w = opened (base w) /\ i_closed w = closed (base w) /\ i_cur w ++ i_buf w = cur (base w) ++ obuf (base w).

Lemma files_step (w : iostate) m : opened (base w) = true -> same_files w -> refuses m = false ->
  same_files (fst (iostep C w m)) /\ opened (base (fst (iostep C w m))) = true.
Proof using nosys.
  intros O (G & A & B) R. destruct m as [t c|n|n kp]; cbn [iostep] in *.
  - destruct (nth_error (thr (base w)) t) as [p|]; [|split; [repeat split; assumption|exact O]]. unfold same_files.
    destruct p as [ |e|x e|x e| | | |k|k|k e|k oe|k|k|k|k|k|k| | | | | | | | | ]; cbn [step_thread];
    try (destruct k as [ek| | |]); cbn [after_flush ret_label];
    cases; try congruence;
    unfold io_after, io_write, io_flush, io_close, io_reopen; rewrite ?Heqs;
    cases; cbn [fst snd good base opened closed cur obuf i_closed i_cur i_buf s_thr s_q s_acc s_flags s_out andb];
    try congruence; rewrite ?app_nil_r, ?app_assoc, ?B, <- ?A; cbn [andb]; auto; try congruence; try discriminate; cbn [andb] in *; congruence.
  - split; [|exact O]. split; [exact G|]. split; [exact A|]. cbn [fst i_cur i_buf base]. rewrite <- app_assoc, firstn_skipn. exact B.
  - discriminate.
Qed.

Lemma files_all ms : forall (w w' : iostate) l, opened (base w) = true -> same_files w -> no_refusal ms ->
  ioexec C w ms = (w', l) -> i_closed w' ++ [i_cur w' ++ i_buf w'] = files (base w').
Proof using nosys.
  induction ms as [|m ms IH]; intros w w' l O S N He.
  - cbn in He. injection He as <- <-. destruct S as (_ & A & B). unfold files. rewrite A, B. reflexivity.
  - cbn [ioexec] in He. inversion N as [|x y N1 N2]; subst. destruct (files_step w m O S N1) as [S1 O1].
    destruct (iostep C w m) as [w1 l1]. destruct (ioexec C w1 ms) as [w2 l2] eqn:E2. injection He as <- <-.
    exact (IH w1 w2 l2 O1 S1 N2 E2).
Qed.

(** ** Put together *)
Lemma ioreach_exec op n (w w' : iostate) ls ms l : ioreach C op n w ls -> ioexec C w ms = (w', l) -> ioreach C op n w' (ls ++ l).
Proof using Type. intros (ks & K) He. exists (ks ++ ms). rewrite ioexec_app, K, He. reflexivity. Qed.

Lemma closed_buf op n (w : iostate) ls t : ioreach C op n w ls -> good w = true -> c_kind C = KFile -> In (LDestroyed t) ls -> i_buf w = [].
Proof using nosys.
  intros Hr G K D. pose proof (ioreach_buf op n w ls Hr G) as L.
  destruct (destroyed_dead C op n (base w) ls t (ioreach_base op n w ls Hr) D) as [_ O]. rewrite (O K) in L.
  destruct (i_buf w); [reflexivity|]. cbn in L. lia.
Qed.

Theorem no_refusal_all n ms (w : iostate) ls : ioexec C (ioinit C true n) ms = (w, ls) -> no_refusal ms ->
  concat (on_disk w) ++ i_buf w = concat (map (c_render C) (written ls)) /\
  i_closed w ++ [i_cur w ++ i_buf w] = files (base w) /\
  (forall t, c_kind C = KFile -> In (LDestroyed t) ls -> concat (on_disk w) = concat (map (c_render C) (written ls))).
Proof using nosys.
  intros He N. destruct (good_all ms (ioinit C true n) w ls eq_refl eq_refl N He) as [G A]. cbn in A.
  split; [exact A|]. split; [exact (files_all ms (ioinit C true n) w ls eq_refl (conj eq_refl (conj eq_refl eq_refl)) N He)|].
  intros t K D. rewrite (closed_buf true n w ls t (ex_intro _ ms He) G K D), app_nil_r in A. exact A.
Qed.

Theorem reopened_all op n (w0 w1 w' : iostate) l0 m l1 t r ms l :
  ioreach C op n w0 l0 -> iostep C w0 m = (w1, l1) -> In (LReopen t r) l1 -> r <> ROFail ->
  ioexec C w1 ms = (w', l) -> no_refusal ms ->
  concat (on_disk w') ++ i_buf w' = concat (on_disk w1) ++ concat (map (c_render C) (written l)) /\
  (forall u, c_kind C = KFile -> In (LDestroyed u) l ->
     concat (on_disk w') = concat (on_disk w1) ++ concat (map (c_render C) (written l))).
Proof using nosys.
  intros Hr Hs Hin Hne He N. destruct (reopened w0 m w1 l1 t r Hs Hin Hne) as (G & O & B).
  destruct (good_all ms w1 w' l G O N He) as [G' A]. rewrite B in A. cbn [app] in A. split; [exact A|].
  intros u K D.
  assert (R1 : ioreach C op n w1 (l0 ++ l1)).
  { apply (ioreach_exec op n w0 w1 l0 [m]); [exact Hr|]. cbn [ioexec]. rewrite Hs, app_nil_r. reflexivity. }
  pose proof (ioreach_exec op n w1 w' (l0 ++ l1) ms l R1 He) as R2.
  rewrite (closed_buf op n w' _ u R2 G' K (proj2 (in_app_iff _ _ _) (or_intror D))), app_nil_r in A. exact A.
Qed.

(** The steps of the threads are those they would have made. *)
Theorem unnoticed ms : forall (w w' : iostate) l, ioexec C w ms = (w', l) -> exec C (base w) (thread_moves ms) = (base w', l).
Proof using Type.
  induction ms as [|m ms IH]; intros w w' l He; [cbn in He; injection He as <- <-; reflexivity|].
  cbn [ioexec] in He. unfold thread_moves. cbn [flat_map]. fold (thread_moves ms).
  destruct m as [t c|k|k kp]; cbn [iostep app] in *.
  - cbn [exec step]. destruct (nth_error (thr (base w)) t) as [p|].
    + pose proof (iostep_base w t c p) as B. destruct (step_thread C (base w) t c p) as [s ls]. cbn [fst snd] in *.
      specialize (IH (io_after C w p s ls)). destruct (ioexec C (io_after C w p s ls) ms) as [w2 l2].
      injection He as <- <-. rewrite B in IH. rewrite (IH w2 l2 eq_refl). reflexivity.
    + specialize (IH w). destruct (ioexec C w ms) as [w2 l2]. injection He as <- <-. rewrite (IH w2 l2 eq_refl). reflexivity.
  - destruct (ioexec C (mkIo (base w) (good w) (i_closed w) (i_cur w ++ firstn k (i_buf w)) (skipn k (i_buf w))) ms) as [w2 l2] eqn:E2.
    injection He as <- <-. exact (IH _ w2 l2 E2).
  - destruct (ioexec C (mkIo (base w) false (i_closed w) (i_cur w ++ firstn k (i_buf w)) (if kp then skipn k (i_buf w) else [])) ms) as [w2 l2] eqn:E2.
    injection He as <- <-. exact (IH _ w2 l2 E2).
Qed.
End Io.
