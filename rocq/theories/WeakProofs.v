(** * Proofs for C86 *)

From Coq Require Import List Arith NArith Bool Lia.
From Verif Require Import Base LevelModel SinkModel SinkSpec WeakModel WeakSpec.
Import ListNotations.

Section Proofs.
Context {E : Type}.
Variable C : cfg E.

Definition nofl (a b c : bool) (s : state E) : state E := s_flags s (fip s) a b c.

Definition touches (p : pc E) : bool :=
  match p with
  | PDecide | RStore | RAsync | FCasFlush _ | FNtf _ | FCasRot _ | WWait | WFin | DStore | DNtf => true
  | _ => false
  end.

Lemma plain_comm s a b c t ch p : touches p = false ->
  step_thread C (nofl a b c s) t ch p =
  (nofl a b c (fst (step_thread C s t ch p)), snd (step_thread C s t ch p)).
Proof.
  destruct s as [q0 sz fi nf nr fn op cl cu ob th ac hc hu hd].
  destruct p; intros H; try discriminate H; unfold nofl, step_thread; cbn.
  all: unfold alive, clients_idle, s_thr, s_q, s_acc, s_flags, s_out; cbn.
  all: repeat match goal with
       | |- context [match ?x with _ => _ end] => destruct x eqn:?; cbn
       end; try reflexivity.
Qed.

Definition unread (h : list msg) : Prop := exists m, In m h /\ m_val m = true /\ m_read m = false.
Definition hastrue (h : list msg) : Prop := exists m, In m h /\ m_val m = true.

Lemma unread_stored_true h : unread (stored true h).
Proof. exists (mkMsg true false). unfold stored. rewrite in_app_iff. cbn. tauto. Qed.
Lemma unread_stored_false h : unread (stored false h) -> unread h.
Proof.
  intros (m & Hi & Hv & Hr). unfold stored in Hi. apply in_app_iff in Hi as [Hi|[<-|[]]].
  - exists m; auto.
  - discriminate Hv.
Qed.

Lemma take_unread i h h' : take i h = Some h' -> unread h.
Proof.
  revert i h'; induction h as [|m h IH]; intros [|i] h'; cbn; try discriminate.
  - destruct (m_val m) eqn:Hv, (m_read m) eqn:Hr; cbn; try discriminate.
    intros _. exists m; cbn; auto.
  - destruct (take i h) eqn:Ht; cbn; [|discriminate].
    intros _. destruct (IH _ _ Ht) as (x & Hi & Hx). exists x. cbn. tauto.
Qed.

Lemma take_rest i h h' : take i h = Some h' -> unread h' -> unread h.
Proof. intros Ht _. exact (take_unread _ _ _ Ht). Qed.

Lemma unread_dec h : {unread h} + {~ unread h}.
Proof.
  destruct (existsb (fun m => m_val m && negb (m_read m)) h) eqn:Hx.
  - left. apply existsb_exists in Hx as (m & Hi & Hm). exists m.
    destruct (m_val m), (m_read m); try discriminate; auto.
  - right. intros (m & Hi & Hv & Hr).
    assert (existsb (fun m => m_val m && negb (m_read m)) h = true); [|congruence].
    apply existsb_exists. exists m. rewrite Hv, Hr. auto.
Qed.

(** A syslog sink never gets to the compare_exchange of the other two, and only it
    stores [false]. *)
Definition sysok (p : pc E) : bool :=
  match c_kind C with
  | KSyslog => match p with FWrite _ _ | FCasFlush _ => false | _ => true end
  | _ => match p with FNtf _ => false | _ => true end
  end.

Lemma Forall_upd (P : pc E -> Prop) l i p : Forall P l -> P p -> Forall P (upd l i p).
Proof. intros H Hp. revert i; induction H as [|x l Hx H IH]; intros [|i]; cbn; auto. Qed.

Lemma sys_step s m : Forall (fun p => sysok p = true) (thr s) ->
  Forall (fun p => sysok p = true) (thr (fst (step C s m))).
Proof.
  intros H. destruct m as [t c|n]; [|exact H]. cbn.
  destruct (nth_error (thr s) t) as [p|] eqn:Hp; [|exact H].
  assert (Hok : sysok p = true) by (exact (proj1 (Forall_forall _ _) H p (nth_error_In _ _ Hp))).
  unfold sysok in *. destruct (c_kind C) eqn:Hk.
  all: destruct p; try discriminate Hok; cbn; rewrite ?Hk;
    repeat match goal with
       | |- context [match ?x with _ => _ end] => destruct x eqn:?; cbn
       end; try exact H; try (apply Forall_upd; [exact H|]); try reflexivity;
    try (destruct k; reflexivity).
Qed.

Lemma sys_exec ms s : Forall (fun p => sysok p = true) (thr s) ->
  Forall (fun p => sysok p = true) (thr (fst (exec C s ms))).
Proof.
  revert s; induction ms as [|m ms IH]; intros s H; cbn; [exact H|].
  pose proof (sys_step s m H) as H'. destruct (step C s m) as [s1 l1]. cbn in H'.
  specialize (IH s1 H'). destruct (exec C s1 ms). exact IH.
Qed.

(** Weak state [w] is covered by [s]. *)
Record cov (w : wstate E) (s : state E) : Prop := {
  cov_base : exists a b c, w_base w = nofl a b c s;
  cov_ntf : c_kind C <> KSyslog -> unread (w_ntf w) -> ntf s = true;
  cov_ntr : unread (w_ntr w) -> ntr s = true;
  cov_fin : hastrue (w_fin w) -> fin s = true
}.

Lemma cov_thr w s : cov w s -> thr (w_base w) = thr s.
Proof. intros [(a & b & c & ->) _ _ _]. reflexivity. Qed.

Lemma step_flags s t c p : nth_error (thr s) t = Some p -> touches p = false ->
  ntf (fst (step_thread C s t c p)) = ntf s /\ ntr (fst (step_thread C s t c p)) = ntr s /\
  fin (fst (step_thread C s t c p)) = fin s.
Proof.
  intros _ H. destruct s as [q0 sz fi nf nr fn op cl cu ob th ac hc hu hd].
  destruct p; try discriminate H; cbn;
  repeat match goal with
       | |- context [match ?x with _ => _ end] => destruct x eqn:?; cbn
       end; auto.
Qed.

Lemma s_thr_nofl a b c s t p : s_thr (nofl a b c s) t p = nofl a b c (s_thr s t p).
Proof. destruct s; reflexivity. Qed.

Lemma nofl_flags a b c s nf nr fn : nofl a b c (s_flags s (fip s) nf nr fn) = nofl a b c s.
Proof. destruct s; reflexivity. Qed.

(** What covers one step of thread [t] at a flag. *)
Lemma cov_step w s m : cov w s -> Forall (fun p => sysok p = true) (thr s) ->
  exists ms, cov (fst (wstep C w m)) (fst (exec C s ms)) /\ snd (wstep C w m) = snd (exec C s ms).
Proof.
  intros Hc Hsys. destruct m as [t c|n].
  2:{ exists [MDrain n]. destruct Hc as [(a & b & d & Hb) H1 H2 H3]. cbn. rewrite Hb. cbn.
      split; [|reflexivity]. constructor; cbn; auto. exists a, b, d. destruct s; reflexivity. }
  cbn. rewrite (cov_thr _ _ Hc).
  destruct (nth_error (thr s) t) as [p|] eqn:Hp.
  2:{ exists []. cbn. auto. }
  assert (Hone : forall c', (let '(s2, l2) := (fst (step C s (MThread t c')), snd (step C s (MThread t c'))) in
     cov (fst (wstep_thread C w t c p)) s2 /\ snd (wstep_thread C w t c p) = l2) ->
     exists ms, cov (fst (wstep_thread C w t c p)) (fst (exec C s ms)) /\
       snd (wstep_thread C w t c p) = snd (exec C s ms)).
  { intros c' H. exists [MThread t c']. cbn in *. rewrite Hp in *.
    destruct (step_thread C s t c' p) as [s2 l2]. cbn in *. rewrite app_nil_r. exact H. }
  assert (Hnone : (fst (wstep_thread C w t c p) = w /\ snd (wstep_thread C w t c p) = []) ->
     exists ms, cov (fst (wstep_thread C w t c p)) (fst (exec C s ms)) /\
       snd (wstep_thread C w t c p) = snd (exec C s ms)).
  { intros [-> ->]. exists []. cbn. auto. }
  cbn in Hone. rewrite Hp in Hone.
  destruct (touches p) eqn:Ht.
  2:{ (* no flag *)
    assert (Hw : wstep_thread C w t c p = plain C w t c p) by (destruct p; try discriminate Ht; reflexivity).
    rewrite Hw in *. destruct c as [c|i j|i]; [|apply Hnone; auto|apply Hnone; auto].
    apply (Hone c). unfold plain. destruct Hc as [(a & b & d & Hb) H1 H2 H3]. rewrite Hb.
    rewrite plain_comm by exact Ht. cbn.
    destruct (step_flags s t c p Hp Ht) as (F1 & F2 & F3).
    split; [|reflexivity]. constructor; cbn; rewrite ?F1, ?F2, ?F3; auto. exists a, b, d. reflexivity. }
  destruct Hc as [(a & b & d & Hb) H1 H2 H3].
  destruct w as [bs nf nr fn]. cbn in Hb, H1, H2, H3. subst bs.
  destruct p; try discriminate Ht; clear Ht; cbn [wstep_thread w_base w_ntf w_ntr w_fin] in *.
  - (* PDecide *)
    apply (Hone (CGo false)). cbn.
    destruct (c_lat0 C); [|destruct (N.leb (c_threshold C) (size s))];
      (split; [|reflexivity]); constructor; cbn; auto;
      exists a, b, d; destruct s; reflexivity.
  - (* RStore *)
    apply (Hone (CGo false)). cbn. split; [|reflexivity]. constructor; cbn; auto.
    exists a, b, d. destruct s; reflexivity.
  - (* RAsync *)
    apply (Hone (CGo false)). cbn.
    destruct (c_lat0 C); (split; [|reflexivity]); constructor; cbn; auto;
    exists a, b, d; destruct s; reflexivity.
  - (* FCasFlush *)
    destruct c as [c|i j|[i|]]; try (apply Hnone; auto; fail).
    + destruct (take i nf) as [h|] eqn:Htk; [|apply Hnone; auto].
      assert (Hk : c_kind C <> KSyslog).
      { intros Hk. apply nth_error_In in Hp.
        pose proof (proj1 (Forall_forall _ _) Hsys _ Hp) as Hx. unfold sysok in Hx. rewrite Hk in Hx. discriminate Hx. }
      pose proof (H1 Hk (take_unread _ _ _ Htk)) as Hn.
      destruct (unread_dec (stored false h)) as [Hu|Hu].
      * apply (Hone CKeep). cbn. rewrite Hn. cbn. split; [|reflexivity].
        constructor; cbn; auto. exists a, b, d. destruct s; reflexivity.
      * apply (Hone (CGo false)). cbn. rewrite Hn. cbn. split; [|reflexivity].
        constructor; cbn; auto; try (intros; tauto). exists a, b, d. destruct s; reflexivity.
    + apply (Hone (CGo true)). cbn. split; [|reflexivity]. constructor; cbn; auto.
      exists a, b, d. destruct s; reflexivity.
  - (* FNtf *)
    apply (Hone (CGo false)). cbn. split; [|reflexivity]. constructor; cbn; auto.
    + exists a, b, d. destruct s; reflexivity.
    + intros Hk Hu. apply nth_error_In in Hp.
      pose proof (proj1 (Forall_forall _ _) Hsys _ Hp) as Hx. unfold sysok in Hx.
      destruct (c_kind C); try discriminate Hx. congruence.
  - (* FCasRot *)
    destruct c as [c|i j|[i|]]; try (apply Hnone; auto; fail).
    + destruct (take i nr) as [h|] eqn:Htk; [|apply Hnone; auto].
      pose proof (H2 (take_unread _ _ _ Htk)) as Hn.
      destruct (unread_dec (stored false h)) as [Hu|Hu].
      * apply (Hone CKeep). cbn. rewrite Hn. cbn. split; [|reflexivity].
        constructor; cbn; auto. exists a, b, d. destruct s; reflexivity.
      * apply (Hone (CGo false)). cbn. rewrite Hn. cbn. split; [|reflexivity].
        constructor; cbn; auto; try (intros; tauto). exists a, b, d. destruct s; reflexivity.
    + apply (Hone (CGo true)). cbn. split; [|reflexivity]. constructor; cbn; auto.
      exists a, b, d. destruct s; reflexivity.
  - (* WWait *)
    destruct c as [[]|i j|i]; try (apply Hnone; auto; fail).
    + destruct timeout; [|apply Hnone; auto].
      apply (Hone (CWake true)). cbn. split; [|reflexivity]. constructor; cbn; auto.
      exists a, b, d. destruct s; reflexivity.
    + destruct (nth_error nf i) as [x|]; [|apply Hnone; auto].
      destruct (nth_error fn j) as [y|]; [|apply Hnone; auto].
      destruct (m_val x || m_val y); [|apply Hnone; auto].
      apply (Hone (CWake true)). cbn. split; [|reflexivity]. constructor; cbn; auto.
      exists a, b, d. destruct s; reflexivity.
  - (* WFin *)
    destruct c as [c|i j|i]; try (apply Hnone; auto; fail).
    destruct (nth_error fn j) as [y|] eqn:Hy; [|apply Hnone; auto].
    destruct (m_val y) eqn:Hv.
    + apply (Hone (CGo false)). cbn.
      rewrite H3 by (exists y; split; [eapply nth_error_In; eassumption|exact Hv]).
      split; [|reflexivity]. constructor; cbn; auto. exists a, b, d. destruct s; reflexivity.
    + apply (Hone (CGo true)). cbn. split; [|reflexivity]. constructor; cbn; auto.
      exists a, b, d. destruct s; reflexivity.
  - (* DStore *)
    apply (Hone (CGo false)). cbn. split; [|reflexivity]. constructor; cbn; auto.
    exists a, b, d. destruct s; reflexivity.
  - (* DNtf *)
    apply (Hone (CGo false)). cbn. split; [|reflexivity]. constructor; cbn; auto.
    exists a, b, d. destruct s; reflexivity.
Qed.

Lemma exec_app ms1 ms2 s : exec C s (ms1 ++ ms2) =
  (fst (exec C (fst (exec C s ms1)) ms2), snd (exec C s ms1) ++ snd (exec C (fst (exec C s ms1)) ms2)).
Proof.
  revert s; induction ms1 as [|m ms1 IH]; intros s; cbn.
  - destruct (exec C s ms2); reflexivity.
  - destruct (step C s m) as [s1 l1]. rewrite IH. destruct (exec C s1 ms1) as [s2 l2]. cbn.
    rewrite app_assoc. reflexivity.
Qed.

Lemma cov_exec ws : forall w s, cov w s -> Forall (fun p => sysok p = true) (thr s) ->
  exists ms, cov (fst (wexec C w ws)) (fst (exec C s ms)) /\ snd (wexec C w ws) = snd (exec C s ms).
Proof.
  induction ws as [|m ws IH]; intros w s Hc Hs.
  - exists []. auto.
  - destruct (cov_step w s m Hc Hs) as (ms1 & H1 & H2).
    destruct (IH _ _ H1 (sys_exec ms1 s Hs)) as (ms2 & H3 & H4).
    exists (ms1 ++ ms2). rewrite exec_app. cbn.
    destruct (wstep C w m) as [w1 l1]. cbn in *. destruct (wexec C w1 ws) as [w2 l2]. cbn in *.
    rewrite H2, H4. auto.
Qed.

Lemma sys_init op n : Forall (fun p => sysok p = true) (thr (init C op n)).
Proof.
  unfold init. cbn. constructor.
  - unfold sysok. destruct (c_kind C), (c_lat0 C), op; reflexivity.
  - apply Forall_forall. intros p Hp. apply repeat_spec in Hp. subst. unfold sysok. destruct (c_kind C); reflexivity.
Qed.

Lemma cov_init op n : cov (winit C op n) (init C op n).
Proof.
  constructor; cbn.
  - exists false, false, false. reflexivity.
  - intros _ (m & [<-|[]] & H & _). discriminate.
  - intros (m & [<-|[]] & H & _). discriminate.
  - intros (m & [<-|[]] & H). discriminate.
Qed.

Lemma cov_same w s : cov w s -> same_but_flags (w_base w) s.
Proof. intros [(a & b & c & ->) _ _ _]. destruct s; constructor; reflexivity. Qed.

Theorem weak_covered op n w ls : wreach C op n w ls ->
  exists s, reach C op n s ls /\ same_but_flags (w_base w) s.
Proof.
  intros (ws & Hw). destruct (cov_exec ws _ _ (cov_init op n) (sys_init op n)) as (ms & H1 & H2).
  rewrite Hw in H1, H2. cbn in H1, H2. exists (fst (exec C (init C op n) ms)). split.
  - exists ms. rewrite H2. apply surjective_pairing.
  - apply cov_same. exact H1.
Qed.

(** ** Conversely *)

Record rep (s : state E) (w : wstate E) : Prop := {
  rep_base : exists a b c, w_base w = nofl a b c s;
  rep_f : exists i m, nth_error (w_ntf w) i = Some m /\ m_val m = false;
  rep_x : exists i m, nth_error (w_fin w) i = Some m /\ m_val m = false;
  rep_ntf : ntf s = true -> exists i h, take i (w_ntf w) = Some h;
  rep_ntr : ntr s = true -> exists i h, take i (w_ntr w) = Some h;
  rep_fin : fin s = true -> exists i m, nth_error (w_fin w) i = Some m /\ m_val m = true;
  rep_new : newest (w_ntf w) = ntf s /\ newest (w_ntr w) = ntr s /\ newest (w_fin w) = fin s
}.

Lemma newest_stored x h : newest (h ++ [mkMsg x false]) = x.
Proof. unfold newest. rewrite last_last. reflexivity. Qed.

Ltac newt := solve [ unfold stored; cbn; rewrite ?newest_stored; auto ].


Lemma take_stored h : take (length h) (stored true h) = Some (h ++ [mkMsg true true]).
Proof. induction h as [|m h IH]; cbn; [reflexivity|]. unfold stored in IH. rewrite IH. reflexivity. Qed.

Lemma take_app i h h' x : take i h = Some h' -> take i (h ++ x) = Some (h' ++ x).
Proof.
  revert i h'; induction h as [|m h IH]; intros [|i] h'; cbn; try discriminate.
  - destruct (_ && _); [|discriminate]. intros [= <-]. reflexivity.
  - destruct (take i h) eqn:Ht; cbn; [|discriminate]. intros [= <-].
    rewrite (IH _ _ Ht). reflexivity.
Qed.

Lemma take_nth i h h' : take i h = Some h' -> exists m, nth_error h i = Some m /\ m_val m = true.
Proof.
  revert i h'; induction h as [|m h IH]; intros [|i] h'; cbn; try discriminate.
  - destruct (m_val m) eqn:Hv; cbn; [|discriminate]. intros _. exists m. auto.
  - destruct (take i h) eqn:Ht; cbn; [|discriminate]. intros _. eapply IH; eassumption.
Qed.

Lemma take_false i h h' j m : take i h = Some h' -> nth_error h j = Some m -> m_val m = false ->
  exists m', nth_error h' j = Some m' /\ m_val m' = false.
Proof.
  revert i h' j; induction h as [|x h IH]; intros [|i] h' [|j]; cbn; try discriminate.
  - destruct (m_val x) eqn:Hv; cbn; [|discriminate]. intros _ [= ->]. congruence.
  - destruct (_ && _); [|discriminate]. intros [= <-]. cbn. eauto.
  - destruct (take i h) eqn:Ht; cbn; [|discriminate]. intros [= <-] [= ->] Hv. cbn. eauto.
  - destruct (take i h) eqn:Ht; cbn; [|discriminate]. intros [= <-] Hj Hv. cbn. eapply IH; eassumption.
Qed.

Lemma nth_app (h x : list msg) i m : nth_error h i = Some m -> nth_error (h ++ x) i = Some m.
Proof. intros H. rewrite nth_error_app1; [exact H|]. apply nth_error_Some. congruence. Qed.

Ltac keep := try eassumption; try (unfold stored; eauto using nth_app, take_app; fail).

Lemma rep_step s w m : rep s w -> sc_move m = true -> exists ws,
  rep (fst (step C s m)) (fst (wexec C w ws)) /\ snd (step C s m) = snd (wexec C w ws).
Proof.
  intros [Hb Hf Hx H1 H2 H3 (N1 & N2 & N3)] Hsc. destruct m as [t c|n].
  2:{ exists [WDrain n]. destruct Hb as (a & b & d & Hb). cbn. rewrite Hb. cbn.
      split; [|reflexivity]. constructor; cbn; try newt; auto. exists a, b, d. destruct s; reflexivity. }
  cbn.
  destruct (nth_error (thr s) t) as [p|] eqn:Hp.
  2:{ exists []. cbn. split; [constructor|]; auto. }
  assert (Hpw : nth_error (thr (w_base w)) t = Some p).
  { destruct Hb as (a & b & d & ->). exact Hp. }
  assert (Hone : forall c', (rep (fst (step_thread C s t c p)) (fst (wstep_thread C w t c' p)) /\
       snd (step_thread C s t c p) = snd (wstep_thread C w t c' p)) ->
     exists ws, rep (fst (step_thread C s t c p)) (fst (wexec C w ws)) /\
       snd (step_thread C s t c p) = snd (wexec C w ws)).
  { intros c' H. exists [WThread t c']. cbn. rewrite Hpw.
    destruct (wstep_thread C w t c' p) as [s2 l2]. cbn in *. rewrite app_nil_r. exact H. }
  assert (Hnone : step_thread C s t c p = (s, []) ->
     exists ws, rep (fst (step_thread C s t c p)) (fst (wexec C w ws)) /\
       snd (step_thread C s t c p) = snd (wexec C w ws)).
  { intros ->. exists []. cbn. split; [constructor|]; auto. }
  destruct (touches p) eqn:Ht.
  2:{ apply (Hone (WPlain c)).
    assert (Hw : wstep_thread C w t (WPlain c) p = plain C w t (WPlain c) p)
      by (destruct p; try discriminate Ht; reflexivity).
    rewrite Hw. destruct Hb as (a & b & d & Hb). unfold plain. rewrite Hb.
    rewrite plain_comm by exact Ht. cbn.
    destruct (step_flags s t c p Hp Ht) as (F1 & F2 & F3).
    split; [|reflexivity]. constructor; cbn; try newt; rewrite ?F1, ?F2, ?F3; auto. exists a, b, d. reflexivity. }
  destruct Hb as (a & b & d & Hb). destruct w as [bs nf nr fn]. cbn in *. subst bs.
  destruct Hf as (i0 & m0 & Hf & Hf'). destruct Hx as (i1 & m1 & Hx & Hx').
  assert (Hbase : forall q', exists a' b' d', s_thr (nofl a b d s) t q' = nofl a' b' d' (s_thr s t q'))
    by (intros; exists a, b, d; destruct s; reflexivity).
  destruct p; try discriminate Ht; clear Ht; cbn [wstep_thread step_thread w_base w_ntf w_ntr w_fin] in *.
  - (* PDecide *)
    apply (Hone (WPlain (CGo false))). cbn.
    destruct (c_lat0 C); [|destruct (N.leb (c_threshold C) (size s))];
      (split; [|reflexivity]); constructor; cbn; try newt; eauto;
      try (exists a, b, d; destruct s; reflexivity).
    + exists i0, m0. split; [apply nth_app|]; assumption.
    + intros _. eexists. eexists. apply take_stored.
  - (* RStore *)
    apply (Hone (WPlain (CGo false))). cbn. split; [|reflexivity]. constructor; cbn; try newt; eauto.
    + exists a, b, d. destruct s; reflexivity.
    + intros _. eexists. eexists. apply take_stored.
  - (* RAsync *)
    apply (Hone (WPlain (CGo false))). cbn.
    destruct (c_lat0 C); (split; [|reflexivity]); constructor; cbn; try newt; eauto;
    try (exists a, b, d; destruct s; reflexivity).
    + exists i0, m0. split; [apply nth_app|]; assumption.
    + intros _. eexists. eexists. apply take_stored.
  - (* FCasFlush *)
    destruct c; try discriminate Hsc; try (apply Hnone; reflexivity).
    destruct spurious.
    + apply (Hone (WCas None)). cbn. split; [|reflexivity]. constructor; cbn; try newt; eauto.
    + destruct (ntf s) eqn:Hn.
      * destruct (H1 eq_refl) as (i & h & Htk). apply (Hone (WCas (Some i))). cbn. rewrite Htk. cbn.
        split; [|reflexivity]. constructor; cbn; try newt; eauto; try discriminate.
        -- exists a, b, d. destruct s; reflexivity.
        -- destruct (take_false _ _ _ _ _ Htk Hf Hf') as (m' & Hm & Hm').
           exists i0, m'. split; [apply nth_app|]; assumption.
      * apply (Hone (WCas None)). cbn. split; [|reflexivity]. constructor; cbn; try newt; eauto; congruence.
  - (* FNtf *)
    apply (Hone (WPlain (CGo false))). cbn. split; [|reflexivity]. constructor; cbn; try newt; eauto; try discriminate.
    + exists a, b, d. destruct s; reflexivity.
    + exists i0, m0. split; [apply nth_app|]; assumption.
  - (* FCasRot *)
    destruct c; try discriminate Hsc; try (apply Hnone; reflexivity).
    destruct spurious.
    + apply (Hone (WCas None)). cbn. split; [|reflexivity]. constructor; cbn; try newt; eauto.
    + destruct (ntr s) eqn:Hn.
      * destruct (H2 eq_refl) as (i & h & Htk). apply (Hone (WCas (Some i))). cbn. rewrite Htk. cbn.
        split; [|reflexivity]. constructor; cbn; try newt; eauto; try discriminate.
        exists a, b, d. destruct s; reflexivity.
      * apply (Hone (WCas None)). cbn. split; [|reflexivity]. constructor; cbn; try newt; eauto; congruence.
  - (* WWait *)
    destruct c; try (apply Hnone; reflexivity).
    assert (Hgo : exists ws, rep (s_thr s t (FTas KWorker)) (fst (wexec C (mkW (nofl a b d s) nf nr fn) ws)) /\
      [] = snd (wexec C (mkW (nofl a b d s) nf nr fn) ws)).
    { exists [WThread t (WPlain (CWake true))]. cbn. rewrite Hp. cbn. split; [|reflexivity].
      constructor; cbn; try newt; eauto. }
    destruct timeout; [exact Hgo|].
    destruct (ntf s || fin s); [exact Hgo|apply Hnone; reflexivity].
  - (* WFin *)
    assert (Hst : exists ws, rep (s_thr s t WWait) (fst (wexec C (mkW (nofl a b d s) nf nr fn) ws)) /\
      [] = snd (wexec C (mkW (nofl a b d s) nf nr fn) ws)).
    { exists [WThread t (WLoad 0 i1)]. cbn. rewrite Hp. cbn. rewrite Hx, Hx'. cbn. split; [|reflexivity].
      constructor; cbn; try newt; eauto. }
    assert (Hgo : exists ws, rep (s_thr s t (if fin s then WSize else WWait))
        (fst (wexec C (mkW (nofl a b d s) nf nr fn) ws)) /\
      [] = snd (wexec C (mkW (nofl a b d s) nf nr fn) ws)).
    { destruct (fin s) eqn:Hfin; [|exact Hst].
      destruct (H3 eq_refl) as (j & m & Hj & Hm).
      exists [WThread t (WLoad 0 j)]. cbn. rewrite Hp. cbn. rewrite Hj, Hm. cbn. split; [|reflexivity].
      constructor; cbn; try newt; eauto. }
    destruct c; try exact Hgo. destruct spurious; assumption.
  - (* DStore *)
    apply (Hone (WPlain (CGo false))). cbn. split; [|reflexivity]. constructor; cbn; try newt; eauto.
    + exists a, b, d. destruct s; reflexivity.
    + exists i1, m1. split; [apply nth_app|]; assumption.
    + intros _. exists (length fn), (mkMsg true false). split; [|reflexivity].
      unfold stored. rewrite nth_error_app2, Nat.sub_diag by lia. reflexivity.
  - (* DNtf *)
    apply (Hone (WPlain (CGo false))). cbn. split; [|reflexivity]. constructor; cbn; try newt; eauto.
    + exists a, b, d. destruct s; reflexivity.
    + exists i0, m0. split; [apply nth_app|]; assumption.
    + intros _. eexists. eexists. apply take_stored.
Qed.

Lemma wexec_app ms1 ms2 s : wexec C s (ms1 ++ ms2) =
  (fst (wexec C (fst (wexec C s ms1)) ms2), snd (wexec C s ms1) ++ snd (wexec C (fst (wexec C s ms1)) ms2)).
Proof.
  revert s; induction ms1 as [|m ms1 IH]; intros s; cbn.
  - destruct (wexec C s ms2); reflexivity.
  - destruct (wstep C s m) as [s1 l1]. rewrite IH. destruct (wexec C s1 ms1) as [s2 l2]. cbn.
    rewrite app_assoc. reflexivity.
Qed.

Lemma rep_exec ms : forall s w, rep s w -> forallb sc_move ms = true -> exists ws,
  rep (fst (exec C s ms)) (fst (wexec C w ws)) /\ snd (exec C s ms) = snd (wexec C w ws).
Proof.
  induction ms as [|m ms IH]; intros s w Hr Hs.
  - exists []. auto.
  - cbn in Hs. apply andb_prop in Hs as [Hm Hs].
    destruct (rep_step s w m Hr Hm) as (ws1 & H1 & H2).
    cbn. destruct (step C s m) as [s1 l1]. cbn in *.
    destruct (IH _ _ H1 Hs) as (ws2 & H3 & H4).
    exists (ws1 ++ ws2). rewrite wexec_app. cbn. destruct (exec C s1 ms) as [s2 l2]. cbn in *.
    rewrite H2, H4. auto.
Qed.

Theorem sc_is_weak op n ms s ls : forallb sc_move ms = true ->
  exec C (init C op n) ms = (s, ls) ->
  exists w, wreach C op n w ls /\ same_but_flags (w_base w) s /\
    newest (w_ntf w) = ntf s /\ newest (w_ntr w) = ntr s /\ newest (w_fin w) = fin s.
Proof.
  intros Hs He. destruct (fun H => rep_exec ms (init C op n) (winit C op n) H Hs) as (ws & H1 & H2).
  { constructor; cbn; try newt; try discriminate.
    - exists false, false, false. reflexivity.
    - exists 0, (mkMsg false false). auto.
    - exists 0, (mkMsg false false). auto. }
  rewrite He in H1, H2. cbn in H1, H2. exists (fst (wexec C (winit C op n) ws)). split.
  - exists ws. rewrite H2. apply surjective_pairing.
  - destruct H1 as [(a & b & c & ->) _ _ _ _ _ Hn]. split; [|exact Hn].
    destruct s; constructor; reflexivity.
Qed.

(** ** Requests to rotate are answered once *)

Definition at_reopen (p : pc E) : nat := match p with FReopen _ => 1 | _ => 0 end.
Definition reopening (l : list (pc E)) : nat := list_sum (map at_reopen l).

Lemma reopening_upd l t p p' : nth_error l t = Some p ->
  reopening (upd l t p') + at_reopen p = reopening l + at_reopen p'.
Proof.
  unfold reopening. revert t; induction l as [|x l IH]; intros [|t]; cbn; try discriminate.
  - intros [= ->]. lia.
  - intros H. specialize (IH _ H). unfold list_sum in *. lia.
Qed.

Lemma rotations_app (a b : list (label E)) : rotations (a ++ b) = rotations a + rotations b.
Proof. unfold rotations. rewrite filter_app, app_length. reflexivity. Qed.
Lemma reopens_app (a b : list (label E)) : reopens (a ++ b) = reopens a + reopens b.
Proof. unfold reopens. rewrite filter_app, app_length. reflexivity. Qed.

Lemma open_take i h h' : take i h = Some h' -> open_requests h = S (open_requests h').
Proof.
  unfold open_requests. revert i h'; induction h as [|m h IH]; intros [|i] h'; cbn; try discriminate.
  - destruct (m_val m && negb (m_read m)); [|discriminate]. intros [= <-]. reflexivity.
  - destruct (take i h) eqn:Ht; cbn; [|discriminate]. intros [= <-]. cbn.
    destruct (m_val m && negb (m_read m)); cbn; rewrite (IH _ _ Ht); reflexivity.
Qed.
Lemma open_stored b h : open_requests (stored b h) = open_requests h + (if b then 1 else 0).
Proof. unfold open_requests, stored. rewrite filter_app, app_length. destruct b; reflexivity. Qed.

Lemma plain_count s t c p : nth_error (thr s) t = Some p -> touches p = false ->
  reopening (thr (fst (step_thread C s t c p))) + reopens (snd (step_thread C s t c p)) =
  reopening (thr s) + rotations (snd (step_thread C s t c p)).
Proof.
  intros Hp Ht.
  assert (Hu : forall p', reopening (upd (thr s) t p') + at_reopen p = reopening (thr s) + at_reopen p')
    by (intros; apply reopening_upd; exact Hp).
  destruct p; try discriminate Ht; cbn -[reopening] in *;
  repeat match goal with
       | |- context [match ?x with _ => _ end] => destruct x eqn:?; cbn -[reopening]
       end; try reflexivity;
  try (match goal with |- context [upd _ _ ?p'] => specialize (Hu p'); cbn -[reopening] in Hu end);
  try lia; repeat match goal with k : cont _ |- _ => destruct k end; cbn -[reopening] in *; lia.
Qed.

Lemma weak_count w t c p : nth_error (thr (w_base w)) t = Some p ->
  let w' := fst (wstep_thread C w t c p) in
  let l := snd (wstep_thread C w t c p) in
  open_requests (w_ntr w') + reopening (thr (w_base w')) + reopens l =
  open_requests (w_ntr w) + reopening (thr (w_base w)) + rotations l.
Proof.
  intros Hp. destruct w as [s nf nr fn]. cbn [w_base] in Hp.
  assert (Hu : forall p', reopening (upd (thr s) t p') + at_reopen p = reopening (thr s) + at_reopen p')
    by (intros; apply reopening_upd; exact Hp).
  destruct (touches p) eqn:Ht.
  2:{ assert (Hw : wstep_thread C (mkW s nf nr fn) t c p = plain C (mkW s nf nr fn) t c p)
        by (destruct p; try discriminate Ht; reflexivity).
      rewrite Hw. destruct c as [c|i j|i]; try reflexivity.
      pose proof (plain_count s t c p Hp Ht) as H. unfold plain. cbn [w_base].
      destruct (step_thread C s t c p) as [s' l]. cbn -[reopening open_requests reopens rotations] in *. lia. }
  destruct p; try discriminate Ht; cbn -[reopening open_requests] in *;
  unfold w_goto, w_setf, w_setr, w_setx;
  repeat match goal with
       | |- context [match ?x with _ => _ end] => destruct x eqn:?; cbn -[reopening open_requests]
       end; try reflexivity;
  repeat match goal with
  | H : take _ _ = Some _ |- _ => apply open_take in H
  end;
  try (match goal with |- context [upd _ _ ?p'] => specialize (Hu p'); cbn -[reopening] in Hu end);
  rewrite ?open_stored; try lia.
  all: fold (stored true nr); rewrite ?open_stored; lia.
Qed.

Lemma weak_count_exec ws : forall w,
  open_requests (w_ntr (fst (wexec C w ws))) + reopening (thr (w_base (fst (wexec C w ws)))) +
    reopens (snd (wexec C w ws)) =
  open_requests (w_ntr w) + reopening (thr (w_base w)) + rotations (snd (wexec C w ws)).
Proof.
  induction ws as [|m ws IH]; intros w; [cbn; lia|].
  cbn -[reopening open_requests reopens rotations].
  assert (Hstep : open_requests (w_ntr (fst (wstep C w m))) + reopening (thr (w_base (fst (wstep C w m)))) +
     reopens (snd (wstep C w m)) =
     open_requests (w_ntr w) + reopening (thr (w_base w)) + rotations (snd (wstep C w m))).
  { destruct m as [t c|n]; [|unfold reopens, rotations, wstep, step; cbn -[reopening open_requests]; lia]. cbn -[reopening open_requests reopens rotations].
    destruct (nth_error (thr (w_base w)) t) as [p|] eqn:Hp; [|reflexivity].
    apply weak_count; exact Hp. }
  destruct (wstep C w m) as [w1 l1]. specialize (IH w1). destruct (wexec C w1 ws) as [w2 l2].
  cbn -[reopening open_requests reopens rotations] in *. rewrite rotations_app, reopens_app. lia.
Qed.

Theorem weak_rotation_once op n w ls : wreach C op n w ls -> reopens ls <= rotations ls.
Proof.
  intros (ws & Hw). pose proof (weak_count_exec ws (winit C op n)) as H. rewrite Hw in H.
  cbn [fst snd] in H.
  assert (H0 : reopening (thr (w_base (winit C op n))) = 0).
  { unfold winit, init, reopening. cbn. assert (Hr : forall k, list_sum (map at_reopen (repeat Idle k)) = 0)
      by (intros k; induction k; cbn; auto). rewrite Hr.
    destruct (c_lat0 C), op; reflexivity. }
  rewrite H0 in H. change (open_requests (w_ntr (winit C op n))) with 0 in H. lia.
Qed.

End Proofs.
