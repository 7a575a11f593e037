(** * A requested rotation is not forgotten when compare_exchange_weak fails (C27) *)
From Coq Require Import List Arith NArith Bool Lia.
From Verif Require Import Base LevelModel SinkModel SinkSpec SinkProofs SinkLabels SinkLife SinkProps SinkProgress SinkReturn SinkRotate.
Import ListNotations.

Section Forget.
Context {E : Type}.
Variable C : cfg E.
Notation state := (state E).
Notation pc := (pc E).
Hypothesis sz : sizes_ok C.
Hypothesis file : c_kind C = KFile.
Variable op : bool.
Variable n : nat.

Definition count_spurious (ms : list (move E)) : nat := length (filter spurious ms).

(** What one step of [t] does to the request. *)
Lemma forget_step (s : state) t c p : not_ntf p -> nth_error (thr s) t = Some p -> ntr s = true \/ reopening p = true \/ inflush p = false ->
  existsb is_reopen (snd (step_thread C s t c p)) = false ->
  exists p', thr (fst (step_thread C s t c p)) = upd (thr s) t p' /\
     (reopening p = true -> p' = p) /\
     (ntr s = true -> ntr (fst (step_thread C s t c p)) = true \/ (reopening p' = true /\ inflush p = true)) /\
     ((exists k, p = FClear k /\ snd (step_thread C s t c p) = LUnlock t :: ret_label t k) \/
      (snd (step_thread C s t c p) = [LLock t] /\ fip s = false /\ inflush p = false /\ ntr (fst (step_thread C s t c p)) = ntr s /\ exists k, p' = FGet k) \/
      ((forall b r, whole_flushes b (snd (step_thread C s t c p) ++ r) = whole_flushes b r) /\
       (forall k, p <> FClear k) /\ (inflush p = true -> inflush p' = true /\
         ((forall k, p' <> FClear k) \/ c = CGo true)))).
Proof.
  intros Hnn Hp Hc Hl.
  assert (Et : thr s = upd (thr s) t p).
  { destruct (thr_split _ _ _ Hp) as (l1 & l2 & E1 & _ & E2). rewrite (E2 p). exact E1. }
  revert Hl.
  destruct p as [ |e|x e|x e| | | |k|k|k e|k oe|k|k|k|k|k|k| | | | | | | | | ]; cbn [step_thread]; rewrite ?file;
  try (destruct k as [ek| | |]); cbn [after_flush ret_label];
  repeat match goal with
  | |- context [match ?x with _ => _ end] =>
      match type of x with
      | choice _ => destruct x
      | bool => destruct x eqn:?
      | list _ => destruct x eqn:?
      | option _ => destruct x
      | stage => destruct x
      | reopen => destruct x
      | SinkModel.pc _ => destruct x
      end
  end; cbn [fst snd s_thr s_q s_acc s_flags s_out thr ntr]; intros Hl; try discriminate Hl;
  try solve [destruct Hnn];
  (eexists; split; [first [exact Et|reflexivity]|]);
  (split; [intros Hx; first [discriminate Hx|reflexivity]|]);
  (split; [intros Hx; cbn [reopening inflush]; first [left; reflexivity|left; assumption|right; split; reflexivity|congruence]|]);
  try solve [left; eexists; split; reflexivity];
  try solve [right; left; split; [reflexivity|]; split; [assumption|]; split; [reflexivity|]; split; [reflexivity|]; eexists; reflexivity];
  right; right; (split; [intros bb rr; reflexivity|]); (split; [intros kk; discriminate|]);
  cbn [inflush]; intros Hx; try discriminate Hx; (split; [reflexivity|]);
  try solve [left; intros kk; discriminate]; try solve [right; reflexivity];
  exfalso; cbn [reopening inflush] in Hc; intuition congruence.
Qed.

Theorem not_forgotten_gen ms : forall s ls s' l, reach C op n s ls -> pend s ->
  exec C s ms = (s', l) -> existsb is_reopen l = false ->
  whole_flushes false l <= count_spurious ms /\
  (forall u, J u s -> whole_flushes true l <= count_spurious ms) /\
  (forall u k, nth_error (thr s) u = Some (FClear k) -> ntr s = true -> whole_flushes true l <= S (count_spurious ms)).
Proof.
  induction ms as [|m ms IH]; intros s ls s' l Hr HP He Hl.
  - cbn in He. injection He as <- <-. cbn. repeat split; intros; lia.
  - cbn [exec] in He. pose proof (reach_step C op n s ls m Hr) as Hr1.
    destruct (step C s m) as [s1 lm] eqn:Hs. destruct (exec C s1 ms) as [s2 l2] eqn:E2.
    injection He as <- <-. cbn [fst snd] in Hr1.
    rewrite existsb_app in Hl. apply orb_false_iff in Hl. destruct Hl as [Hl1 Hl2].
    pose proof (reach_inv C op n s ls sz (or_introl file) Hr) as HI.
    assert (Hcnt : count_spurious (m :: ms) = (if spurious m then 1 else 0) + count_spurious ms).
    { unfold count_spurious. cbn [filter]. destruct (spurious m); reflexivity. }
    rewrite Hcnt.
    assert (Stay : s1 = s -> lm = [] -> (whole_flushes false (lm ++ l2) <= (if spurious m then 1 else 0) + count_spurious ms /\
      (forall u, J u s -> whole_flushes true (lm ++ l2) <= (if spurious m then 1 else 0) + count_spurious ms) /\
      (forall u k, nth_error (thr s) u = Some (FClear k) -> ntr s = true -> whole_flushes true (lm ++ l2) <= S ((if spurious m then 1 else 0) + count_spurious ms)))).
    { intros -> ->. cbn [app] in *. destruct (IH s _ _ _ Hr1 HP E2 Hl2) as (A1 & A2 & A3). split; [lia|].
      split; [intros u Hu; specialize (A2 u Hu); lia|intros u k Hk Hn; specialize (A3 u k Hk Hn); lia]. }
    destruct m as [t c|k].
    2:{ cbn [step] in Hs. injection Hs as <- <-. cbn [app].
        destruct (IH _ _ _ _ Hr1 HP E2 Hl2) as (A1 & A2 & A3). split; [cbn; lia|].
        split; [intros u Hu; specialize (A2 u Hu); cbn; lia|intros u kk Hk Hn; specialize (A3 u kk Hk Hn); cbn; lia]. }
    cbn [step] in Hs. destruct (nth_error (thr s) t) as [p|] eqn:Hp.
    2:{ injection Hs as <- <-. apply Stay; reflexivity. }
    clear Stay.
    assert (Hnn : not_ntf p).
    { pose proof (no_ntf C file op n s ls Hr) as F. rewrite Forall_forall in F. apply F. eapply nth_error_In; exact Hp. }
    assert (Hc : ntr s = true \/ reopening p = true \/ inflush p = false).
    { destruct HP as [HP|(v & x & Hv & Hx)]; [left; exact HP|right].
      destruct (Nat.eq_dec v t) as [->|Hvt]; [rewrite Hp in Hv; injection Hv as <-; left; exact Hx|].
      right. destruct (inflush p) eqn:Hi; [|reflexivity]. exfalso. apply Hvt.
      eapply (inflush_unique C s v t x p HI); try eassumption. destruct x; try discriminate; reflexivity. }
    assert (Hl0 : existsb is_reopen (snd (step_thread C s t c p)) = false) by (rewrite Hs; exact Hl1).
    destruct (forget_step s t c p Hnn Hp Hc Hl0) as (p' & T1 & T2 & T3 & T4).
    rewrite Hs in T1, T3, T4. cbn [fst snd] in T1, T3, T4.
    assert (Hlt : t < length (thr s)) by (apply nth_error_Some; congruence).
    assert (Hpt : nth_error (thr s1) t = Some p') by (rewrite T1; apply nth_error_upd; exact Hlt).
    assert (HP1 : pend s1).
    { destruct HP as [HP|(v & x & Hv & Hx)].
      - destruct (T3 HP) as [T|(T & _)]; [left; exact T|]. right. exists t, p'. auto.
      - right. destruct (Nat.eq_dec v t) as [->|Hvt].
        + rewrite Hp in Hv. injection Hv as <-. rewrite (T2 Hx) in Hpt. exists t, p. auto.
        + exists v, x. rewrite T1, nth_error_upd_other by exact Hvt. auto. }
    destruct (IH s1 _ _ _ Hr1 HP1 E2 Hl2) as (A1 & A2 & A3).
    destruct T4 as [(k & -> & ->)|[(-> & F1 & F2 & F3 & k & ->)|(W & N1 & N2)]].
    + (* the flush ends *)
      assert (R : forall b, whole_flushes b ((LUnlock t :: ret_label t k) ++ l2) = (if b then 1 else 0) + whole_flushes false l2).
      { intros b. destruct k; reflexivity. }
      rewrite !R. split; [lia|]. split; [|intros; lia].
      intros u (x & Hx & Hin & Hnc & _). exfalso. assert (t = u) by (eapply (inflush_unique C s t u); try eassumption; reflexivity).
      subst u. rewrite Hp in Hx. injection Hx as <-. apply (Hnc k). reflexivity.
    + (* a flush begins *)
      cbn [app whole_flushes]. assert (Jt : J t s1).
      { exists (FGet k). split; [exact Hpt|]. split; [reflexivity|]. split; [discriminate|]. left. rewrite F3.
        destruct HP as [HP|(v & x & Hv & Hx)]; [exact HP|]. exfalso.
        assert (Hin : inflush x = true) by (destruct x; try discriminate; reflexivity).
        destruct (thr_split _ _ _ Hv) as (a & b & E1 & _ & _).
        destruct (others_out C s a x b HI E1 Hin) as (_ & _ & O3). congruence. }
      specialize (A2 t Jt). split; [lia|]. split; intros; lia.
    + rewrite !W. split; [lia|]. split.
      * intros u (x & Hx & Hin & Hnc & HJ). destruct (Nat.eq_dec t u) as [->|Htu].
        -- rewrite Hp in Hx. injection Hx as <-. destruct (N2 Hin) as [N3 N4].
           destruct (reopening p) eqn:Hre.
           ++ rewrite (T2 eq_refl) in Hpt. assert (Ju : J u s1) by (exists p; auto). specialize (A2 u Ju). lia.
           ++ destruct HJ as [HJ|HJ]; [|discriminate].
              assert (D : (forall k, p' <> FClear k) \/ exists k, p' = FClear k) by (destruct p'; eauto; left; discriminate).
              destruct D as [D|(k & ->)].
              ** assert (Ju : J u s1) by (exists p'; destruct (T3 HJ) as [T|(T & _)]; auto). specialize (A2 u Ju). lia.
              ** destruct N4 as [N4| ->]; [exfalso; apply (N4 k); reflexivity|]. cbn [spurious].
                 destruct (T3 HJ) as [T|(T & _)]; [|discriminate]. specialize (A3 u k Hpt T). lia.
        -- assert (Hu : nth_error (thr s1) u = Some x) by (rewrite T1, nth_error_upd_other by auto; exact Hx).
           assert (Ju : J u s1).
           { exists x. split; [exact Hu|]. split; [exact Hin|]. split; [exact Hnc|]. destruct HJ as [HJ|HJ]; [|auto].
             destruct (T3 HJ) as [T|(_ & T)]; [auto|]. exfalso. apply Htu. eapply (inflush_unique C s t u); eassumption. }
           specialize (A2 u Ju). lia.
      * intros u k Hu Hn. destruct (Nat.eq_dec t u) as [->|Htu].
        { rewrite Hp in Hu. injection Hu as ->. exfalso. apply (N1 k). reflexivity. }
        assert (Hu1 : nth_error (thr s1) u = Some (FClear k)) by (rewrite T1, nth_error_upd_other by auto; exact Hu).
        destruct (T3 Hn) as [T|(_ & T)].
        -- specialize (A3 u k Hu1 T). lia.
        -- exfalso. apply Htu. eapply (inflush_unique C s t u); try eassumption. reflexivity.
Qed.

(** The step that requests a rotation leaves the request behind. *)
Lemma rotate_pend (s s1 : state) m l1 t : step C s m = (s1, l1) -> In (LRotate t) l1 -> ntr s1 = true.
Proof.
  intros Hs Hin.
  destruct m as [v ch|k]; [|cbn in Hs; injection Hs as <- <-; destruct Hin]. cbn [step] in Hs.
  destruct (nth_error (thr s) v) as [p|]; [|injection Hs as <- <-; destruct Hin].
  destruct p as [ |e|x e|x e| | | |k|k|k e|k oe|k|k|k|k|k|k| | | | | | | | | ]; cbn [step_thread] in Hs; rewrite ?file in Hs;
  try (destruct k as [ek| | |]); cbn [after_flush ret_label] in Hs;
  repeat match type of Hs with
  | context [match ?x with _ => _ end] =>
      match type of x with
      | choice _ => destruct x
      | bool => destruct x eqn:?
      | list _ => destruct x eqn:?
      | option _ => destruct x
      | stage => destruct x
      | reopen => destruct x
      | SinkModel.pc _ => destruct x
      end
  end; injection Hs as <- <-; cbn in Hin; try contradiction; try (intuition discriminate).
Qed.

Theorem not_forgotten s ls m s1 l1 t ms s2 l2 :
  reach C op n s ls -> step C s m = (s1, l1) -> In (LRotate t) l1 ->
  exec C s1 ms = (s2, l2) -> (forall v r, ~ In (LReopen v r) l2) ->
  whole_flushes false l2 <= length (filter spurious ms).
Proof.
  intros Hr Hs Hin He Hn. pose proof (reach_step C op n s ls m Hr) as Hr1. rewrite Hs in Hr1. cbn [fst snd] in Hr1.
  apply (not_forgotten_gen ms s1 _ s2 l2 Hr1).
  - left. eapply rotate_pend; eassumption.
  - exact He.
  - destruct (existsb is_reopen l2) eqn:X; [|reflexivity]. apply existsb_exists in X. destruct X as (x & X1 & X2).
    destruct x; try discriminate. exfalso. eapply Hn; exact X1.
Qed.

End Forget.
