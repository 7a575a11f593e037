(** * A requested rotation is carried out by the next completed flush (C27) *)
From Coq Require Import List Arith NArith Bool Lia.
From Verif Require Import Base LevelModel SinkModel SinkSpec SinkProofs SinkLabels SinkLife SinkProps SinkProgress SinkReturn.
Import ListNotations.

Section Rotate.
Context {E : Type}.
Variable C : cfg E.
Notation state := (state E).
Notation pc := (pc E).
Hypothesis sz : sizes_ok C.
Hypothesis file : c_kind C = KFile.
Variable op : bool.
Variable n : nat.

Lemma dst : has_dest C op.
Proof. left. exact file. Qed.

Definition is_reopen (l : label E) : bool := match l with LReopen _ _ => true | _ => false end.
Definition reopening (p : pc) : bool := match p with FReopen _ => true | _ => false end.

(** One step of [t]. *)
Definition not_ntf (p : pc) : Prop := match p with FNtf _ => False | _ => True end.
Lemma no_ntf s ls : reach C op n s ls -> Forall not_ntf (thr s).
Proof.
  intros H. revert s ls H. apply reach_ind.
  - cbn. constructor; [destruct (c_lat0 C), op; exact I|]. induction n; cbn; constructor; auto; exact I.
  - intros s ls [t c|k] _ IH; [|exact IH]. cbn [step]. destruct (nth_error (thr s) t) as [p|] eqn:Hp; [|exact IH].
    destruct p as [ |e|x e|x e| | | |k|k|k e|k oe|k|k|k|k|k|k| | | | | | | | | ]; cbn [step_thread]; rewrite ?file;
    try (destruct k as [ek| | |]); cbn [after_flush ret_label];
    repeat match goal with
    | |- context [match ?x with _ => _ end] =>
        match type of x with
        | choice _ => destruct x
        | bool => destruct x eqn:?
        | list _ => destruct x eqn:?
        | option _ => destruct x
        | stage => destruct x
        | reopen => destruct x
        | SinkModel.pc _ => destruct x
        end
    end; cbn [fst snd s_thr s_q s_acc s_flags s_out thr];
    first [exact IH|apply upd_Forall; [exact IH|exact I]].
Qed.

Lemma rot_step s t c p : not_ntf p -> nth_error (thr s) t = Some p -> c <> CGo true ->
  (exists r, snd (step_thread C s t c p) = [LReopen t r]) \/
  (existsb is_reopen (snd (step_thread C s t c p)) = false /\
   exists p', thr (fst (step_thread C s t c p)) = upd (thr s) t p' /\
     (reopening p = true -> p' = p /\ ntr (fst (step_thread C s t c p)) = ntr s) /\
     (ntr s = true -> ntr (fst (step_thread C s t c p)) = true \/
                      (reopening p' = true /\ inflush p = true)) /\
     (inflush p = true -> (forall k, p <> FClear k) -> ntr s = true ->
        inflush p' = true /\ (forall k, p' <> FClear k) /\ forall u, ~ In (LUnlock u) (snd (step_thread C s t c p))) /\
     (In (LLock t) (snd (step_thread C s t c p)) ->
        fip s = false /\ snd (step_thread C s t c p) = [LLock t] /\
        ntr (fst (step_thread C s t c p)) = ntr s /\ exists k, p' = FGet k)).
Proof.
  intros Hnn Hp Hc.
  assert (Et : thr s = upd (thr s) t p).
  { destruct (thr_split _ _ _ Hp) as (l1 & l2 & E1 & _ & E2). rewrite (E2 p). exact E1. }
  destruct p as [ |e|x e|x e| | | |k|k|k e|k oe|k|k|k|k|k|k| | | | | | | | | ]; cbn [step_thread]; rewrite ?file;
  try (destruct k as [ek| | |]); cbn [after_flush ret_label];
  repeat match goal with
  | |- context [match ?x with _ => _ end] =>
      match type of x with
      | choice _ => destruct x
      | bool => destruct x eqn:?
      | list _ => destruct x eqn:?
      | option _ => destruct x
      | stage => destruct x
      | reopen => destruct x
      | SinkModel.pc _ => destruct x
      end
  end; try congruence; cbn [fst snd s_thr s_q s_acc s_flags s_out thr ntr];
  try (left; eexists; reflexivity);
  (right; split; [reflexivity|]);
  (eexists; split; [first [exact Et|reflexivity]|]);
  refine (conj _ (conj _ (conj _ _)));
  try solve [intros Hx; try discriminate Hx; try (split; congruence)];
  try solve [intros Hx; try discriminate Hx; cbn [reopening inflush]; auto; try congruence];
  try solve [intros Hx Hy Hz; try discriminate Hx; cbn [inflush];
           try (split; [reflexivity|]; split; [intros kk; discriminate|]; intros u Hu; cbn in Hu; intuition congruence);
           try congruence; try (exfalso; eapply Hy; reflexivity)];
  try solve [intros Hx; cbn in Hx; first [contradiction|intuition discriminate]];
  try solve [destruct Hnn];
  try solve [intros Hx; split; [reflexivity|]; split; [reflexivity|]; split; [reflexivity|]; eexists; reflexivity].
Qed.

Definition pend (s : state) : Prop :=
  ntr s = true \/ exists v p, nth_error (thr s) v = Some p /\ reopening p = true.
Definition J (u : nat) (s : state) : Prop :=
  exists p, nth_error (thr s) u = Some p /\ inflush p = true /\ (forall k, p <> FClear k) /\
    (ntr s = true \/ reopening p = true).

Lemma pend_step s ls m : reach C op n s ls -> pend s -> spurious m = false ->
  (exists v r, snd (step C s m) = [LReopen v r]) \/
  (existsb is_reopen (snd (step C s m)) = false /\ pend (fst (step C s m)) /\
   forall u, In (LLock u) (snd (step C s m)) -> snd (step C s m) = [LLock u] /\ J u (fst (step C s m))).
Proof.
  intros Hr HP Hsp. pose proof (reach_inv C op n s ls sz dst Hr) as HI.
  destruct m as [t c|k].
  2:{ right. cbn. split; [reflexivity|]. split; [exact HP|]. intros u []. }
  cbn [step]. destruct (nth_error (thr s) t) as [p|] eqn:Hp.
  2:{ right. cbn. split; [reflexivity|]. split; [exact HP|]. intros u []. }
  assert (Hc : c <> CGo true) by (intros ->; discriminate).
  assert (Hnn : not_ntf p).
  { pose proof (no_ntf s ls Hr) as F. rewrite Forall_forall in F. apply F. eapply nth_error_In; exact Hp. }
  destruct (rot_step s t c p Hnn Hp Hc) as [(r & Hl)|(Hl & p' & T1 & T2 & T3 & T4 & T5)]; [left; eauto|right].
  assert (Hlt : t < length (thr s)) by (apply nth_error_Some; congruence).
  split; [exact Hl|]. split.
  - destruct HP as [HP|(v & x & Hv & Hx)].
    + destruct (T3 HP) as [T|(T & _)]; [left; exact T|].
      right. exists t, p'. split; [rewrite T1; apply nth_error_upd; exact Hlt|exact T].
    + right. destruct (Nat.eq_dec v t) as [->|Hvt].
      * rewrite Hp in Hv. injection Hv as <-. destruct (T2 Hx) as [-> _].
        exists t, p. split; [rewrite T1; apply nth_error_upd; exact Hlt|exact Hx].
      * exists v, x. rewrite T1, nth_error_upd_other by exact Hvt. auto.
  - intros u Hu. destruct (step_own C s t c p Hp) as [Fo _]. rewrite Forall_forall in Fo.
    assert (u = t) by (apply Fo in Hu; exact Hu). subst u.
    destruct (T5 Hu) as (F1 & F2 & F3 & k & ->). split; [exact F2|].
    exists (FGet k). split; [rewrite T1; apply nth_error_upd; exact Hlt|].
    split; [reflexivity|]. split; [discriminate|]. left. rewrite F3.
    destruct HP as [HP|(v & x & Hv & Hx)]; [exact HP|]. exfalso.
    assert (Hin : inflush x = true) by (destruct x; try discriminate; reflexivity).
    destruct (thr_split _ _ _ Hv) as (a & b & E1 & _ & _).
    destruct (others_out C s a x b HI E1 Hin) as (_ & _ & O3). congruence.
Qed.

Lemma J_step u s ls m : reach C op n s ls -> J u s -> spurious m = false ->
  (exists v r, snd (step C s m) = [LReopen v r]) \/
  (~ In (LUnlock u) (snd (step C s m)) /\ J u (fst (step C s m))).
Proof.
  intros Hr (x & Hx & Hin & Hnc & HJ) Hsp. pose proof (reach_inv C op n s ls sz dst Hr) as HI.
  assert (HJ0 : J u s) by (exists x; auto).
  destruct m as [t c|k].
  2:{ right. cbn. split; [intros []|exact HJ0]. }
  cbn [step]. destruct (nth_error (thr s) t) as [p|] eqn:Hp.
  2:{ right. cbn. split; [intros []|exact HJ0]. }
  assert (Hc : c <> CGo true) by (intros ->; discriminate).
  assert (Hnn : not_ntf p).
  { pose proof (no_ntf s ls Hr) as F. rewrite Forall_forall in F. apply F. eapply nth_error_In; exact Hp. }
  destruct (rot_step s t c p Hnn Hp Hc) as [(r & Hl)|(Hl & p' & T1 & T2 & T3 & T4 & T5)]; [left; eauto|right].
  assert (Hlt : t < length (thr s)) by (apply nth_error_Some; congruence).
  destruct (Nat.eq_dec t u) as [->|Htu].
  - rewrite Hx in Hp. injection Hp as <-. destruct (reopening x) eqn:Hre.
    + destruct (T2 eq_refl) as [-> T2']. split.
      * intros Hu. destruct x; try discriminate. cbn [step_thread] in Hu.
        destruct c; try contradiction. destruct r; [| |destruct (opened s)]; cbn in Hu; intuition discriminate.
      * exists x. split; [rewrite T1; apply nth_error_upd; exact Hlt|]. rewrite Hre. auto.
    + destruct HJ as [HJ|HJ]; [|discriminate]. destruct (T4 Hin Hnc HJ) as (U1 & U2 & U3).
      split; [apply U3|]. exists p'. split; [rewrite T1; apply nth_error_upd; exact Hlt|].
      split; [exact U1|]. split; [exact U2|]. destruct (T3 HJ) as [T|(T & _)]; auto.
  - split.
    + intros Hu. destruct (step_own C s t c p Hp) as [Fo _]. rewrite Forall_forall in Fo.
      apply Fo in Hu. cbn in Hu. congruence.
    + exists x. split; [rewrite T1, nth_error_upd_other by auto; exact Hx|].
      split; [exact Hin|]. split; [exact Hnc|].
      destruct HJ as [HJ|HJ]; [|auto]. destruct (T3 HJ) as [T|(_ & T)]; [auto|].
      exfalso. apply Htu. eapply inflush_unique; eassumption.
Qed.

Lemma app_split_notin (A : Type) (x : A) (lm l2 b c : list A) : lm ++ l2 = b ++ x :: c -> ~ In x lm ->
  exists b', b = lm ++ b' /\ l2 = b' ++ x :: c.
Proof.
  revert b. induction lm as [|y lm IH]; intros b H Hn; [exists b; auto|].
  destruct b as [|z b]; cbn in H.
  - injection H as -> _. exfalso. apply Hn. left. reflexivity.
  - injection H as -> H. destruct (IH b H) as (b' & -> & ->); [intros Hx; apply Hn; right; exact Hx|].
    exists b'. auto.
Qed.

Lemma In_dec_lock (lm : list (label E)) u : In (LLock u) lm \/ ~ In (LLock u) lm.
Proof.
  induction lm as [|x lm [IH|IH]]; [right; intros []|left; right; exact IH|].
  assert (D : x = LLock u \/ x <> LLock u).
  { destruct x; try (right; discriminate). destruct (Nat.eq_dec t u) as [->|H]; [left; reflexivity|].
    right. congruence. }
  destruct D as [-> |D]; [left; left; reflexivity|]. right. intros [H|H]; auto.
Qed.

Lemma phase2 u ms : forall s ls s' l b c, reach C op n s ls -> J u s -> existsb spurious ms = false ->
  exec C s ms = (s', l) -> l = b ++ LUnlock u :: c -> exists v r, In (LReopen v r) b.
Proof.
  induction ms as [|m ms IH]; intros s ls s' l b c Hr HJ Hsp He Hl.
  - cbn in He. injection He as <- <-. destruct b; discriminate.
  - cbn [exec] in He. cbn [existsb] in Hsp. apply orb_false_iff in Hsp. destruct Hsp as [S1 S2].
    pose proof (reach_step C op n s ls m Hr) as Hr1.
    destruct (J_step u s ls m Hr HJ S1) as [(v & r & Hv)|(H1 & H2)];
      destruct (step C s m) as [s1 lm]; cbn [fst snd] in *; destruct (exec C s1 ms) as [s2 l2] eqn:E2;
      injection He as <- <-.
    + subst lm. exists v, r. destruct b; cbn in Hl; injection Hl as H Hl; [discriminate|]. left. congruence.
    + destruct (app_split_notin _ _ _ _ _ _ Hl H1) as (b' & -> & ->).
      destruct (IH s1 _ _ _ b' c Hr1 H2 S2 E2 eq_refl) as (v & r & Hv). exists v, r.
      apply in_app_iff. auto.
Qed.

Lemma phase1 u ms : forall s ls s' l a b c, reach C op n s ls -> pend s -> existsb spurious ms = false ->
  exec C s ms = (s', l) -> l = a ++ LLock u :: b ++ LUnlock u :: c ->
  exists v r, In (LReopen v r) (a ++ b).
Proof.
  induction ms as [|m ms IH]; intros s ls s' l a b c Hr HP Hsp He Hl.
  - cbn in He. injection He as <- <-. destruct a; discriminate.
  - cbn [exec] in He. cbn [existsb] in Hsp. apply orb_false_iff in Hsp. destruct Hsp as [S1 S2].
    pose proof (reach_step C op n s ls m Hr) as Hr1.
    destruct (pend_step s ls m Hr HP S1) as [(v & r & Hv)|(H1 & H2 & H3)];
      destruct (step C s m) as [s1 lm]; cbn [fst snd] in *; destruct (exec C s1 ms) as [s2 l2] eqn:E2;
      injection He as <- <-.
    + subst lm. exists v, r. destruct a; cbn in Hl; injection Hl as H Hl; [discriminate|]. left. congruence.
    + destruct (In_dec_lock lm u) as [Hin|Hin].
      * destruct (H3 u Hin) as [-> HJ]. destruct a as [|y a]; cbn in Hl.
        -- injection Hl as Hl. cbn [app]. eapply (phase2 u ms s1); eassumption.
        -- injection Hl as <- Hl. destruct (IH s1 _ _ _ a b c Hr1 H2 S2 E2 Hl) as (v & r & Hv).
           exists v, r. right. exact Hv.
      * destruct (app_split_notin _ _ _ _ _ _ Hl Hin) as (a' & -> & ->).
        destruct (IH s1 _ _ _ a' b c Hr1 H2 S2 E2 eq_refl) as (v & r & Hv). exists v, r.
        rewrite <- app_assoc. apply in_app_iff. auto.
Qed.

Lemma rotation_carried_out s ls m s1 l1 t ms s2 l2 u a b c :
  reach C op n s ls -> step C s m = (s1, l1) -> In (LRotate t) l1 ->
  exec C s1 ms = (s2, l2) -> existsb spurious ms = false ->
  l2 = a ++ LLock u :: b ++ LUnlock u :: c -> exists v r, In (LReopen v r) (a ++ b).
Proof.
  intros Hr Hs Hin He Hsp Hl. pose proof (reach_step C op n s ls m Hr) as Hr1. rewrite Hs in Hr1. cbn in Hr1.
  eapply phase1; try eassumption. left.
  destruct m as [v ch|k]; [|cbn in Hs; injection Hs as <- <-; destruct Hin]. cbn [step] in Hs.
  destruct (nth_error (thr s) v) as [p|]; [|injection Hs as <- <-; destruct Hin].
  destruct p as [ |e|x e|x e| | | |k|k|k e|k oe|k|k|k|k|k|k| | | | | | | | | ]; cbn [step_thread] in Hs; rewrite ?file in Hs;
  try (destruct k as [ek| | |]); cbn [after_flush ret_label] in Hs;
  repeat match type of Hs with
  | context [match ?x with _ => _ end] =>
      match type of x with
      | choice _ => destruct x
      | bool => destruct x eqn:?
      | list _ => destruct x eqn:?
      | option _ => destruct x
      | stage => destruct x
      | reopen => destruct x
      | SinkModel.pc _ => destruct x
      end
  end; injection Hs as <- <-; cbn in Hin; try contradiction; try (intuition discriminate).
Qed.


(** While [t] is about to store the request it returns from nothing. *)
Lemma store_first t : forall ms s s' l a b, nth_error (thr s) t = Some RStore ->
  exec C s ms = (s', l) -> l = a ++ LReturn t :: b -> In (LRotate t) a.
Proof.
  induction ms as [|m ms IH]; intros s s' l a b Ht He Hl.
  - cbn in He. injection He as <- <-. destruct a; discriminate.
  - cbn [exec] in He. destruct (step C s m) as [s1 l1] eqn:Hs. destruct (exec C s1 ms) as [s2 l2] eqn:E2.
    injection He as <- <-.
    destruct m as [u c|k].
    2: { cbn in Hs. injection Hs as <- <-. eapply IH; [|exact E2|exact Hl]. exact Ht. }
    cbn [step] in Hs. destruct (Nat.eq_dec u t) as [->|Ne].
    + rewrite Ht in Hs. cbn in Hs. injection Hs as <- <-. destruct a as [|x a]; cbn in Hl; [discriminate|].
      injection Hl as <- _. left. reflexivity.
    + destruct (nth_error (thr s) u) as [p|] eqn:Hp.
      2: { injection Hs as <- <-. eapply IH; [|exact E2|exact Hl]. exact Ht. }
      destruct (step_own C s u c p Hp) as [O (p' & Et)]. rewrite Hs in O, Et. cbn [fst snd] in *.
      assert (Hin : ~ In (LReturn t) l1).
      { intros H. rewrite Forall_forall in O. apply O in H. cbn in H. congruence. }
      destruct (app_split_notin _ _ _ _ _ _ Hl Hin) as (a' & -> & ->).
      apply in_app_iff. right. eapply IH; [|exact E2|reflexivity].
      rewrite Et. clear - Ht Ne. revert u t Ht Ne. induction (thr s) as [|x r IH]; intros [|u] [|t]; cbn; auto; try congruence.
Qed.

Lemma rotate_requests t s ms s' l a b : nth_error (thr s) t = Some Idle -> t <> 0 -> alive s = true ->
  exec C s (MThread t CRotate :: ms) = (s', l) -> l = a ++ LReturn t :: b -> In (LRotate t) a.
Proof.
  intros Ht N Al He Hl. cbn [exec step] in He. rewrite Ht in He. cbn [step_thread] in He.
  rewrite Al, file in He. apply Nat.eqb_neq in N. rewrite N in He. cbn [andb negb] in He.
  destruct (exec C (s_thr s t RStore) ms) as [s2 l2] eqn:E2. injection He as <- <-.
  eapply store_first; [|exact E2|exact Hl]. cbn [thr s_thr]. clear - Ht. revert t Ht.
  induction (thr s) as [|x r IH]; intros [|t]; cbn; auto; discriminate.
Qed.

End Rotate.
