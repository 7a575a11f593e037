(** * Calls made while a message is being formatted (C94) *)
From Coq Require Import List Arith NArith Bool Lia.
From Verif Require Import Base LevelModel SinkModel SinkSpec SinkProofs SinkLabels SinkLife SinkProps SinkProgress SinkReturn SinkRotate.
Import ListNotations.

Section Nested.
Context {E : Type}.
Variable C : cfg E.
Notation state := (state E).
Notation pc := (pc E).
Variable op : bool.
Variable n : nat.
Hypothesis sz : sizes_ok C.
Hypothesis dst : has_dest C op.

Lemma nodup_front {A} (l l' : list A) : NoDup (l ++ l') -> NoDup l.
Proof.
  induction l as [|a l IH]; intros H; [constructor|]. inversion H as [|? ? H1 H2]; subst. constructor; [|auto].
  intros Hi. apply H1. apply in_or_app. auto.
Qed.

Lemma adding_once (l : list pc) : NoDup (map fst (flat_map adding l)) -> forall t v m e e',
  nth_error l t = Some (PAdd m e) -> nth_error l v = Some (PAdd m e') -> t = v.
Proof.
  induction l as [|p l IH]; intros N t v m e e' Ht Hv; [destruct t; discriminate|].
  cbn [flat_map] in N. rewrite map_app in N.
  assert (In_later : forall w x, nth_error l w = Some (PAdd m x) -> In m (map fst (flat_map adding l))).
  { intros w x Hw. apply in_map_iff. exists (m, x). split; [reflexivity|]. apply in_flat_map. exists (PAdd m x).
    split; [eapply nth_error_In; exact Hw|left; reflexivity]. }
  destruct t as [|t], v as [|v]; cbn in Ht, Hv; auto.
  - injection Ht as ->. cbn in N. inversion N; subst. destruct H1. eapply In_later; exact Hv.
  - injection Hv as ->. cbn in N. inversion N; subst. destruct H1. eapply In_later; exact Ht.
  - f_equal. eapply IH; try eassumption. clear - N. induction (map fst (adding p)); [exact N|]. inversion N; auto.
Qed.

Lemma numbers_nodup s : Inv C s -> NoDup (map (@q_no E) (q s)).
Proof. intros HI. destruct (I_no C s HI) as (b & -> & _). apply seq_NoDup. Qed.

(** The oldest event stays where it is. *)
Lemma oldest_stays s t m e mv : Inv C s -> formats_oldest s t m e ->
  match mv with MThread u _ => u <> t | MDrain _ => True end ->
  formats_oldest (fst (step C s mv)) t m e /\ length (q s) <= length (q (fst (step C s mv))).
Proof.
  intros HI [Ht [r Hq]] Hm. destruct mv as [u c|k]; [|split; [split; [exact Ht|exists r; exact Hq]|apply le_n]].
  cbn [step]. destruct (nth_error (thr s) u) as [p|] eqn:Hp.
  2: { split; [split; [exact Ht|exists r; exact Hq]|apply le_n]. }
  assert (Hthr : nth_error (thr (fst (step_thread C s u c p))) t = Some (PAdd m e)).
  { destruct (step_own C s u c p Hp) as [_ (p' & ->)]. rewrite nth_error_upd_other by auto. exact Ht. }
  assert (Stage : forall m' st, m' <> m -> set_stage m' st (q s) = mkEntry m e Reserved :: set_stage m' st r).
  { intros m' st N. rewrite Hq. cbn. apply not_eq_sym in N. apply Nat.eqb_neq in N. rewrite N. reflexivity. }
  assert (Fine : forall q', q' = q s -> (exists r', q' = mkEntry m e Reserved :: r') /\ length (q s) <= length q').
  { intros q' ->. split; [exists r; exact Hq|apply le_n]. }
  assert (G : (exists r', q (fst (step_thread C s u c p)) = mkEntry m e Reserved :: r') /\
              length (q s) <= length (q (fst (step_thread C s u c p)))).
  { destruct p as [ |e'|x e'|x e'| | | |k|k|k e'|k oe|k|k|k|k|k|k| | | | | | | | | ]; cbn [step_thread].
    2: { destruct (Nat.ltb _ _); [|apply Fine; reflexivity]. cbn [fst q s_thr s_acc s_q]. rewrite Hq, app_length.
         split; [exists (r ++ [mkEntry (length (acc s)) e' Reserved]); reflexivity|lia]. }
    2: { assert (x <> m).
         { intros ->. apply Hm. pose proof (I_nd C s HI) as N. rewrite map_app in N. apply nodup_front in N.
           eapply adding_once; eassumption. }
         cbn [fst q s_thr s_q]. rewrite Stage by auto. split; [eexists; reflexivity|]. rewrite Hq. cbn [length].
         unfold set_stage. rewrite map_length. apply le_n. }
    2: { assert (x <> m).
         { intros ->. assert (Hin : In (mkEntry m e' Sized) (q s)).
           { apply (I_rel C s HI). apply in_flat_map. exists (PRel m e'). split; [eapply nth_error_In; exact Hp|left; reflexivity]. }
           pose proof (numbers_nodup s HI) as N. rewrite Hq in Hin, N. destruct Hin as [Hin|Hin]; [discriminate|].
           cbn in N. inversion N; subst. apply H1. apply in_map_iff. exists (mkEntry m e' Sized). auto. }
         cbn [fst q s_thr s_q]. rewrite Stage by auto. split; [eexists; reflexivity|]. rewrite Hq. cbn [length].
         unfold set_stage. rewrite map_length. apply le_n. }
    6: { rewrite Hq. cbn [q_stage]. cbn [fst]. rewrite Hq. split; [exists r; reflexivity|apply le_n]. }
    all: apply Fine.
    all: repeat match goal with
    | |- context [match ?x with _ => _ end] =>
        match type of x with
        | choice _ => destruct x
        | bool => destruct x
        | option _ => destruct x
        | sink_kind => destruct x
        | reopen => destruct x
        | SinkModel.pc _ => destruct x
        end
    end; reflexivity. }
  split; [split; [exact Hthr|apply G]|apply G].
Qed.

Definition mine (u : nat) (l : list (label E)) : Prop := Exists (own u) l.

Lemma other_labels s u v c p : nth_error (thr s) v = Some p -> v <> u -> ~ mine u (snd (step_thread C s v c p)).
Proof.
  intros Hp Hv H. destruct (step_own C s v c p Hp) as [O _]. apply Exists_exists in H as (l & Hi & Ho).
  rewrite Forall_forall in O. apply O in Hi. destruct l; cbn in *; congruence.
Qed.

(** Whoever waits for the oldest event waits for ever. *)
Lemma stuck_get t m e u k : forall ms s ls s' l, reach C op n s ls -> formats_oldest s t m e -> u <> t ->
  nth_error (thr s) u = Some (FGet k) -> away t ms -> exec C s ms = (s', l) ->
  nth_error (thr s') u = Some (FGet k) /\ ~ mine u l /\ formats_oldest s' t m e.
Proof.
  induction ms as [|mv ms IH]; intros s ls s' l Hr Ho Hu Hg Ha He.
  - cbn in He. injection He as <- <-. split; [exact Hg|]. split; [|exact Ho]. intros H. inversion H.
  - inversion Ha as [|? ? A1 A2]; subst. cbn [exec] in He. destruct (step C s mv) as [s1 l1] eqn:Hs.
    destruct (exec C s1 ms) as [s2 l2] eqn:E2. injection He as <- <-.
    pose proof (reach_step C op n s ls mv Hr) as Hr1. pose proof (reach_inv C op n s ls sz dst Hr) as HI.
    pose proof (oldest_stays s t m e mv HI Ho A1) as [Ho1 _]. rewrite Hs in Hr1, Ho1. cbn [fst snd] in Hr1, Ho1.
    assert (G : nth_error (thr s1) u = Some (FGet k) /\ ~ mine u l1).
    { destruct mv as [v c|j].
      2: { cbn in Hs. injection Hs as <- <-. split; [exact Hg|]. intros H. inversion H. }
      cbn [step] in Hs. destruct (nth_error (thr s) v) as [p|] eqn:Hp.
      2: { injection Hs as <- <-. split; [exact Hg|]. intros H. inversion H. }
      destruct (Nat.eq_dec v u) as [->|Hv].
      - rewrite Hg in Hp. injection Hp as <-. destruct Ho as [_ [r Hq]]. cbn [step_thread] in Hs. rewrite Hq in Hs. cbn in Hs.
        injection Hs as <- <-. split; [exact Hg|]. intros H. inversion H.
      - pose proof (other_labels s u v c p Hp Hv) as O. destruct (step_own C s v c p Hp) as [_ (p' & Et)].
        rewrite Hs in O, Et. cbn [fst snd] in O, Et. rewrite Et, nth_error_upd_other by auto. auto. }
    destruct G as [G1 G2]. destruct (IH s1 _ _ _ Hr1 Ho1 Hu G1 A2 E2) as (I1 & I2 & I3).
    split; [exact I1|]. split; [|exact I3]. unfold mine in *. rewrite Exists_app. tauto.
Qed.

(** A full queue stays full, and whoever tries to put goes on trying. *)
Lemma trying_step s u c p e : nth_error (thr s) u = Some p -> trying p = [e] -> length (q s) = c_cap C ->
  exists p', thr (fst (step_thread C s u c p)) = upd (thr s) u p' /\ trying p' = [e] /\
    (forall x, ~ In (LReturn x) (snd (step_thread C s u c p))) /\ (forall x y, ~ In (LAccept x y) (snd (step_thread C s u c p))).
Proof.
  intros Hp Ht Hf.
  assert (Et : thr s = upd (thr s) u p).
  { destruct (thr_split _ _ _ Hp) as (l1 & l2 & E1 & _ & E2). rewrite (E2 p). exact E1. }
  destruct p as [ |e'|x e'|x e'| | | |k|k|k e'|k oe|k|k|k|k|k|k| | | | | | | | | ];
    try discriminate; try (destruct k as [ek| | |]; try discriminate); cbn [trying] in Ht; injection Ht as ->;
    cbn [step_thread after_flush ret_label].
  1: { rewrite Hf, Nat.ltb_irrefl. eexists. split; [reflexivity|]. split; [reflexivity|]. split; intros; intros []. }
  all: repeat match goal with
    | |- context [match ?x with _ => _ end] =>
        match type of x with
        | choice _ => destruct x
        | bool => destruct x
        | list _ => destruct x
        | option _ => destruct x
        | stage => destruct x
        | sink_kind => destruct x
        | reopen => destruct x
        end
    end; cbn [fst snd s_thr s_q s_acc s_flags s_out thr];
    (eexists; split; [first [exact Et|reflexivity]|]); (split; [reflexivity|]);
    (split; intros ? *; cbn; intuition discriminate).
Qed.

Lemma full_stays t m e u e' : forall ms s ls s' l, reach C op n s ls -> formats_oldest s t m e -> length (q s) = c_cap C ->
  u <> t -> (exists p, nth_error (thr s) u = Some p /\ trying p = [e']) -> away t ms -> exec C s ms = (s', l) ->
  ~ In (LReturn u) l /\ forall x, ~ In (LAccept u x) l.
Proof.
  induction ms as [|mv ms IH]; intros s ls s' l Hr Ho Hf Hu Hg Ha He.
  - cbn in He. injection He as <- <-. split; [intros []|intros x []].
  - inversion Ha as [|? ? A1 A2]; subst. cbn [exec] in He. destruct (step C s mv) as [s1 l1] eqn:Hs.
    destruct (exec C s1 ms) as [s2 l2] eqn:E2. injection He as <- <-.
    pose proof (reach_step C op n s ls mv Hr) as Hr1. pose proof (reach_inv C op n s ls sz dst Hr) as HI.
    pose proof (oldest_stays s t m e mv HI Ho A1) as [Ho1 Hl1]. rewrite Hs in Hr1, Ho1, Hl1. cbn [fst snd] in Hr1, Ho1, Hl1.
    pose proof (I_cap C s1 (reach_inv C op n s1 _ sz dst Hr1)) as Hc1.
    assert (Hf1 : length (q s1) = c_cap C) by lia.
    assert (G : (exists p, nth_error (thr s1) u = Some p /\ trying p = [e']) /\ ~ In (LReturn u) l1 /\ forall x, ~ In (LAccept u x) l1).
    { destruct mv as [v c|j].
      2: { cbn in Hs. injection Hs as <- <-. split; [exact Hg|]. split; [intros []|intros x []]. }
      cbn [step] in Hs. destruct (nth_error (thr s) v) as [p|] eqn:Hp.
      2: { injection Hs as <- <-. split; [exact Hg|]. split; [intros []|intros x []]. }
      destruct Hg as (pu & Hpu & Htr). destruct (Nat.eq_dec v u) as [->|Hv].
      - rewrite Hpu in Hp. injection Hp as <-. destruct (trying_step s u c pu e' Hpu Htr Hf) as (p' & Et & T' & R' & A').
        rewrite Hs in Et, R', A'. cbn [fst snd] in Et, R', A'. split; [|auto]. exists p'. split; [|exact T'].
        rewrite Et. apply nth_error_upd. apply nth_error_Some. congruence.
      - pose proof (other_labels s u v c p Hp Hv) as O. destruct (step_own C s v c p Hp) as [_ (p' & Et)].
        rewrite Hs in O, Et. cbn [fst snd] in O, Et. rewrite Et. split; [exists pu; rewrite nth_error_upd_other by auto; auto|].
        split; [intros H|intros x H]; apply O; apply Exists_exists; eexists; (split; [exact H|reflexivity]). }
    destruct G as (G1 & G2 & G3). destruct (IH s1 _ _ _ Hr1 Ho1 Hf1 Hu G1 A2 E2) as [I1 I2].
    split; [rewrite in_app_iff; tauto|]. intros x. rewrite in_app_iff. intros [H|H]; [exact (G3 x H)|exact (I2 x H)].
Qed.

Lemma nested_full t m e u lv e' ms s ls s' l : reach C op n s ls -> formats_oldest s t m e -> length (q s) = c_cap C ->
  u <> t -> u <> 0 -> nth_error (thr s) u = Some Idle -> alive s = true -> for_sink (c_level C) lv = true -> away t ms ->
  exec C s (MThread u (CPush lv e') :: ms) = (s', l) -> ~ In (LReturn u) l /\ forall x, ~ In (LAccept u x) l.
Proof.
  intros Hr Ho Hf Hu H0 Hi Al Ad Ha He. cbn [exec] in He.
  pose proof (reach_step C op n s ls (MThread u (CPush lv e')) Hr) as Hr1.
  pose proof (oldest_stays s t m e (MThread u (CPush lv e')) (reach_inv C op n s ls sz dst Hr) Ho Hu) as [Ho1 _].
  cbn [step] in *. rewrite Hi in *. cbn [step_thread] in *. apply Nat.eqb_neq in H0. rewrite Al, H0 in *. cbn [andb negb] in *.
  rewrite admits_iff, Ad in *. cbn [fst snd] in *.
  destruct (exec C (s_thr s u (PPut e')) ms) as [s2 l2] eqn:E2. injection He as <- <-.
  assert (Hg : exists p, nth_error (thr (s_thr s u (PPut e'))) u = Some p /\ trying p = [e']).
  { exists (PPut e'). split; [|reflexivity]. cbn [thr s_thr]. apply nth_error_upd. apply nth_error_Some. congruence. }
  destruct (full_stays t m e u e' ms (s_thr s u (PPut e')) _ _ _ Hr1 Ho1 Hf Hu Hg Ha E2) as [I1 I2].
  split; [intros [H|H]; [discriminate|auto]|]. intros x [H|H]; [discriminate|exact (I2 x H)].
Qed.

(** flush() called there: two steps, and whatever happens then. *)
Lemma nested_flush t m e u c ms s ls s' l : reach C op n s ls -> formats_oldest s t m e ->
  u <> t -> u <> 0 -> nth_error (thr s) u = Some Idle -> alive s = true -> fip s = false -> away t ms ->
  exec C s (MThread u CFlush :: MThread u c :: ms) = (s', l) -> ~ In (LReturn u) l.
Proof.
  intros Hr Ho Hu H0 Hi Al Fi Ha He. assert (Hlt : u < length (thr s)) by (apply nth_error_Some; congruence).
  assert (E2 : exec C s [MThread u CFlush; MThread u c] =
    (s_thr (s_flags (s_thr s u (FTas KReturn)) true (ntf s) (ntr s) (fin s)) u (FGet KReturn), [LLock u])).
  { cbn [exec step]. rewrite Hi. cbn [step_thread]. apply Nat.eqb_neq in H0. rewrite Al, H0. cbn [andb negb thr s_thr].
    rewrite nth_error_upd by auto. cbn [step_thread s_thr fip ntf ntr fin]. rewrite Fi. reflexivity. }
  change (MThread u CFlush :: MThread u c :: ms) with ([MThread u CFlush; MThread u c] ++ ms) in He.
  rewrite exec_app, E2 in He. destruct (exec C _ ms) as [s2 l2] eqn:E3 in He. injection He as <- <-.
  pose proof (reach_step C op n _ _ (MThread u c) (reach_step C op n s ls (MThread u CFlush) Hr)) as Hr2.
  pose proof (oldest_stays s t m e (MThread u CFlush) (reach_inv C op n s ls sz dst Hr) Ho Hu) as [Ho1 _].
  pose proof (oldest_stays _ t m e (MThread u c) (reach_inv C op n _ _ sz dst (reach_step C op n s ls (MThread u CFlush) Hr)) Ho1 Hu) as [Ho2 _].
  assert (E4 : fst (step C (fst (step C s (MThread u CFlush))) (MThread u c)) =
    s_thr (s_flags (s_thr s u (FTas KReturn)) true (ntf s) (ntr s) (fin s)) u (FGet KReturn)).
  { cbn [exec] in E2. destruct (step C s _) as [a b]. cbn [fst]. destruct (step C a _) as [a' b']. cbn [fst]. congruence. }
  rewrite E4 in Hr2, Ho2.
  assert (G : nth_error (thr (s_thr (s_flags (s_thr s u (FTas KReturn)) true (ntf s) (ntr s) (fin s)) u (FGet KReturn))) u = Some (FGet KReturn)).
  { cbn [thr s_thr s_flags]. apply nth_error_upd. rewrite upd_length. exact Hlt. }
  destruct (stuck_get t m e u KReturn ms _ _ _ _ Hr2 Ho2 Hu G Ha E3) as (_ & I2 & _).
  intros [H|H]; [discriminate|]. apply I2. apply Exists_exists. eexists. split; [exact H|reflexivity].
Qed.

Lemma away_app t (a b : list (move E)) : away t (a ++ b) <-> away t a /\ away t b.
Proof. apply Forall_app. Qed.

Lemma oldest_stays_all t m e : forall ms s ls s' l, reach C op n s ls -> formats_oldest s t m e -> away t ms ->
  exec C s ms = (s', l) -> formats_oldest s' t m e.
Proof.
  induction ms as [|mv ms IH]; intros s ls s' l Hr Ho Ha He; cbn [exec] in He; [injection He as <- <-; exact Ho|].
  inversion Ha as [|? ? A1 A2]; subst. destruct (step C s mv) as [s1 l1] eqn:Hs.
  destruct (exec C s1 ms) as [s2 l2] eqn:E2. injection He as <- <-.
  pose proof (reach_step C op n s ls mv Hr) as Hr1. pose proof (oldest_stays s t m e mv (reach_inv C op n s ls sz dst Hr) Ho A1) as [Ho1 _].
  rewrite Hs in Hr1, Ho1. exact (IH _ _ _ _ Hr1 Ho1 A2 E2).
Qed.

(** push() there, with latency 0 and room in the queue: six steps, and whatever happens then. *)
Lemma nested_zero (Hz : c_lat0 C = true) t m e u lv e' ms s ls s' l : reach C op n s ls -> formats_oldest s t m e ->
  u <> t -> u <> 0 -> nth_error (thr s) u = Some Idle -> alive s = true -> fip s = false -> length (q s) < c_cap C ->
  for_sink (c_level C) lv = true -> away t ms ->
  exec C s (MThread u (CPush lv e') :: repeat (MThread u (CGo false)) 5 ++ ms) = (s', l) -> ~ In (LReturn u) l.
Proof.
  intros Hr Ho Hu H0 Hi Al Fi Hq Ad Ha He. assert (Hlt : u < length (thr s)) by (apply nth_error_Some; congruence).
  set (first := MThread u (CPush lv e') :: repeat (MThread u (CGo false)) 5) in *.
  change (exec C s (first ++ ms) = (s', l)) in He.
  assert (E2 : exists s2, exec C s first = (s2, [LPush u lv e'; LAccept u e'; LLock u]) /\
    nth_error (thr s2) u = Some (FGet KReturn)).
  { assert (U : forall (l : list pc) p, u < length l -> nth_error (upd l u p) u = Some p) by (intros; apply nth_error_upd; auto).
    assert (UL : forall (l : list pc) p, length (upd l u p) = length l) by (intros; apply upd_length).
    apply Nat.eqb_neq in H0. apply Nat.ltb_lt in Hq. unfold first. cbn [repeat exec step]. rewrite Hi. cbn [step_thread].
    rewrite Al, H0. cbn [andb negb]. rewrite admits_iff, Ad. cbn [thr s_thr]. rewrite U by auto. cbn [step_thread q s_thr].
    rewrite Hq. cbn [thr s_thr s_acc s_q acc q]. rewrite U by (rewrite UL; auto).
    cbn [step_thread thr s_thr s_acc s_q]. rewrite U by (rewrite !UL; auto).
    cbn [step_thread thr s_thr s_acc s_q]. rewrite U by (rewrite !UL; auto).
    cbn [step_thread]. rewrite Hz. cbn [thr s_thr s_acc s_q]. rewrite U by (rewrite !UL; auto).
    cbn [step_thread fip s_thr s_acc s_q]. rewrite Fi. cbn [app]. eexists. split; [reflexivity|].
    cbn [thr s_thr s_acc s_q s_flags]. apply U. rewrite !UL. exact Hlt. }
  destruct E2 as (s2 & E2 & G2). rewrite exec_app, E2 in He. destruct (exec C s2 ms) as [s3 l3] eqn:E3. injection He as <- <-.
  assert (A1 : away t first) by (unfold first, away; repeat constructor; auto).
  pose proof (oldest_stays_all t m e first _ _ _ _ Hr Ho A1 E2) as Ho2.
  assert (Hr2 : reach C op n s2 (ls ++ [LPush u lv e'; LAccept u e'; LLock u])).
  { destruct Hr as [ms0 E0]. exists (ms0 ++ first). rewrite exec_app, E0, E2. reflexivity. }
  destruct (stuck_get t m e u KReturn ms _ _ _ _ Hr2 Ho2 Hu G2 Ha E3) as (_ & I2 & _).
  intros [H|[H|[H|H]]]; try discriminate. apply I2. apply Exists_exists. eexists. split; [exact H|reflexivity].
Qed.

(** With a worker and room in the queue: it just returns. *)
Lemma nested_room (Hz : c_lat0 C = false) u lv e' s : u <> 0 -> nth_error (thr s) u = Some Idle -> alive s = true ->
  for_sink (c_level C) lv = true -> length (q s) < c_cap C ->
  snd (exec C s (MThread u (CPush lv e') :: repeat (MThread u (CGo false)) 4)) = [LPush u lv e'; LAccept u e'; LReturn u].
Proof.
  intros H0 Hi Al Ad Hq. assert (Hu : u < length (thr s)) by (apply nth_error_Some; congruence).
  assert (U : forall (l : list pc) p, u < length l -> nth_error (upd l u p) u = Some p) by (intros; apply nth_error_upd; auto).
  assert (UL : forall (l : list pc) p, length (upd l u p) = length l) by (intros; apply upd_length).
  apply Nat.eqb_neq in H0. cbn [repeat exec step]. rewrite Hi. cbn [step_thread]. rewrite Al, H0. cbn [andb negb].
  rewrite admits_iff, Ad. cbn [thr s_thr]. rewrite U by auto. cbn [step_thread q s_thr].
  apply Nat.ltb_lt in Hq. rewrite Hq. cbn [thr s_thr s_acc s_q acc q]. rewrite U by (rewrite UL; auto).
  cbn [step_thread thr s_thr s_acc s_q]. rewrite U by (rewrite !UL; auto).
  cbn [step_thread thr s_thr s_acc s_q]. rewrite U by (rewrite !UL; auto).
  cbn [step_thread]. rewrite Hz. destruct (N.leb _ _); reflexivity.
Qed.

End Nested.
