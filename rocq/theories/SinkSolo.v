(** * Calls that run alone (C25, C30) *)
From Coq Require Import List Arith NArith Bool Lia.
From Verif Require Import Base LevelModel SinkModel SinkSpec SinkProofs SinkLabels SinkLife SinkProps SinkProgress SinkReturn.
Import ListNotations.

Section Solo.
Context {E : Type}.
Variable C : cfg E.
Notation state := (state E).
Notation pc := (pc E).
Variable op : bool.
Variable n : nat.
Hypothesis sz : sizes_ok C.
Hypothesis dst : has_dest C op.
Hypothesis cap_pos : 1 <= c_cap C.

Definition rest_pc (p : pc) : Prop := p = Idle \/ p = WWait \/ p = WDone.

Lemma rest_neutral p : rest_pc p -> neutral p.
Proof. intros [-> |[-> | ->]]; repeat split. Qed.

Record Running (t : nat) (s : state) (ls : list (label E)) (p : pc) : Prop := {
  R_reach : reach C op n s ls;
  R_pc : nth_error (thr s) t = Some p;
  R_t : t <> 0;
  R_client : client_pc p = true;
  R_nd : destroying p = false;
  R_busy : p <> Idle;
  R_others : forall u x, nth_error (thr s) u = Some x -> u <> t -> rest_pc x;
  R_room : post_retry p = true -> length (q s) < c_cap C
}.

(** Leaving a call and emitting LReturn are the same thing. *)
Lemma busy_step s t c p : nth_error (thr s) t = Some p -> client_pc p = true -> destroying p = false ->
  p <> Idle ->
  pushes_by t (snd (step_thread C s t c p)) = [] /\
  exists p', thr (fst (step_thread C s t c p)) = upd (thr s) t p' /\ client_pc p' = true /\
    destroying p' = false /\ (p' = Idle <-> In (LReturn t) (snd (step_thread C s t c p))).
Proof.
  intros Hp Hc Hd Hb.
  assert (Et : thr s = upd (thr s) t p).
  { destruct (thr_split _ _ _ Hp) as (l1 & l2 & E1 & _ & E2). rewrite (E2 p). exact E1. }
  destruct p as [ |e|x e|x e| | | |k|k|k e|k oe|k|k|k|k|k|k| | | | | | | | | ];
  try discriminate Hc; try discriminate Hd; try congruence;
  try (destruct k; try discriminate Hc; try discriminate Hd); cbn [step_thread after_flush ret_label];
  repeat match goal with
  | |- context [match ?x with _ => _ end] =>
      match type of x with
      | choice _ => destruct x
      | bool => destruct x
      | list _ => destruct x
      | option _ => destruct x
      | stage => destruct x
      | sink_kind => destruct x
      | reopen => destruct x
      end
  end; cbn [fst snd s_thr s_q s_acc s_flags s_out thr]; (split; [reflexivity|]);
  (eexists; split; [first [exact Et|reflexivity]|]); (split; [reflexivity|]); (split; [reflexivity|]);
  (split; [intros Hx; first [discriminate Hx|cbn; auto]|intros Hx; cbn in Hx; intuition discriminate]).
Qed.

Lemma running_step t s ls p m : Running t s ls p ->
  (match m with MThread u _ => u = t | MDrain _ => True end) ->
  ~ In (LReturn t) (snd (step C s m)) ->
  exists p', Running t (fst (step C s m)) (ls ++ snd (step C s m)) p' /\
    pushes_by t (snd (step C s m)) = [] /\
    (p' = p /\ mu C p' (length (q (fst (step C s m)))) <= mu C p (length (q s)) \/
     mu C p' (length (q (fst (step C s m)))) < mu C p (length (q s))).
Proof.
  intros R Hm Hret. pose proof (reach_step C op n s ls m (R_reach _ _ _ _ R)) as Hr'.
  destruct R as [Hr Hp Ht Hc Hnd Hb Ho Hroom]. destruct m as [u c|k].
  2:{ exists p. cbn in *. split; [constructor; auto|]. split; [reflexivity|]. left. auto. }
  subst u. cbn [step] in *. rewrite Hp in *.
  destruct (busy_step s t c p Hp Hc Hnd Hb) as (B0 & p' & B1 & B2 & B3 & B4).
  assert (Hlt : t < length (thr s)) by (apply nth_error_Some; congruence).
  pose proof (reach_inv C op n s ls sz dst Hr) as HI.
  destruct (quiet_queue C s t p HI Hp) as [Q1 Q2].
  { intros u x Hu Hut. apply rest_neutral. eapply Ho; eassumption. }
  destruct (step_mu C cap_pos s t c p Hp (I_cap C s HI) Hb Q2 Hroom) as [Hs|(p2 & T1 & T2 & T3 & T4)].
  { intros ->. discriminate. }
  - rewrite Hs in *. exists p. split; [constructor; auto|]. split; [exact B0|]. left. auto.
  - assert (p2 = p').
    { rewrite B1 in T1. assert (G : nth_error (upd (thr s) t p') t = nth_error (upd (thr s) t p2) t) by (rewrite T1; reflexivity).
      rewrite !nth_error_upd in G by exact Hlt. congruence. }
    subst p2. exists p'. split; [|split; [exact B0|right; exact T2]].
    constructor; auto.
    + rewrite B1. apply nth_error_upd. exact Hlt.
    + intros Hx. apply Hret. apply B4. exact Hx.
    + intros u x Hu Hut. rewrite B1, nth_error_upd_other in Hu by exact Hut. eapply Ho; eassumption.
Qed.

Lemma running_exec ms : forall t s ls p s' l', Running t s ls p -> only t ms ->
  exec C s ms = (s', l') -> ~ In (LReturn t) l' ->
  exists p', Running t s' (ls ++ l') p' /\ pushes_by t l' = [] /\
    forall k, advances C t s ms k -> k + mu C p' (length (q s')) <= mu C p (length (q s)).
Proof.
  induction ms as [|m ms IH]; intros t s ls p s' l' R Ho He Hret.
  - cbn in He. injection He as <- <-. exists p. rewrite app_nil_r. split; [exact R|]. split; [reflexivity|].
    intros k Hk. inversion Hk. lia.
  - cbn [exec] in He. inversion Ho as [|y z Hm Hms]; subst.
    assert (Hx : ~ In (LReturn t) (snd (step C s m))).
    { intros Hx. apply Hret. destruct (step C s m). destruct (exec C s0 ms). injection He as <- <-.
      apply in_app_iff. auto. }
    destruct (running_step t s ls p m R Hm Hx) as (p1 & R1 & P1 & M1).
    destruct (step C s m) as [s1 l1] eqn:E1. cbn [fst snd] in *.
    destruct (exec C s1 ms) as [s2 l2] eqn:E2. injection He as <- <-.
    assert (Hret2 : ~ In (LReturn t) l2) by (intros Hx2; apply Hret; apply in_app_iff; auto).
    destruct (IH t s1 (ls ++ l1) p1 s2 l2 R1 Hms E2 Hret2) as (p2 & R2 & P2 & M2).
    exists p2. rewrite app_assoc. split; [exact R2|].
    split; [rewrite pushes_by_app, P1, P2; reflexivity|].
    intros k Hk. inversion Hk as [|s0 m0 ms0 k0 Hmv Hadv|s0 m0 ms0 k0 Hsm Hadv]; subst; rewrite E1 in *; cbn [fst] in *.
    + specialize (M2 k0 Hadv). destruct M1 as [(M1 & _)|M1]; [|lia]. subst p1.
      exfalso. apply Hmv. rewrite (R_pc _ _ _ _ R1), (R_pc _ _ _ _ R). reflexivity.
    + specialize (M2 k Hadv). destruct M1 as [(_ & M1)|M1]; lia.
Qed.

Lemma rest_alive (s : state) : at_rest s -> alive s = true /\ fip s = false.
Proof.
  intros (H1 & H2 & H3). split; [|exact H1]. unfold alive. apply forallb_forall. intros x Hx.
  assert (In x (thr s)) by (destruct (thr s); [destruct Hx|right; exact Hx]).
  eapply Forall_forall in H2; [|eassumption]. destruct H2 as [-> |[-> | ->]]; reflexivity.
Qed.

Lemma running_can t s ls p : Running t s ls p -> can_move C t s.
Proof.
  intros R. pose proof (reach_inv C op n s ls sz dst (R_reach _ _ _ _ R)) as HI.
  destruct (quiet_queue C s t p HI (R_pc _ _ _ _ R)) as [Q1 Q2].
  { intros u x Hu Hut. apply rest_neutral. eapply (R_others _ _ _ _ R); eassumption. }
  eapply can_from; [exact (R_pc _ _ _ _ R)|]. apply step_can; [exact (R_pc _ _ _ _ R)| |].
  - intros Hw. destruct R as [R1 R2 R3 R4 R5 R6 R7 R8].
    destruct p; cbn in Hw; try contradiction; try congruence; discriminate.
  - destruct p; auto.
Qed.

Lemma running_start_push t s ls l e : reach C op n s ls -> at_rest s -> t <> 0 ->
  nth_error (thr s) t = Some Idle -> for_sink (c_level C) l = true ->
  step C s (MThread t (CPush l e)) = (s_thr s t (PPut e), [LPush t l e]) /\
  Running t (s_thr s t (PPut e)) (ls ++ [LPush t l e]) (PPut e).
Proof.
  intros Hr Hrest Ht Hp Hf. destruct (rest_alive s Hrest) as [Ha _].
  assert (Hst : step C s (MThread t (CPush l e)) = (s_thr s t (PPut e), [LPush t l e])).
  { cbn [step]. rewrite Hp. cbn [step_thread]. rewrite Ha, admits_iff, Hf.
    destruct (Nat.eqb_spec t 0); [contradiction|]. reflexivity. }
  split; [exact Hst|].
  assert (Hlt : t < length (thr s)) by (apply nth_error_Some; congruence).
  constructor; auto; try discriminate.
  - pose proof (reach_step C op n s ls (MThread t (CPush l e)) Hr) as G. rewrite Hst in G. exact G.
  - cbn. apply nth_error_upd. exact Hlt.
  - intros u x Hu Hut. cbn in Hu. rewrite nth_error_upd_other in Hu by exact Hut.
    destruct Hrest as (_ & H2 & _). eapply Forall_forall in H2; [exact H2|]. eapply nth_error_In. exact Hu.
Qed.

Lemma adv_head t s m ms k : advances C t s (m :: ms) k ->
  exists k', advances C t (fst (step C s m)) ms k' /\ k <= S k'.
Proof. intros H. inversion H; subst; eexists; (split; [eassumption|lia]). Qed.

Lemma accepts_only t s ms : forall s' l', only t ms -> exec C s ms = (s', l') ->
  accepted l' = accepted_by t l'.
Proof.
  intros s' l' Ho He. assert (H : Forall (fun x => fst x = t) (accepts l')).
  { revert s s' l' He. induction ms as [|m ms IH]; intros s s' l' He.
    - cbn in He. injection He as <- <-. constructor.
    - cbn [exec] in He. inversion Ho as [|y z Hm Hms]; subst.
      destruct (step C s m) as [s1 l1] eqn:E1. destruct (exec C s1 ms) as [s2 l2] eqn:E2.
      injection He as <- <-. rewrite accepts_app. apply Forall_app. split; [|eapply IH; eauto].
      destruct m as [u c|k]; cbn [step] in E1.
      + subst u. destruct (nth_error (thr s) t) as [p|] eqn:Hp.
        * destruct (step_own C s t c p Hp) as [F _]. rewrite E1 in F. cbn [snd] in F.
          clear -F. induction F as [|x l Hx Hl IH]; [constructor|].
          unfold accepts in *. cbn [flat_map]. apply Forall_app. split; [|exact IH].
          destruct x; cbn in Hx; subst; repeat constructor.
        * injection E1 as <- <-. constructor.
      + injection E1 as <- <-. constructor. }
  unfold accepted, accepted_by. f_equal. clear -H.
  induction H as [|x l Hx Hl IH]; [reflexivity|]. cbn. rewrite Hx, Nat.eqb_refl, <- IH. reflexivity.
Qed.

Lemma solo_push t s ls l e ms s1 l1 : reach C op n s ls -> at_rest s -> t <> 0 ->
  nth_error (thr s) t = Some Idle -> for_sink (c_level C) l = true -> only t ms ->
  exec C s (MThread t (CPush l e) :: ms) = (s1, l1) -> ~ In (LReturn t) l1 ->
  can_move C t s1 /\
  (forall k, advances C t s (MThread t (CPush l e) :: ms) k -> k <= 401 + 100 * length (q s)) /\
  (forall c, In (LReturn t) (snd (step C s1 (MThread t c))) ->
     accepted (l1 ++ snd (step C s1 (MThread t c))) = [e]).
Proof.
  intros Hr Hrest Ht Hp Hf Ho He Hret.
  destruct (running_start_push t s ls l e Hr Hrest Ht Hp Hf) as [Hst R0].
  pose proof He as He0. cbn [exec] in He. rewrite Hst in He.
  destruct (exec C (s_thr s t (PPut e)) ms) as [s2 l2] eqn:E2. injection He as <- <-.
  assert (Hret2 : ~ In (LReturn t) l2) by (intros Hx; apply Hret; right; exact Hx).
  destruct (running_exec ms t _ _ _ s2 l2 R0 Ho E2 Hret2) as (p2 & R2 & P2 & M2).
  split; [eapply running_can; exact R2|]. split.
  - intros k Hk. apply adv_head in Hk. destruct Hk as (k' & Hk & Hle). rewrite Hst in Hk. cbn [fst] in Hk.
    specialize (M2 k' Hk).
    assert (mu C (PPut e) (length (q (s_thr s t (PPut e)))) <= 400 + 100 * length (q s)).
    { cbn [mu s_thr q]. destruct (Nat.ltb _ _); lia. }
    lia.
  - intros c Hin. set (l3 := snd (step C s2 (MThread t c))) in *.
    assert (Hr3 : reach C op n (fst (step C s2 (MThread t c))) (ls ++ ([LPush t l e] ++ l2) ++ l3)).
    { pose proof (reach_step C op n _ _ (MThread t c) (R_reach _ _ _ _ R2)) as G.
      rewrite <- !app_assoc in *. exact G. }
    assert (Hfin : nth_error (thr (fst (step C s2 (MThread t c)))) t = Some Idle /\ pushes_by t l3 = []).
    { subst l3. cbn [step] in *. rewrite (R_pc _ _ _ _ R2) in *.
      destruct (busy_step s2 t c p2 (R_pc _ _ _ _ R2) (R_client _ _ _ _ R2) (R_nd _ _ _ _ R2) (R_busy _ _ _ _ R2))
        as (B0 & p' & B1 & B2 & B3 & B4).
      apply B4 in Hin. subst p'. split; [|exact B0]. rewrite B1. apply nth_error_upd.
      apply nth_error_Some. rewrite (R_pc _ _ _ _ R2). discriminate. }
    destruct Hfin as [Hidle Hnp].
    pose proof (accepted_exactly C op n _ _ t Hr3 Hidle) as A1.
    pose proof (accepted_exactly C op n _ _ t Hr Hp) as A0.
    rewrite accepted_by_app, A0 in A1. unfold for_sink_by in A1.
    rewrite (pushes_by_app t ls), filter_app, map_app in A1. apply app_inv_head in A1.
    rewrite !pushes_by_app, P2, Hnp, !app_nil_r in A1.
    assert (A2 : accepted ([LPush t l e] ++ l2 ++ l3) = accepted_by t (([LPush t l e] ++ l2) ++ l3)).
    { rewrite <- app_assoc. destruct (step C s2 (MThread t c)) as [s3 l3'] eqn:E3. cbn [snd] in l3. subst l3.
      apply (accepts_only t s ((MThread t (CPush l e) :: ms) ++ [MThread t c]) s3).
      - apply Forall_app. split; [constructor; [reflexivity|exact Ho]|]. repeat constructor.
      - rewrite exec_app, He0. cbn [exec]. rewrite E3, app_nil_r. cbn [app]. reflexivity. }
    cbn [app] in *. rewrite A2, A1. unfold pushes_by. cbn. rewrite Nat.eqb_refl. cbn. rewrite Hf. reflexivity.
Qed.

(** ** flush() alone *)

Definition flush_phase (q0 : list (entry E)) (p : pc) (s : state) : Prop :=
  match p with
  | Idle => if match c_kind C with KSyslog => true | _ => false end then q s = [] else q s = tl q0
  | FTas KReturn => q s = q0
  | FGet KReturn => match c_kind C with KSyslog => True | _ => q s = q0 end
  | FSub KReturn _ => match c_kind C with KSyslog => True | _ => q s = tl q0 end
  | FNtf KReturn => q s = [] /\ c_kind C = KSyslog
  | FClear KReturn => if match c_kind C with KSyslog => true | _ => false end then q s = [] else q s = tl q0
  | FWrite KReturn _ | FCasFlush KReturn | FStream KReturn | FCasRot KReturn | FReopen KReturn =>
      q s = tl q0 /\ c_kind C <> KSyslog
  | _ => False
  end.

Lemma flush_step q0 s t c p : nth_error (thr s) t = Some p -> p <> Idle ->
  (fl p = [] -> fip s = false) ->
  flush_phase q0 p s ->
  exists p', thr (fst (step_thread C s t c p)) = upd (thr s) t p' /\
    flush_phase q0 p' (fst (step_thread C s t c p)).
Proof.
  intros Hp Hi Hf H.
  assert (Et : thr s = upd (thr s) t p).
  { destruct (thr_split _ _ _ Hp) as (l1 & l2 & E1 & _ & E2). rewrite (E2 p). exact E1. }
  destruct p as [ |e|x e|x e| | | |k|k|k e|k oe|k|k|k|k|k|k| | | | | | | | | ]; try contradiction;
  try (destruct k; try contradiction); cbn [flush_phase] in H; cbn [step_thread after_flush];
  try rewrite (Hf eq_refl);
  repeat match goal with
  | |- context [match ?x with _ => _ end] =>
      match type of x with
      | choice _ => destruct x
      | bool => destruct x
      | list _ => destruct x eqn:?
      | option _ => destruct x
      | stage => destruct x
      | sink_kind => destruct x eqn:?
      | reopen => destruct x
      end
  end; cbn [fst snd s_thr s_q s_acc s_flags s_out thr];
  (eexists; split; [first [exact Et|reflexivity]|]); cbn [flush_phase s_thr s_q s_acc s_flags s_out q];
  repeat match goal with H : c_kind C = _ |- _ => rewrite H in * end;
  try (intuition congruence).
  all: try (split; [|discriminate]). all: cbn [tl]; try congruence.
  all: destruct (c_kind C); cbn in *; try (intuition congruence).
  all: subst q0; cbn; congruence.
Qed.


Lemma flush_exec q0 ms : forall t s ls p s' l', Running t s ls p -> only t ms -> flush_phase q0 p s ->
  exec C s ms = (s', l') -> ~ In (LReturn t) l' ->
  exists p', Running t s' (ls ++ l') p' /\ flush_phase q0 p' s'.
Proof.
  induction ms as [|m ms IH]; intros t s ls p s' l' R Ho Hph He Hret.
  - cbn in He. injection He as <- <-. exists p. rewrite app_nil_r. auto.
  - cbn [exec] in He. inversion Ho as [|y z Hm Hms]; subst.
    assert (Hx : ~ In (LReturn t) (snd (step C s m))).
    { intros Hx. apply Hret. destruct (step C s m). destruct (exec C s0 ms). injection He as <- <-.
      apply in_app_iff. auto. }
    destruct (running_step t s ls p m R Hm Hx) as (p1 & R1 & P1 & M1).
    assert (Hph1 : flush_phase q0 p1 (fst (step C s m))).
    { destruct m as [u c|k].
      - subst u. cbn [step] in *. rewrite (R_pc _ _ _ _ R) in *.
        pose proof (reach_inv C op n s ls sz dst (R_reach _ _ _ _ R)) as HI.
        destruct (quiet_queue C s t p HI (R_pc _ _ _ _ R)) as [Q1 Q2].
        { intros u x Hu Hut. apply rest_neutral. eapply (R_others _ _ _ _ R); eassumption. }
        destruct (flush_step q0 s t c p (R_pc _ _ _ _ R) (R_busy _ _ _ _ R) Q2 Hph) as (p2 & T1 & T2).
        pose proof (R_pc _ _ _ _ R1) as Hp1. rewrite T1, nth_error_upd in Hp1
          by (apply nth_error_Some; rewrite (R_pc _ _ _ _ R); discriminate).
        injection Hp1 as ->. exact T2.
      - pose proof (R_pc _ _ _ _ R1) as Hp1. cbn in Hp1. rewrite (R_pc _ _ _ _ R) in Hp1.
        injection Hp1 as <-. exact Hph. }
    destruct (step C s m) as [s1 l1] eqn:E1. cbn [fst snd] in *.
    destruct (exec C s1 ms) as [s2 l2] eqn:E2. injection He as <- <-.
    assert (Hret2 : ~ In (LReturn t) l2) by (intros Hx2; apply Hret; apply in_app_iff; auto).
    destruct (IH t s1 (ls ++ l1) p1 s2 l2 R1 Hms Hph1 E2 Hret2) as (p2 & R2 & F2).
    exists p2. rewrite app_assoc. auto.
Qed.

Lemma rest_no_hand (s : state) : at_rest s -> flat_map in_hand (thr s) = [].
Proof.
  intros (_ & H & _). apply flat_map_nil. intros x Hx. eapply Forall_forall in H; [|exact Hx].
  destruct H as [-> |[-> | ->]]; reflexivity.
Qed.

(** A flush alone ends in bounded time, adds nothing, and takes the oldest event
    (file, console) or all events (syslog) from the queue. *)
Lemma solo_flush t s ls ms s1 l1 : op = true -> reach C op n s ls -> at_rest s -> t <> 0 ->
  nth_error (thr s) t = Some Idle -> only t ms ->
  exec C s (MThread t CFlush :: ms) = (s1, l1) -> ~ In (LReturn t) l1 ->
  can_move C t s1 /\
  (forall k, advances C t s (MThread t CFlush :: ms) k -> k <= 22 + 100 * length (q s)) /\
  (forall c, In (LReturn t) (snd (step C s1 (MThread t c))) ->
     q (fst (step C s1 (MThread t c))) = (match c_kind C with KSyslog => [] | _ => tl (q s) end) /\
     written (l1 ++ snd (step C s1 (MThread t c))) =
       map (@q_ev E) (match c_kind C with KSyslog => q s | _ => firstn 1 (q s) end)).
Proof.
  intros Hop Hr Hrest Ht Hp Ho He Hret. destruct (rest_alive s Hrest) as [Ha Hfip].
  assert (Hlt : t < length (thr s)) by (apply nth_error_Some; congruence).
  assert (Hst : step C s (MThread t CFlush) = (s_thr s t (FTas KReturn), [])).
  { cbn [step]. rewrite Hp. cbn [step_thread]. rewrite Ha.
    destruct (Nat.eqb_spec t 0); [contradiction|]. reflexivity. }
  assert (R0 : Running t (s_thr s t (FTas KReturn)) ls (FTas KReturn)).
  { constructor; auto; try discriminate.
    - pose proof (reach_step C op n s ls (MThread t CFlush) Hr) as G. rewrite Hst in G. cbn in G.
      rewrite app_nil_r in G. exact G.
    - cbn. apply nth_error_upd. exact Hlt.
    - intros u x Hu Hut. cbn in Hu. rewrite nth_error_upd_other in Hu by exact Hut.
      destruct Hrest as (_ & H2 & _). eapply Forall_forall in H2; [exact H2|]. eapply nth_error_In. exact Hu. }
  pose proof He as He0. cbn [exec] in He. rewrite Hst in He.
  destruct (exec C (s_thr s t (FTas KReturn)) ms) as [s2 l2] eqn:E2. injection He as <- <-. cbn [app] in *.
  destruct (running_exec ms t _ _ _ s2 l2 R0 Ho E2 Hret) as (p2 & R2 & P2 & M2).
  destruct (flush_exec (q s) ms t _ _ _ s2 l2 R0 Ho eq_refl E2 Hret) as (p3 & R3 & F3).
  split; [eapply running_can; exact R2|]. split.
  - intros k Hk. apply adv_head in Hk. destruct Hk as (k' & Hk & Hle). rewrite Hst in Hk. cbn [fst] in Hk.
    specialize (M2 k' Hk). cbn [mu getk s_thr q] in M2. lia.
  - intros c Hin. clear p2 R2 M2. rename p3 into p2, R3 into R2.
    set (st3 := step C s2 (MThread t c)) in *.
    assert (Hr3 : reach C op n (fst st3) (ls ++ l2 ++ snd st3)).
    { pose proof (reach_step C op n _ _ (MThread t c) (R_reach _ _ _ _ R2)) as G.
      rewrite <- !app_assoc in *. exact G. }
    assert (Hfin : exists p', thr (fst st3) = upd (thr s2) t p' /\ flush_phase (q s) p' (fst st3) /\
                    p' = Idle /\ pushes_by t (snd st3) = []).
    { subst st3. cbn [step] in *. rewrite (R_pc _ _ _ _ R2) in *.
      destruct (busy_step s2 t c p2 (R_pc _ _ _ _ R2) (R_client _ _ _ _ R2) (R_nd _ _ _ _ R2) (R_busy _ _ _ _ R2))
        as (B0 & p' & B1 & B2 & B3 & B4).
      pose proof (reach_inv C op n _ _ sz dst (R_reach _ _ _ _ R2)) as HI.
      destruct (quiet_queue C s2 t p2 HI (R_pc _ _ _ _ R2)) as [Q1 Q2].
      { intros u x Hu Hut. apply rest_neutral. eapply (R_others _ _ _ _ R2); eassumption. }
      destruct (flush_step (q s) s2 t c p2 (R_pc _ _ _ _ R2) (R_busy _ _ _ _ R2) Q2 F3) as (p4 & T1 & T2).
      assert (p4 = p').
      { rewrite B1 in T1. assert (G : nth_error (upd (thr s2) t p') t = nth_error (upd (thr s2) t p4) t) by (rewrite T1; reflexivity).
        rewrite !nth_error_upd in G by (apply nth_error_Some; rewrite (R_pc _ _ _ _ R2); discriminate). congruence. }
      subst p4. exists p'. split; [exact T1|]. split; [exact T2|]. split; [apply B4; exact Hin|exact B0]. }
    destruct Hfin as (p' & T1 & T2 & -> & Hnp).
    assert (Hq3 : q (fst st3) = match c_kind C with KSyslog => [] | _ => tl (q s) end).
    { cbn in T2. destruct (c_kind C); exact T2. }
    split; [exact Hq3|].
    (* accounting *)
    pose proof (all_events C op n _ _ sz dst Hr3) as A3. pose proof (all_events C op n _ _ sz dst Hr) as A0.
    assert (Hacc : accepted (l2 ++ snd st3) = []).
    { assert (Hidle : nth_error (thr (fst st3)) t = Some Idle).
      { rewrite T1. apply nth_error_upd. apply nth_error_Some. rewrite (R_pc _ _ _ _ R2). discriminate. }
      pose proof (accepted_exactly C op n _ _ t Hr3 Hidle) as A1.
      pose proof (accepted_exactly C op n _ _ t Hr Hp) as A4.
      rewrite accepted_by_app, A4 in A1. unfold for_sink_by in A1.
      rewrite (pushes_by_app t ls), filter_app, map_app in A1. apply app_inv_head in A1.
      rewrite pushes_by_app, P2, Hnp in A1.
      transitivity (accepted_by t (l2 ++ snd st3)); [|exact A1].
      destruct st3 as [s3 l3] eqn:E3.
      apply (accepts_only t s ((MThread t CFlush :: ms) ++ [MThread t c]) s3).
      - apply Forall_app. split; [constructor; [reflexivity|exact Ho]|]. repeat constructor.
      - rewrite exec_app, He0. cbn [exec]. subst st3. rewrite E3, app_nil_r. reflexivity. }
    assert (Hhand : flat_map in_hand (thr (fst st3)) = []).
    { apply flat_map_nil. intros x Hx. apply In_nth_error in Hx. destruct Hx as (u & Hu). rewrite T1 in Hu.
      destruct (Nat.eq_dec u t) as [->|Hut].
      - rewrite nth_error_upd in Hu by (apply nth_error_Some; rewrite (R_pc _ _ _ _ R2); discriminate).
        injection Hu as <-. reflexivity.
      - rewrite nth_error_upd_other in Hu by exact Hut.
        destruct (R_others _ _ _ _ R2 u x Hu Hut) as [-> |[-> | ->]]; reflexivity. }
    destruct (opened_stays C n s ls) as (_ & L0 & _); [rewrite Hop in Hr; exact Hr|].
    destruct (opened_stays C n (fst st3) (ls ++ l2 ++ snd st3)) as (_ & L3 & _); [rewrite Hop in Hr3; exact Hr3|].
    unfold pending in A3, A0. rewrite Hhand, Hq3, L3 in A3. rewrite (rest_no_hand s Hrest), L0 in A0. cbn [app] in *.
    unfold accepted in A3, A0, Hacc. rewrite accepts_app, map_app, A0, Hacc, app_nil_r in A3.
    rewrite written_app, <- app_assoc in A3. apply app_inv_head in A3.
    destruct (c_kind C); cbn [map] in A3.
    + destruct (q s); cbn [map tl firstn] in *.
      * symmetry in A3. apply app_eq_nil in A3. apply A3.
      * change (q_ev e :: map (@q_ev E) l) with ([q_ev e] ++ map (@q_ev E) l) in A3.
        apply app_inv_tail in A3. auto.
    + destruct (q s); cbn [map tl firstn] in *.
      * symmetry in A3. apply app_eq_nil in A3. apply A3.
      * change (q_ev e :: map (@q_ev E) l) with ([q_ev e] ++ map (@q_ev E) l) in A3.
        apply app_inv_tail in A3. auto.
    + rewrite app_nil_r in A3. auto.
Qed.

End Solo.
