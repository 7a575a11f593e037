(** * The destructor of a sink with a worker returns (C22) *)
From Coq Require Import List Arith NArith Bool Lia.
From Verif Require Import Base LevelModel SinkModel SinkSpec SinkProofs SinkLabels SinkLife SinkProps SinkProgress.
Import ListNotations.

Section Return.
Context {E : Type}.
Variable C : cfg E.
Notation state := (state E).
Notation pc := (pc E).

(** Life with a destroyer, seen from thread [t]. *)
Lemma life_destroyer op s t p : Life C op s -> nth_error (thr s) t = Some p -> destroying p = true ->
  t <> 0 /\ exists w cs, thr s = w :: cs /\ worker_pc w = true /\
    (forall u x, nth_error (thr s) u = Some x -> u <> t -> u <> 0 -> x = Idle) /\
    dcond C op p w (fin s) (q s) /\ alive s = false /\ clients_idle s = false /\
    (w = WSize -> fin s = true) /\ (hw C op = false -> w = WDone).
Proof.
  intros HL Hp Hd. pose proof HL as (w & cs & Et & Hw & Hcs & Hhw & Hsz & Hm).
  assert (Ht : t <> 0).
  { intros ->. rewrite Et in Hp. cbn in Hp. injection Hp as ->.
    destruct p as [ |e|n e|n e| | | |k|k|k e|k oe|k|k|k|k|k|k| | | | | | | | | ]; try discriminate;
    destruct k; discriminate. }
  split; [exact Ht|]. exists w, cs. split; [exact Et|]. split; [exact Hw|].
  split. { intros u x Hu Hut Hu0. exact (destroyer_others C op s t p u x HL Hp Hd Hu Hut Hu0). }
  destruct t as [|t]; [congruence|]. rewrite Et in Hp. cbn in Hp.
  destruct Hm as [(M1 & _)|(l1 & p0 & l2 & M1 & M2 & M3 & M4 & M5)].
  { eapply Forall_forall in M1; [|eapply nth_error_In; exact Hp]. cbn in M1. congruence. }
  destruct (alive_false s w cs l1 p0 l2 Et M1 M4) as [A1 A2].
  assert (p = p0).
  { rewrite M1 in Hp. destruct (Nat.lt_ge_cases t (length l1)) as [Hlt|Hge].
    - rewrite nth_error_app1 in Hp by exact Hlt. apply nth_error_In in Hp.
      eapply Forall_forall in M2; [|exact Hp]. subst p. discriminate.
    - rewrite nth_error_app2 in Hp by lia. destruct (t - length l1) as [|k].
      + cbn in Hp. congruence.
      + cbn in Hp. apply nth_error_In in Hp. eapply Forall_forall in M3; [|exact Hp]. subst p. discriminate. }
  subst p0. auto.
Qed.

Lemma idle_frozen s u c : alive s = false -> clients_idle s = false -> nth_error (thr s) u = Some Idle ->
  step C s (MThread u c) = (s, []).
Proof.
  intros H1 H2 Hu. cbn [step]. rewrite Hu. cbn [step_thread]. rewrite H1, H2. destruct c; reflexivity.
Qed.

Lemma nth0_upd (l : list pc) u p : u <> 0 -> nth_error (upd l u p) 0 = nth_error l 0.
Proof. destruct l, u; cbn; congruence. Qed.

Lemma nth_error_upd (l : list pc) u p : u < length l -> nth_error (upd l u p) u = Some p.
Proof.
  intros H. rewrite nth_error_nth' with (d := Dead) by (rewrite upd_length; exact H).
  rewrite nth_upd_same by exact H. reflexivity.
Qed.

Lemma nth_error_upd_other (l : list pc) u v p : v <> u -> nth_error (upd l u p) v = nth_error l v.
Proof.
  revert u v. induction l as [|x l IH]; intros [|u] [|v] H; cbn; try reflexivity; try congruence.
  apply IH. lia.
Qed.

Section Buffered.
Variable op : bool.
Hypothesis lat : c_lat0 C = false.
Hypothesis sz : sizes_ok C.
Hypothesis dst : has_dest C op.
Hypothesis cap_pos : 1 <= c_cap C.

Definition past_store (p : pc) : bool :=
  match p with DNtf | DJoin | DClose | Dead => true | _ => false end.

(** Once finalisation is requested, no move increases the worker's measure. *)
Lemma worker_mu n s ls t p m : reach C op n s ls -> nth_error (thr s) t = Some p -> past_store p = true ->
  (exists p', nth_error (thr (fst (step C s m))) t = Some p' /\ past_store p' = true) /\
  (forall w, nth_error (thr s) 0 = Some w ->
     exists w', nth_error (thr (fst (step C s m))) 0 = Some w' /\
       (w' = w /\ mu C w' (length (q (fst (step C s m)))) <= mu C w (length (q s)) \/
        mu C w' (length (q (fst (step C s m)))) < mu C w (length (q s)) \/
        spurious m = true /\ mu C w' (length (q (fst (step C s m)))) < mu C w (length (q s)) + 100)).
Proof.
  intros Hr Hp Hs. pose proof (reach_life C op n s ls Hr) as HL.
  pose proof (reach_inv C op n s ls sz dst Hr) as HI.
  assert (Hd : destroying p = true) by (destruct p; auto; discriminate).
  destruct (life_destroyer op s t p HL Hp Hd) as (Ht & w & cs & Et & Hw & Ho & Hdc & A1 & A2 & Hsz & Hhw).
  assert (Hfin : fin s = true).
  { unfold dcond in Hdc. rewrite lat in Hdc. destruct p; try discriminate; tauto. }
  destruct m as [u c|k]; [|cbn; split; [eauto|]; intros x Hx; exists x; split; [exact Hx|]; left; auto].
  destruct (Nat.eq_dec u 0) as [->|Hu0].
  - (* the worker *)
    assert (Hw0 : nth_error (thr s) 0 = Some w) by (rewrite Et; reflexivity).
    cbn [step]. rewrite Hw0.
    destruct (quiet_queue C s 0 w HI Hw0) as [Q1 Q2].
    { intros v x Hv Hv0. destruct (Nat.eq_dec v t) as [->|Hvt].
      - rewrite Hp in Hv. injection Hv as <-. destruct p; try discriminate; repeat split.
      - rewrite (Ho v x Hv Hvt Hv0). repeat split. }
    assert (Hwi : w <> Idle) by (intros ->; discriminate).
    assert (D : w = WFin /\ c = CGo true \/ (w = WFin -> fin s = true /\ c <> CGo true)).
    { destruct w; try (right; discriminate). destruct c as [| | | | |[|]| | |]; auto; right; (split; [exact Hfin|discriminate]). }
    destruct D as [(-> & ->)|D].
    { cbn [step_thread fst]. split.
      - exists p. split; [|exact Hs]. cbn. rewrite nth_error_upd_other by exact Ht. exact Hp.
      - intros x Hx. injection Hx as <-. exists WWait. split; [cbn; rewrite Et; reflexivity|]. right; right. split; [reflexivity|].
        cbn [s_thr q mu]. destruct (length (q s)); cbn [Nat.eqb]; lia. }
    destruct (step_mu C cap_pos s 0 c w Hw0 (I_cap C s HI) Hwi Q2) as [Hsame|(w' & T1 & T2 & _)].
    { intros Hpr. exfalso. destruct w as [ |e|x e|x e| | | |k|k|k e|k oe|k|k|k|k|k|k| | | | | | | | | ]; try discriminate;
      destruct k; discriminate. }
    { exact D. }
    + rewrite Hsame. split; [eauto|]. intros x Hx. exists x. split; [rewrite Hw0; exact Hx|]. left. auto.
    + rewrite T1. split.
      * exists p. split; [|exact Hs]. rewrite nth_error_upd_other by exact Ht. exact Hp.
      * intros x Hx. injection Hx as <-. exists w'. split; [rewrite Et; reflexivity|]. right; left. exact T2.
  - destruct (Nat.eq_dec u t) as [->|Hut].
    + (* the destroyer *)
      cbn [step]. rewrite Hp. assert (Hlt : t < length (thr s)) by (apply nth_error_Some; congruence).
      assert (G : exists p', thr (fst (step_thread C s t c p)) = upd (thr s) t p' /\ past_store p' = true /\
                  q (fst (step_thread C s t c p)) = q s).
      { assert (Eself : thr s = upd (thr s) t p).
        { destruct (thr_split _ _ _ Hp) as (l1 & l2 & E1 & _ & E2). rewrite (E2 p). exact E1. }
        destruct p; try discriminate; cbn [step_thread].
        - eexists. split; [reflexivity|]. split; reflexivity.
        - destruct (nth_error (thr s) 0) as [[]|]; try (eexists; split; [exact Eself|split; reflexivity]).
          eexists. split; [reflexivity|]. split; reflexivity.
        - destruct (c_kind C); eexists; (split; [reflexivity|]; split; reflexivity).
        - eexists. split; [exact Eself|split; reflexivity]. }
      destruct G as (p' & G1 & G2 & G3). rewrite G1, G3. split.
      * exists p'. split; [apply nth_error_upd; exact Hlt|exact G2].
      * intros x Hx. exists x. rewrite nth0_upd by exact Ht. split; [exact Hx|]. left. auto.
    + destruct (nth_error (thr s) u) as [x|] eqn:Hu.
      * rewrite (Ho u x Hu Hut Hu0) in Hu. rewrite (idle_frozen s u c A1 A2 Hu). cbn [fst].
        split; [eauto|]. intros y Hy. exists y. split; [exact Hy|]. left. auto.
      * cbn [step]. rewrite Hu. cbn [fst].
        split; [eauto|]. intros y Hy. exists y. split; [exact Hy|]. left. auto.
Qed.

Lemma worker_bound s ms k : advances C 0 s ms k -> forall n ls t p w,
  reach C op n s ls -> nth_error (thr s) t = Some p -> past_store p = true ->
  nth_error (thr s) 0 = Some w -> k <= mu C w (length (q s)) + 100 * length (filter (@spurious E) ms).
Proof.
  induction 1 as [s|s m ms k Hmove Hadv IH|s m ms k Hsame Hadv IH]; intros n ls t p w Hr Hp Hs Hw.
  - lia.
  - destruct (worker_mu n s ls t p m Hr Hp Hs) as ((p' & P1 & P2) & HW).
    destruct (HW w Hw) as (w' & W1 & [(W2 & _)|W2]); [subst w'; congruence|].
    specialize (IH n _ t p' w' (reach_step C op n s ls m Hr) P1 P2 W1). cbn [filter]. destruct (spurious m); cbn [length]; destruct W2 as [W2|(W2 & W3)]; try discriminate; lia.
  - destruct (worker_mu n s ls t p m Hr Hp Hs) as ((p' & P1 & P2) & HW).
    destruct (HW w Hw) as (w' & W1 & W2).
    specialize (IH n _ t p' w' (reach_step C op n s ls m Hr) P1 P2 W1). cbn [filter]. destruct (spurious m); cbn [length]; destruct W2 as [W2|[W2|(W2 & W3)]]; try discriminate; lia.
Qed.

Lemma mu_worker w n : worker_pc w = true -> mu C w n <= 200 + 100 * n.
Proof.
  intros H. destruct w as [ |e|x e|x e| | | |k|k|k e|k oe|k|k|k|k|k|k| | | | | | | | | ]; try discriminate;
  try (destruct k; try discriminate); cbn [mu getk tailk]; try lia;
  destruct (Nat.eqb n 0); lia.
Qed.

(** Own moves of the destroyer. *)
Definition dleft (p : pc) : nat :=
  match p with DStore => 4 | DNtf => 3 | DJoin => 2 | DClose => 1 | _ => 0 end.

Lemma destroyer_step n s ls t p m : reach C op n s ls -> nth_error (thr s) t = Some p -> destroying p = true ->
  exists p', nth_error (thr (fst (step C s m))) t = Some p' /\ destroying p' = true /\
    (p' = p \/ dleft p' < dleft p).
Proof.
  intros Hr Hp Hd. pose proof (reach_life C op n s ls Hr) as HL.
  destruct (life_destroyer op s t p HL Hp Hd) as (Ht & w & cs & Et & Hw & Ho & Hdc & A1 & A2 & Hsz & Hhw).
  unfold dcond in Hdc. rewrite lat in Hdc.
  destruct m as [u c|k]; [|cbn; eauto]. cbn [step].
  destruct (nth_error (thr s) u) as [x|] eqn:Hu; [|eauto].
  destruct (Nat.eq_dec u t) as [->|Hut].
  - rewrite Hp in Hu. injection Hu as <-. assert (Hlt : t < length (thr s)) by (apply nth_error_Some; congruence).
    destruct p; try contradiction; cbn [step_thread].
    + exists DNtf. split; [apply nth_error_upd; exact Hlt|]. split; [reflexivity|]. right. cbn. lia.
    + exists DJoin. split; [apply nth_error_upd; exact Hlt|]. split; [reflexivity|]. right. cbn. lia.
    + destruct (nth_error (thr s) 0) as [[]|]; cbn [fst];
        try (exists DJoin; split; [exact Hp|]; split; [reflexivity|]; left; reflexivity).
      exists DClose. split; [apply nth_error_upd; exact Hlt|]. split; [reflexivity|]. right. cbn. lia.
    + destruct (c_kind C); cbn [fst]; exists Dead; (split; [apply nth_error_upd; exact Hlt|]; split; [reflexivity|]; right; cbn; lia).
    + exists Dead. split; [exact Hp|]. split; [reflexivity|]. left. reflexivity.
  - destruct (step_own C s u c x Hu) as (_ & x' & Ex). rewrite Ex. exists p.
    rewrite nth_error_upd_other by auto. auto.
Qed.

Lemma destroyer_bound s ms t k : advances C t s ms k -> forall n ls p,
  reach C op n s ls -> nth_error (thr s) t = Some p -> destroying p = true -> k <= dleft p.
Proof.
  induction 1 as [s|s m ms k Hmove Hadv IH|s m ms k Hsame Hadv IH]; intros n ls p Hr Hp Hd.
  - lia.
  - destruct (destroyer_step n s ls t p m Hr Hp Hd) as (p' & P1 & P2 & [P3|P3]); [subst; congruence|].
    specialize (IH n _ p' (reach_step C op n s ls m Hr) P1 P2). lia.
  - destruct (destroyer_step n s ls t p m Hr Hp Hd) as (p' & P1 & P2 & P3).
    specialize (IH n _ p' (reach_step C op n s ls m Hr) P1 P2).
    destruct P3 as [->|P3]; lia.
Qed.

Lemma can_from s t p : nth_error (thr s) t = Some p ->
  (exists c p', thr (fst (step_thread C s t c p)) = upd (thr s) t p' /\ p' <> p) -> can_move C t s.
Proof.
  intros Hp (c & p' & H1 & H2). exists c. cbn [step]. rewrite Hp, H1.
  rewrite nth_error_upd by (apply nth_error_Some; congruence). congruence.
Qed.

Lemma someone_moves n s ls t p : reach C op n s ls -> nth_error (thr s) t = Some p ->
  destroying p = true -> p = Dead \/ can_move C t s \/ can_move C 0 s.
Proof.
  intros Hr Hp Hd. pose proof (reach_life C op n s ls Hr) as HL.
  pose proof (reach_inv C op n s ls sz dst Hr) as HI.
  destruct (life_destroyer op s t p HL Hp Hd) as (Ht & w & cs & Et & Hw & Ho & Hdc & A1 & A2 & Hsz & Hhw).
  unfold dcond in Hdc. rewrite lat in Hdc.
  assert (Hw0 : nth_error (thr s) 0 = Some w) by (rewrite Et; reflexivity).
  destruct p; try contradiction; auto.
  - right. left. eapply can_from; [exact Hp|]. apply step_can; auto.
  - right. left. eapply can_from; [exact Hp|]. apply step_can; auto.
  - right. destruct w eqn:Ew; try discriminate Hw.
    14:{ left. eapply can_from; [exact Hp|]. apply step_can; [exact Hp| |exact I].
         intros G. exact (G Hw0). }
    all: right; (eapply can_from; [exact Hw0|]); apply step_can; try exact Hw0; try (intros []; fail); auto.
    destruct (quiet_queue C s 0 w HI) as [Q1 Q2].
    { rewrite Ew. exact Hw0. }
    { intros v x Hv Hv0. destruct (Nat.eq_dec v t) as [->|Hvt].
      - rewrite Hp in Hv. injection Hv as <-. repeat split.
      - rewrite (Ho v x Hv Hvt Hv0). repeat split. }
    apply Q1; rewrite Ew; reflexivity.
  - right. left. eapply can_from; [exact Hp|]. apply step_can; auto.
Qed.

End Buffered.

(** ** C22 *)
Lemma destroyed_complete n s ls t : sizes_ok C -> c_lat0 C = false -> reach C true n s ls ->
  In (LDestroyed t) ls ->
  written ls = accepted ls /\
  (c_kind C <> KSyslog -> concat (files s) = concat (map (c_render C) (accepted ls))) /\
  (c_kind C = KFile -> disk s = files s).
Proof.
  intros Hs Hl Hr Hin. pose proof (reach_life C true n s ls Hr) as HL.
  destruct (destroyed_dead C true n s ls t Hr Hin) as [D1 D2].
  destruct (closing_worker C true s t HL (or_intror D1)) as (_ & _ & Hq).
  assert (Hw : written ls = accepted ls).
  { rewrite (syslog_in_order C n s ls Hs Hr). unfold pending.
    rewrite (dead_no_hand C true s t HL D1), Hq by (unfold hw; rewrite Hl; reflexivity).
    cbn. rewrite app_nil_r. reflexivity. }
  split; [exact Hw|]. split.
  - intros Hk. rewrite <- Hw. eapply output_is_accepted; eassumption.
  - intros Hk. unfold disk, files. rewrite (D2 Hk), app_nil_r. reflexivity.
Qed.

Lemma destructor_returns n s ls t p : sizes_ok C -> c_lat0 C = false -> 1 <= c_cap C ->
  reach C true n s ls -> nth_error (thr s) t = Some p -> destroying p = true ->
  (p = Dead \/ can_move C t s \/ can_move C 0 s) /\
  (forall ms k, advances C t s ms k -> k <= 4) /\
  (fin s = true -> forall ms k, advances C 0 s ms k ->
     k <= 200 + 100 * length (q s) + 100 * length (filter (@spurious E) ms)).
Proof.
  intros Hs Hl Hc Hr Hp Hd. assert (Hde : has_dest C true) by (right; reflexivity).
  split; [eapply someone_moves; eassumption|]. split.
  - intros ms k Ha. pose proof (destroyer_bound true Hl Hc s ms t k Ha n ls p Hr Hp Hd).
    assert (dleft p <= 4) by (destruct p; cbn; lia). lia.
  - intros Hf ms k Ha.
    destruct (life_destroyer true s t p (reach_life C true n s ls Hr) Hp Hd)
      as (Ht & w & cs & Et & Hw & Ho & Hdc & A1 & A2 & Hsz & Hhw).
    assert (Hw0 : nth_error (thr s) 0 = Some w) by (rewrite Et; reflexivity).
    unfold dcond in Hdc. rewrite Hl in Hdc.
    assert (Hpast : past_store p = true).
    { destruct p; try contradiction; try reflexivity. destruct Hdc. congruence. }
    pose proof (worker_bound true Hl Hs Hde Hc s ms k Ha n ls t p w Hr Hp Hpast Hw0).
    pose proof (mu_worker Hc w (length (q s)) Hw). lia.
Qed.

End Return.
