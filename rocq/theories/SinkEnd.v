(** * Fair executions bring the destruction of a sink to its end (C119) *)
From Coq Require Import List Arith NArith Bool Lia.
From Verif Require Import Base LevelModel SinkModel SinkSpec SinkProofs SinkLabels SinkLife SinkProps SinkProgress SinkReturn SinkFair.
Import ListNotations.

Section End.
Context {E : Type}.
Variable C : cfg E.
Notation state := (state E).
Notation pc := (pc E).
Hypothesis cap_pos : 1 <= c_cap C.
Hypothesis sz : sizes_ok C.
Variable op : bool.
Hypothesis dst : has_dest C op.

Definition mus (s : state) : nat := sumf (fun p => mu C p (length (q s))) (thr s).
Definition delta (s : state) : nat := if fin s || c_lat0 C then mus s else 210 + 100 * length (q s).

Definition KeyD (k : nat) (s : state) : Prop :=
  exists p, nth_error (thr s) k = Some p /\
    (destroying p = true /\ p <> Dead /\ (p = DJoin -> nth_error (thr s) 0 = Some WDone) \/
     k = 0 /\ p <> WDone /\ exists t, nth_error (thr s) t = Some DJoin).

(** Not alive: somebody destroys. *)
Lemma destroyer_is s : Life C op s -> alive s = false -> exists t p, nth_error (thr s) t = Some p /\ destroying p = true.
Proof.
  intros (w & cs & Et & _) Ha. unfold alive in Ha. rewrite Et in *. cbn [tl] in Ha. clear Et.
  assert (EX : exists t p, nth_error cs t = Some p /\ destroying p = true).
  { induction cs as [|x cs IH]; [discriminate|]. cbn in Ha. destruct (destroying x) eqn:Ex.
    - exists 0, x. auto.
    - destruct (IH Ha) as (t & p & H). exists (S t), p. exact H. }
  destruct EX as (t & p & H). exists (S t), p. exact H.
Qed.

Lemma not_alive s t p : Life C op s -> nth_error (thr s) t = Some p -> destroying p = true -> alive s = false.
Proof. intros HL Hp Hd. destruct (life_destroyer C op s t p HL Hp Hd) as (_ & w & cs & _ & _ & _ & _ & A & _). exact A. Qed.

(** The sum when only the worker and the destroyer count. *)
Lemma mus_two s t p w cs k : thr s = w :: cs -> nth_error (thr s) t = Some p -> t <> 0 ->
  (forall u x, nth_error (thr s) u = Some x -> u <> t -> u <> 0 -> x = Idle) ->
  sumf (fun x => mu C x k) (thr s) = mu C w k + mu C p k.
Proof.
  intros Et Hp Ht Ho. rewrite Et in *. cbn [sumf]. f_equal. destruct t as [|t]; [congruence|]. cbn [nth_error] in Hp. clear Et Ht.
  assert (H : forall u x, nth_error cs u = Some x -> u <> t -> x = Idle) by (intros u x Hu Hn; apply (Ho (S u) x); [exact Hu|congruence|discriminate]).
  clear Ho. revert t Hp H. induction cs as [|x cs IH]; intros t Hp H; [destruct t; discriminate|]. cbn [sumf]. destruct t as [|t].
  - cbn in Hp. injection Hp as ->. assert (Z : sumf (fun x => mu C x k) cs = 0); [|lia].
    assert (G : forall u y, nth_error cs u = Some y -> y = Idle) by (intros u y Hu; apply (H (S u) y Hu); discriminate).
    clear H IH. induction cs as [|y cs IH]; [reflexivity|]. cbn [sumf]. rewrite (G 0 y eq_refl), (IH (fun u => G (S u))). reflexivity.
  - rewrite (H 0 x eq_refl) by discriminate. cbn [mu]. rewrite (IH t Hp); [lia|]. intros u y Hu Hn. apply (H (S u) y Hu). congruence.
Qed.

Lemma worker_q s c w : nth_error (thr s) 0 = Some w -> worker_pc w = true -> calls c = false ->
  length (q (fst (step C s (MThread 0 c)))) <= length (q s).
Proof.
  intros Hw Hp Hc. cbn [step]. rewrite Hw. pose proof (step_kind C s 0 c w Hw Hc) as K.
  destruct K as [p s' H1 H2 H3|e n s' H1 H2|e s' H1 (H2 & H3 & H4)|k x r s' H0 H1 (H2 & H3 & H4)|k p' s' H H0 H1 H5 (H2 & H3 & H4)
    |k s' H (H2 & H3 & H4)|k s' H (H2 & H3 & H4)|k s' (H2 & H3 & H4)|n e s' H|n e s' H|p p' s' _ _ _ _ (H2 & H3 & H4)|p p' s' _ _ _ _ _ _ _ _ _ _ (H2 & H3 & H4)];
    try discriminate Hp; try (rewrite H3; lia); try (rewrite H2; lia).
  rewrite H3, H0. cbn. lia.
Qed.

Definition holds (s s' : state) : Prop :=
  delta s' = delta s /\ forall k, KeyD k s -> KeyD k s' /\ nth_error (thr s') k = nth_error (thr s) k.

Lemma same_holds s s' : thr s' = thr s -> q s' = q s -> fin s' = fin s -> holds s s'.
Proof.
  intros H1 H2 H3. unfold holds, delta, mus, KeyD. rewrite H1, H2, H3. auto.
Qed.

Ltac split_step :=
  repeat match goal with
  | |- context [match ?x with _ => _ end] =>
      match type of x with
      | choice _ => destruct x
      | bool => destruct x eqn:?
      | list _ => destruct x eqn:?
      | option _ => destruct x eqn:?
      | stage => destruct x eqn:?
      | sink_kind => destruct x eqn:?
      | reopen => destruct x
      | SinkModel.pc _ => destruct x eqn:?
      end
  end.

Lemma end_step n s ls m : reach C op n s ls -> no_call m -> alive s = false ->
  alive (fst (step C s m)) = false /\
  (delta (fst (step C s m)) < delta s \/ holds s (fst (step C s m)) \/ spurious m = true /\ delta (fst (step C s m)) < delta s + 100).
Proof.
  intros Hr Hm Ha. pose proof (reach_life C op n s ls Hr) as HL. pose proof (reach_inv C op n s ls sz dst Hr) as HI.
  pose proof (step_life C op s m HL) as HL'.
  destruct (destroyer_is s HL Ha) as (t & p & Hp & Hd).
  destruct (life_destroyer C op s t p HL Hp Hd) as (Ht & w & cs & Et & Hw & Ho & Hdc & A1 & A2 & Hsz & Hhw).
  assert (Hlt : t < length (thr s)) by (apply nth_error_Some; congruence).
  assert (Hw0 : nth_error (thr s) 0 = Some w) by (rewrite Et; reflexivity).
  assert (NOTHING : forall s', s' = s -> alive s' = false /\ (delta s' < delta s \/ holds s s' \/ spurious m = true /\ delta s' < delta s + 100)).
  { intros s' ->. split; [exact Ha|]. right. left. apply same_holds; reflexivity. }
  destruct m as [u c|k].
  2:{ split; [exact Ha|]. right. left. apply same_holds; reflexivity. }
  destruct (nth_error (thr s) u) as [x|] eqn:Hu; [|apply NOTHING; cbn [step]; rewrite Hu; reflexivity].
  destruct (Nat.eq_dec u 0) as [->|Hu0]; [|destruct (Nat.eq_dec u t) as [->|Hut]].
  - (* the worker *)
    rewrite Hw0 in Hu. injection Hu as <-.
    destruct (step_own C s 0 c w Hw0) as (_ & w' & Ew). assert (Es : step C s (MThread 0 c) = step_thread C s 0 c w) by (cbn [step]; rewrite Hw0; reflexivity).
    assert (Hp' : nth_error (thr (fst (step C s (MThread 0 c)))) t = Some p).
    { rewrite Es, Ew, nth_error_upd_other by exact Ht. exact Hp. }
    split; [exact (not_alive _ t p HL' Hp' Hd)|].
    destruct (c_lat0 C) eqn:Hl.
    { assert (w = WDone) by (apply Hhw; unfold hw; rewrite Hl; reflexivity). subst w. apply NOTHING. rewrite Es. reflexivity. }
    destruct (life_destroyer C op _ t p HL' Hp' Hd) as (_ & w1 & cs1 & Et1 & Hw1 & Ho1 & Hdc1 & _).
    assert (w1 = w'). { rewrite Es, Ew, Et in Et1. cbn in Et1. congruence. } subst w1.
    set (s' := fst (step C s (MThread 0 c))) in *.
    destruct (past_store p) eqn:Hps.
    + destruct (worker_mu C op Hl sz dst cap_pos n s ls t p (MThread 0 c) Hr Hp Hps) as (_ & WM). fold s' in WM.
      destruct (WM w Hw0) as (w2 & W1 & W2). assert (w2 = w') by (rewrite Et1 in W1; cbn in W1; congruence). subst w2.
      unfold dcond in Hdc, Hdc1. rewrite Hl in Hdc, Hdc1.
      assert (F : fin s = true /\ fin s' = true) by (destruct p; try discriminate Hps; tauto). destruct F as [F F'].
      assert (D : delta s = mu C w (length (q s)) + mu C p (length (q s))) by (unfold delta; rewrite F; apply (mus_two s t p w cs); auto).
      assert (D' : delta s' = mu C w' (length (q s')) + mu C p (length (q s'))) by (unfold delta; rewrite F'; apply (mus_two s' t p w' cs1); auto).
      assert (MP : mu C p (length (q s')) = mu C p (length (q s))) by (destruct p; try discriminate Hps; reflexivity).
      rewrite D, D', MP. destruct W2 as [(-> & W2)|[W2|(W2 & W3)]]; [|left; lia|right; right; split; [exact W2|lia]].
      assert (Q : mu C w (length (q s')) < mu C w (length (q s)) \/ mu C w (length (q s')) = mu C w (length (q s))) by lia.
      destruct Q as [Q|Q]; [left; lia|]. right. left. split; [rewrite D, D'; lia|].
      assert (T : thr s' = thr s) by (unfold s'; rewrite Es, Ew, Et; reflexivity).
      intros k (y & Y1 & Y2). split; [|rewrite T; reflexivity]. exists y. rewrite T. auto.
    + unfold dcond in Hdc, Hdc1. rewrite Hl in Hdc, Hdc1. destruct p; try contradiction; try discriminate Hps.
      destruct Hdc as [F _]. destruct Hdc1 as [F' _].
      pose proof (worker_q s c w Hw0 Hw Hm) as LQ. fold s' in LQ.
      assert (D : delta s = 210 + 100 * length (q s)) by (unfold delta; rewrite F, Hl; reflexivity).
      assert (D' : delta s' = 210 + 100 * length (q s')) by (unfold delta; rewrite F', Hl; reflexivity).
      destruct (Nat.eq_dec (length (q s')) (length (q s))) as [Q|Q]; [|left; lia]. right. left. split; [rewrite D, D', Q; reflexivity|].
      intros k (y & Y1 & [(Y2 & Y3 & Y4)|(Y2 & Y3 & v & Y4)]).
      * assert (k = t).
        { destruct (Nat.eq_dec k t) as [|Hkt]; [assumption|exfalso]. destruct (Nat.eq_dec k 0) as [->|Hk0].
          - rewrite Hw0 in Y1. injection Y1 as ->. clear - Hw Y2. destruct y as [ |e|x e|x e| | | |k|k|k e|k oe|k|k|k|k|k|k| | | | | | | | | ]; try discriminate; destruct k; discriminate.
          - rewrite (Ho k y Y1 Hkt Hk0) in Y2. discriminate. }
        subst k. rewrite Hp in Y1. injection Y1 as <-. split; [|congruence]. exists DStore. split; [exact Hp'|]. left. split; [reflexivity|]. split; discriminate.
      * exfalso. destruct (Nat.eq_dec v t) as [->|Hvt]; [congruence|]. destruct (Nat.eq_dec v 0) as [->|Hv0].
        -- rewrite Hw0 in Y4. injection Y4 as ->. discriminate Hw.
        -- specialize (Ho v DJoin Y4 Hvt Hv0). discriminate.
  - (* the destroyer *)
    rewrite Hp in Hu. injection Hu as <-.
    destruct (step_own C s t c p Hp) as (_ & p' & Ep). assert (Es : step C s (MThread t c) = step_thread C s t c p) by (cbn [step]; rewrite Hp; reflexivity).
    assert (Hp' : nth_error (thr (fst (step C s (MThread t c)))) t = Some p') by (rewrite Es, Ep; apply nth_error_upd; exact Hlt).
    assert (Hd' : destroying p' = true).
    { clear - Hdc Hd Ep Hp Hlt. destruct p as [ |e|x e|x e| | | |k|k|k e|k oe|k|k|k|k|k|k| | | | | | | | | ]; try discriminate Hd; try (destruct k; try discriminate Hd);
        cbn [step_thread] in Ep; revert Ep; split_step; cbn [fst s_thr s_flags s_out s_q thr]; intros Ep;
        match goal with
        | Ep : upd (thr s) t ?a = upd (thr s) t p' |- _ =>
            assert (XX : a = p') by (apply (f_equal (fun l => nth_error l t)) in Ep; rewrite !nth_error_upd in Ep by (apply nth_error_Some; congruence); congruence);
            subst p'; try reflexivity; try (destruct (c_kind C); reflexivity)
        | Ep : thr s = upd (thr s) t p' |- _ =>
            apply (f_equal (fun l => nth_error l t)) in Ep; rewrite nth_error_upd in Ep by exact Hlt; rewrite Hp in Ep; injection Ep as <-; reflexivity
        end. }
    pose proof (not_alive _ t p' HL' Hp' Hd') as Ha'. split; [exact Ha'|].
    destruct (life_destroyer C op _ t p' HL' Hp' Hd') as (_ & w1 & cs1 & Et1 & Hw1 & Ho1 & Hdc1 & _).
    assert (w1 = w). { rewrite Es, Ep, Et in Et1. destruct t as [|t]; [congruence|]. cbn [upd] in Et1. congruence. } subst w1.
    destruct (c_lat0 C) eqn:Hl.
    + assert (w = WDone) by (apply Hhw; unfold hw; rewrite Hl; reflexivity). subst w.
      assert (NW : forall v y, nth_error (thr s) v = Some y -> v <> t -> neutral y).
      { intros v y Hv Hvt. destruct (Nat.eq_dec v 0) as [->|Hv0]; [rewrite Hw0 in Hv; injection Hv as <-|rewrite (Ho v y Hv Hvt Hv0)]; repeat split. }
      destruct (quiet_queue C s t p HI Hp NW) as [Q1 Q2].
      assert (P1 : p <> Idle) by (intros ->; discriminate).
      assert (P2 : post_retry p = true -> length (q s) < c_cap C).
      { intros G. exfalso. clear - G Hd. destruct p as [ |e|x e|x e| | | |k|k|k e|k oe|k|k|k|k|k|k| | | | | | | | | ]; try discriminate; destruct k; discriminate. }
      assert (P3 : p = WFin -> fin s = true /\ c <> CGo true) by (intros ->; discriminate).
      destruct (step_mu C cap_pos s t c p Hp (I_cap C s HI) P1 Q2 P2 P3) as [Hsame|(p2 & T1 & T2 & _)].
      * apply NOTHING. rewrite Es. exact Hsame.
      * left. rewrite Es in *. set (s' := fst (step_thread C s t c p)) in *.
        assert (p2 = p') by (apply (f_equal (fun l => nth_error l t)) in T1; rewrite Hp', nth_error_upd in T1 by exact Hlt; congruence). subst p2.
        unfold delta. rewrite Hl, !orb_true_r. unfold mus. rewrite (mus_two s t p WDone cs) by auto. rewrite (mus_two s' t p' WDone cs1) by auto. cbn [mu]. exact T2.
    + pose proof (mu_worker C cap_pos w (length (q s)) Hw) as MW.
      unfold dcond in Hdc, Hdc1. rewrite Hl in Hdc, Hdc1. rewrite Es in *. set (s' := fst (step_thread C s t c p)) in *.
      destruct p; try contradiction.
      * assert (p' = DNtf) by (unfold s' in Ep; cbn [step_thread fst s_thr s_flags thr] in Ep; apply (f_equal (fun l => nth_error l t)) in Ep; rewrite !nth_error_upd in Ep by exact Hlt; congruence). subst p'.
        left. destruct Hdc as [F _]. destruct Hdc1 as [F' _]. unfold delta. rewrite F, F', Hl. cbn [orb].
        unfold mus. rewrite (mus_two s' t DNtf w cs1) by auto. change (q s') with (q s). cbn [mu]. lia.
      * assert (p' = DJoin) by (unfold s' in Ep; cbn [step_thread fst s_thr s_flags thr] in Ep; apply (f_equal (fun l => nth_error l t)) in Ep; rewrite !nth_error_upd in Ep by exact Hlt; congruence). subst p'.
        left. destruct Hdc as [F _]. destruct Hdc1 as [F' _]. unfold delta. rewrite F, F'. cbn [orb].
        unfold mus. rewrite (mus_two s t DNtf w cs), (mus_two s' t DJoin w cs1) by auto. change (q s') with (q s). cbn [mu]. lia.
      * assert (CS : s' = s \/ s' = s_thr s t DClose).
        { unfold s'. cbn [step_thread]. destruct (nth_error (thr s) 0) as [[]|]; auto. }
        destruct CS as [CS|CS]; [apply NOTHING; exact CS|].
        assert (p' = DClose) by (rewrite CS in Hp'; cbn [thr s_thr] in Hp'; rewrite nth_error_upd in Hp' by exact Hlt; congruence). subst p'.
        left. destruct Hdc as [F _]. destruct Hdc1 as [F' _]. unfold delta. rewrite F, F'. cbn [orb].
        unfold mus. rewrite (mus_two s t DJoin w cs), (mus_two s' t DClose w cs1) by auto. rewrite CS. cbn [q s_thr mu]. lia.
      * assert (p' = Dead /\ q s' = q s).
        { unfold s' in *. cbn [step_thread] in *. destruct (c_kind C); (split; [|reflexivity]); cbn [fst s_thr s_out thr] in Ep;
            apply (f_equal (fun l => nth_error l t)) in Ep; rewrite !nth_error_upd in Ep by exact Hlt; congruence. }
        destruct H as [-> Q].
        left. destruct Hdc as [F _]. destruct Hdc1 as [F' _]. unfold delta. rewrite F, F'. cbn [orb].
        unfold mus. rewrite (mus_two s t DClose w cs), (mus_two s' t Dead w cs1) by auto. rewrite Q. cbn [mu]. lia.
      * apply NOTHING. reflexivity.
  - apply NOTHING. rewrite (Ho u x Hu Hut Hu0) in Hu. rewrite (idle_frozen C s u c A1 A2 Hu). reflexivity.
Qed.

(** Who is waited for can move. *)
Lemma keyd_moves n s ls k : reach C op n s ls -> alive s = false -> KeyD k s ->
  (exists c, calls c = false /\ c <> CGo true /\ nth_error (thr (fst (step C s (MThread k c)))) k <> nth_error (thr s) k) /\
  exists p, nth_error (thr s) k = Some p /\ p <> Idle /\ p <> Dead.
Proof.
  intros Hr Ha (p & Hp & HK). pose proof (reach_life C op n s ls Hr) as HL. pose proof (reach_inv C op n s ls sz dst Hr) as HI.
  destruct (destroyer_is s HL Ha) as (t & d & Hd1 & Hd2).
  destruct (life_destroyer C op s t d HL Hd1 Hd2) as (Ht & w & cs & Et & Hw & Ho & Hdc & A1 & A2 & Hsz & Hhw).
  assert (Hw0 : nth_error (thr s) 0 = Some w) by (rewrite Et; reflexivity).
  assert (PUB : (forall v y, nth_error (thr s) v = Some y -> v <> k -> neutral y) -> adding p = [] -> releasing p = [] -> left_of (q s) = 0).
  { intros G1 G2 G3. destruct (quiet_queue C s k p HI Hp G1) as [Q1 _]. specialize (Q1 G2 G3). destruct (q s) as [|y r]; [reflexivity|].
    inversion Q1 as [|? ? Y1 _]; subst. cbn [left_of]. rewrite Y1. reflexivity. }
  assert (KT : destroying p = true -> k = t).
  { intros Hd. destruct (Nat.eq_dec k t) as [|Hkt]; [assumption|exfalso]. destruct (Nat.eq_dec k 0) as [->|Hk0].
    - rewrite Hw0 in Hp. injection Hp as ->. clear - Hw Hd. destruct p as [ |e|x e|x e| | | |k|k|k e|k oe|k|k|k|k|k|k| | | | | | | | | ]; try discriminate; destruct k; discriminate.
    - rewrite (Ho k p Hp Hkt Hk0) in Hd. discriminate. }
  assert (NF : left_of (q s) = 0 \/ (forall kk, p <> FGet kk)).
  { destruct p as [ |e|x e|x e| | | |kk|kk|kk e|kk oe|kk|kk|kk|kk|kk|kk| | | | | | | | | ]; try (right; discriminate). left.
    destruct HK as [(H1 & _ & _)|(H1 & _ & v & H2)].
    - specialize (KT H1). subst k. rewrite Hd1 in Hp. injection Hp as ->. apply PUB; try reflexivity.
      intros v y Hv Hvt. destruct (Nat.eq_dec v 0) as [->|Hv0]; [|rewrite (Ho v y Hv Hvt Hv0); repeat split].
      rewrite Hw0 in Hv. injection Hv as <-. unfold dcond in Hdc. destruct (c_lat0 C) eqn:Hl; [|destruct Hdc].
      rewrite (Hhw ltac:(unfold hw; rewrite Hl; reflexivity)). repeat split.
    - subst k. apply PUB; try reflexivity. intros u y Hu Hu0. destruct (Nat.eq_dec u t) as [->|Hut]; [|rewrite (Ho u y Hu Hut Hu0); repeat split].
      rewrite Hd1 in Hu. injection Hu as <-. destruct (Nat.eq_dec v t) as [->|Hvt]; [rewrite Hd1 in H2; injection H2 as ->; repeat split|].
      destruct (Nat.eq_dec v 0) as [->|Hv0]; [congruence|]. specialize (Ho v DJoin H2 Hvt Hv0). discriminate. }
  assert (PI : p <> Idle /\ p <> Dead /\ p <> WDone /\ (p = DJoin -> w = WDone) /\ adding p = [] /\ releasing p = [] /\ (forall e, p <> PPut e) /\ p <> PDecide /\ p <> RStore /\ p <> RAsync).
  { destruct HK as [(H1 & H2 & H3)|(H1 & H2 & v & H3)].
    - split; [intros ->; discriminate|]. split; [exact H2|]. split; [intros ->; discriminate|]. split; [intros G; specialize (H3 G); congruence|].
      repeat split; try (intros ->; discriminate); try (intros e ->; discriminate);
      destruct p as [ |e|x e|x e| | | |k0|k0|k0 e|k0 oe|k0|k0|k0|k0|k0|k0| | | | | | | | | ]; try discriminate; reflexivity.
    - subst k. rewrite Hw0 in Hp. injection Hp as ->. repeat split; try (intros ->; discriminate); try (intros e ->; discriminate); try assumption;
      destruct p as [ |e|x e|x e| | | |k0|k0|k0 e|k0 oe|k0|k0|k0|k0|k0|k0| | | | | | | | | ]; try discriminate; reflexivity. }
  destruct PI as (P1 & P2 & P3 & P4 & P5 & P6 & P7 & P8 & P9 & P10). split; [|exists p; auto].
  assert (FROM : (exists c, calls c = false /\ c <> CGo true /\ exists p', thr (fst (step_thread C s k c p)) = upd (thr s) k p' /\ p' <> p) ->
      exists c, calls c = false /\ c <> CGo true /\ nth_error (thr (fst (step C s (MThread k c)))) k <> nth_error (thr s) k).
  { intros (c & Hcc & Hcg & p' & H1 & H2). exists c. split; [exact Hcc|]. split; [exact Hcg|]. cbn [step]. rewrite Hp, H1.
    rewrite nth_error_upd by (apply nth_error_Some; congruence). congruence. }
  apply FROM. clear FROM.
  destruct p as [ |e|x e|x e| | | |kk|kk|kk e|kk oe|kk|kk|kk|kk|kk|kk| | | | | | | | | ]; try congruence.
  - discriminate P5.
  - discriminate P6.
  - exists (CGo false). split; [reflexivity|]. split; [discriminate|]. cbn [step_thread]. destruct (fip s); (eexists; split; [reflexivity|]); [destruct kk|]; cbn; congruence.
  - destruct NF as [Hg|Hg]; [|destruct (Hg kk eq_refl)]. exists (CGo false). split; [reflexivity|]. split; [discriminate|]. cbn [step_thread]. unfold left_of in Hg. destruct (q s) as [|y r].
    + destruct (c_kind C); (eexists; split; [reflexivity|congruence]).
    + destruct (q_stage y); try discriminate. eexists. split; [reflexivity|congruence].
  - exists (CGo false). split; [reflexivity|]. split; [discriminate|]. cbn [step_thread]. destruct (c_kind C); (eexists; split; [reflexivity|congruence]).
  - exists (CGo false). split; [reflexivity|]. split; [discriminate|]. cbn [step_thread]. destruct oe; [destruct (opened s)|destruct (c_kind C)]; (eexists; split; [reflexivity|congruence]).
  - exists (CGo false). split; [reflexivity|]. split; [discriminate|]. cbn [step_thread]. destruct (ntf s); (eexists; split; [reflexivity|]); [congruence|]. destruct (c_kind C); congruence.
  - exists (CGo false). split; [reflexivity|]. split; [discriminate|]. cbn [step_thread]. eexists. split; [reflexivity|]. destruct (c_kind C); congruence.
  - exists (CGo false). split; [reflexivity|]. split; [discriminate|]. eexists. split; [reflexivity|congruence].
  - exists (CGo false). split; [reflexivity|]. split; [discriminate|]. cbn [step_thread]. destruct (ntr s); (eexists; split; [reflexivity|congruence]).
  - exists (COpen ROFail). split; [reflexivity|]. split; [discriminate|]. eexists. split; [reflexivity|congruence].
  - exists (CGo false). split; [reflexivity|]. split; [discriminate|]. eexists. split; [reflexivity|destruct kk; cbn; congruence].
  - exists (CWake true). split; [reflexivity|]. split; [discriminate|]. eexists. split; [reflexivity|congruence].
  - exists (CGo false). split; [reflexivity|]. split; [discriminate|]. eexists. split; [reflexivity|destruct (fin s); congruence].
  - exists (CGo false). split; [reflexivity|]. split; [discriminate|]. cbn [step_thread]. eexists. split; [reflexivity|]. destruct (q s); congruence.
  - exists (CGo false). split; [reflexivity|]. split; [discriminate|]. eexists. split; [reflexivity|congruence].
  - exists (CGo false). split; [reflexivity|]. split; [discriminate|]. eexists. split; [reflexivity|congruence].
  - exists (CGo false). split; [reflexivity|]. split; [discriminate|]. cbn [step_thread]. rewrite Hw0, (P4 eq_refl). eexists. split; [reflexivity|congruence].
  - exists (CGo false). split; [reflexivity|]. split; [discriminate|]. cbn [step_thread]. destruct (c_kind C); (eexists; split; [reflexivity|congruence]).
Qed.

Lemma keyd_exists n s ls t p : reach C op n s ls -> nth_error (thr s) t = Some p -> destroying p = true -> p <> Dead -> exists k, KeyD k s.
Proof.
  intros Hr Hp Hd Hn. pose proof (reach_life C op n s ls Hr) as HL.
  destruct (life_destroyer C op s t p HL Hp Hd) as (Ht & w & cs & Et & Hw & Ho & Hdc & A1 & A2 & Hsz & Hhw).
  assert (Hw0 : nth_error (thr s) 0 = Some w) by (rewrite Et; reflexivity).
  assert (D : (p = DJoin -> w = WDone) \/ p = DJoin /\ w <> WDone).
  { destruct p; try (left; discriminate). destruct w; auto; right; split; congruence. }
  destruct D as [D|[-> D]].
  - exists t, p. split; [exact Hp|]. left. split; [exact Hd|]. split; [exact Hn|]. intros G. rewrite Hw0, (D G). reflexivity.
  - exists 0, w. split; [exact Hw0|]. right. split; [reflexivity|]. split; [exact D|]. exists t. exact Hp.
Qed.

Lemma delta_bound n s ls : reach C op n s ls -> alive s = false -> delta s <= 220 + 100 * length (q s).
Proof.
  intros Hr Ha. pose proof (reach_life C op n s ls Hr) as HL. destruct (destroyer_is s HL Ha) as (t & p & Hp & Hd).
  destruct (life_destroyer C op s t p HL Hp Hd) as (Ht & w & cs & Et & Hw & Ho & Hdc & A1 & A2 & Hsz & Hhw).
  unfold delta. destruct (fin s || c_lat0 C) eqn:F; [|lia]. unfold mus. rewrite (mus_two s t p w cs) by auto.
  destruct (c_lat0 C) eqn:Hl.
  - rewrite (Hhw ltac:(unfold hw; rewrite Hl; reflexivity)). cbn [mu].
    destruct p as [ |e|x e|x e| | | |k0|k0|k0 e|k0 oe|k0|k0|k0|k0|k0|k0| | | | | | | | | ]; try discriminate; try destruct k0; try discriminate; cbn [mu getk tailk]; lia.
  - pose proof (mu_worker C cap_pos w (length (q s)) Hw). unfold dcond in Hdc. rewrite Hl in Hdc. destruct p; try contradiction; cbn [mu]; lia.
Qed.

End End.
