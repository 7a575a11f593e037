(** * Foreign exceptions (C106) *)
From Coq Require Import List Arith NArith Bool Lia.
From Verif Require Import Base LevelModel SinkModel SinkSpec SinkProofs SinkLabels SinkLife SinkProps ThrowModel ThrowSpec.
Import ListNotations.

Section Throw.
Context {E : Type}.
Variable C : cfg E.
Notation state := (state E).
Notation pc := (pc E).
Notation entry := (entry E).

Definition touches (k : nat) (p : pc) : Prop := match p with PAdd n _ | PRel n _ => n = k | _ => False end.

(** The place [k] is held by nobody and not free. *)
Record J (k : nat) (s : state) (a : list entry) (e : E) (b : list entry) : Prop := {
  J_q : q s = a ++ mkEntry k e Reserved :: b;
  J_k : k < length (acc s);
  J_t : Forall (fun p => ~ touches k p) (thr s);
  J_f : flat_map fl (thr s) = if fip s then [tt] else [];
  J_c : length (q s) <= c_cap C;
  J_o : opened s = true
}.

Definition goes (k : nat) (e : E) (s : state) (a b : list entry) (s' : state) (ls : list (label E)) : Prop :=
  exists a' b', J k s' a' e b' /\
    flat_map in_hand (thr s) ++ map (@q_ev E) a = written ls ++ flat_map in_hand (thr s') ++ map (@q_ev E) a' /\
    map (@q_ev E) b' = map (@q_ev E) b ++ accepted ls.

Lemma J_pc k e s a b s' ls l1 p l2 p' : J k s a e b -> thr s = l1 ++ p :: l2 -> thr s' = l1 ++ p' :: l2 ->
  q s' = q s -> acc s' = acc s -> fip s' = fip s -> opened s' = true -> fl p' = fl p -> in_hand p' = in_hand p ->
  ~ touches k p' -> written ls = [] -> accepted ls = [] -> goes k e s a b s' ls.
Proof.
  intros [Q K T F L O] E1 E2 Hq Ha Hf Ho Hfl Hh Ht W A. exists a, b. rewrite W, A, app_nil_r. cbn [app].
  split; [|split; [|reflexivity]].
  - constructor.
    + congruence.
    + rewrite Ha. exact K.
    + rewrite E2. rewrite E1 in T. apply Forall_app in T. destruct T as [T1 T2]. inversion T2; subst.
      apply Forall_app. split; [exact T1|]. constructor; assumption.
    + rewrite E2, Hf, <- F, E1, !flat_map_app. cbn [flat_map]. rewrite Hfl. reflexivity.
    + rewrite Hq. exact L.
    + exact Ho.
  - rewrite E1, E2, !flat_map_app. cbn [flat_map]. rewrite Hh. reflexivity.
Qed.

Lemma set_stage_ne n k st (l : list entry) e : n <> k -> 
  forall a b, l = a ++ mkEntry k e Reserved :: b ->
  exists a' b', set_stage n st l = a' ++ mkEntry k e Reserved :: b' /\ map (@q_ev E) a' = map (@q_ev E) a /\ map (@q_ev E) b' = map (@q_ev E) b.
Proof.
  intros N a b ->. exists (set_stage n st a), (set_stage n st b). split; [|split; apply set_stage_ev].
  unfold set_stage. rewrite map_app. cbn [map q_no]. destruct (Nat.eqb k n) eqn:X; [apply Nat.eqb_eq in X; congruence|reflexivity].
Qed.

Lemma jam_thread k e s a b t c p : J k s a e b -> nth_error (thr s) t = Some p ->
  goes k e s a b (fst (step_thread C s t c p)) (snd (step_thread C s t c p)).
Proof.
  intros HJ Hp. destruct (thr_split (thr s) t p Hp) as (l1 & l2 & Et & _ & U).
  pose proof HJ as [Q K T F L O].
  assert (Tp : ~ touches k p) by (rewrite Et in T; apply Forall_app in T; destruct T as [_ T]; inversion T; assumption).
  assert (S0 : goes k e s a b s []) by (exists a, b; rewrite app_nil_r; auto).
  assert (S1 : forall t', goes k e s a b s [LReturn t']) by (intros; exists a, b; cbn; rewrite app_nil_r; auto).
  assert (S2 : forall t' l' e', goes k e s a b s [LPush t' l' e'; LReturn t']) by (intros; exists a, b; cbn; rewrite app_nil_r; auto).
  destruct p as [ |e0|x e0|x e0| | | |kk|kk|kk e0|kk oe|kk|kk|kk|kk|kk|kk| | | | | | | | | ];
  cbn [step_thread].
  - (* Idle *)
    destruct c; try exact S0;
    repeat match goal with |- context [if ?x then _ else _] => destruct x end; try exact S0; try exact (S2 _ _ _);
    try (destruct (c_kind C); try exact (S1 _));
    (eapply J_pc; [exact HJ|exact Et|exact (U _)|reflexivity|reflexivity|reflexivity|exact O|reflexivity|reflexivity|cbn; tauto|reflexivity|reflexivity]).
  - (* PPut *)
    destruct (Nat.ltb (length (q s)) (c_cap C)) eqn:Hl.
    + exists a, (b ++ [mkEntry (length (acc s)) e0 Reserved]). cbn [fst snd]. split; [|split].
      * constructor; cbn [s_thr s_acc s_q thr q acc fip opened].
        -- rewrite Q, <- app_assoc. reflexivity.
        -- rewrite app_length. lia.
        -- rewrite U. rewrite Et in T. apply Forall_app in T. destruct T as [T1 T2]. inversion T2; subst.
           apply Forall_app. split; [exact T1|]. constructor; [cbn; lia|assumption].
        -- rewrite U, <- F, Et, !flat_map_app. reflexivity.
        -- rewrite app_length. cbn. apply Nat.ltb_lt in Hl. lia.
        -- exact O.
      * cbn [s_thr s_acc s_q thr]. rewrite U, Et, !flat_map_app. reflexivity.
      * rewrite map_app. reflexivity.
    + eapply J_pc; [exact HJ|exact Et|exact (U _)|reflexivity|reflexivity|reflexivity|exact O|reflexivity|reflexivity|cbn; tauto|reflexivity|reflexivity].
  - (* PAdd *)
    cbn [touches] in Tp. destruct (set_stage_ne x k Sized (q s) e Tp a b Q) as (a' & b' & Q' & A' & B').
    exists a', b'. cbn [fst snd]. split; [|split].
    + constructor; cbn [s_thr s_q thr q acc fip opened]; try assumption.
      * rewrite U. rewrite Et in T. apply Forall_app in T. destruct T as [T1 T2]. inversion T2; subst.
        apply Forall_app. split; [exact T1|]. constructor; assumption.
      * rewrite U, <- F, Et, !flat_map_app. reflexivity.
      * rewrite set_stage_len. exact L.
    + cbn [s_thr s_q thr]. rewrite U, Et, !flat_map_app, A'. reflexivity.
    + rewrite B'. cbn. rewrite app_nil_r. reflexivity.
  - (* PRel *)
    cbn [touches] in Tp. destruct (set_stage_ne x k Published (q s) e Tp a b Q) as (a' & b' & Q' & A' & B').
    exists a', b'. cbn [fst snd]. split; [|split].
    + constructor; cbn [s_thr s_q thr q acc fip opened]; try assumption.
      * rewrite U. rewrite Et in T. apply Forall_app in T. destruct T as [T1 T2]. inversion T2; subst.
        apply Forall_app. split; [exact T1|]. constructor; [cbn; tauto|assumption].
      * rewrite U, <- F, Et, !flat_map_app. reflexivity.
      * rewrite set_stage_len. exact L.
    + cbn [s_thr s_q thr]. rewrite U, Et, !flat_map_app, A'. reflexivity.
    + rewrite B'. cbn. rewrite app_nil_r. reflexivity.
  - (* PDecide *)
    repeat match goal with |- context [if ?x then _ else _] => destruct x end;
    (eapply J_pc; [exact HJ|exact Et|exact (U _)|reflexivity|reflexivity|reflexivity|exact O|reflexivity|reflexivity|cbn; tauto|reflexivity|reflexivity]).
  - eapply J_pc; [exact HJ|exact Et|exact (U _)|reflexivity|reflexivity|reflexivity|exact O|reflexivity|reflexivity|cbn; tauto|reflexivity|reflexivity].
  - repeat match goal with |- context [if ?x then _ else _] => destruct x end;
    (eapply J_pc; [exact HJ|exact Et|exact (U _)|reflexivity|reflexivity|reflexivity|exact O|reflexivity|reflexivity|cbn; tauto|reflexivity|reflexivity]).
  - (* FTas *)
    destruct (fip s) eqn:Hf.
    + destruct kk as [ek| | |]; cbn [after_flush ret_label];
      (eapply J_pc; [exact HJ|exact Et|exact (U _)|reflexivity|reflexivity|reflexivity|exact O|reflexivity|reflexivity|cbn; tauto|reflexivity|reflexivity]).
    + exists a, b. cbn [fst snd]. split; [|split; [|cbn; rewrite app_nil_r; reflexivity]].
      * constructor; cbn [s_thr s_flags thr q acc fip opened]; try assumption.
        -- rewrite U. rewrite Et in T. apply Forall_app in T. destruct T as [T1 T2]. inversion T2; subst.
           apply Forall_app. split; [exact T1|]. constructor; [cbn; tauto|assumption].
        -- rewrite U, flat_map_app. cbn [flat_map fl inflush]. rewrite Et, flat_map_app in F. cbn [flat_map fl inflush app] in F.
           apply app_eq_nil in F. destruct F as [-> ->]. reflexivity.
      * cbn [s_thr s_flags thr]. rewrite U, Et, !flat_map_app. reflexivity.
  - (* FGet *)
    destruct (q s) as [|x rest] eqn:Hq; [destruct a; discriminate|].
    destruct (q_stage x) eqn:Hx; try exact S0.
    destruct a as [|y a]; [cbn in Q; injection Q as -> _; discriminate|]. cbn in Q. injection Q as <- Q.
    exists a, b. cbn [fst snd]. split; [|split; [|cbn; rewrite app_nil_r; reflexivity]].
    + constructor; cbn [s_thr s_q thr q acc fip opened]; try assumption.
      * rewrite U. rewrite Et in T. apply Forall_app in T. destruct T as [T1 T2]. inversion T2; subst.
        apply Forall_app. split; [exact T1|]. constructor; [cbn; tauto|assumption].
      * rewrite U, <- F, Et, !flat_map_app. reflexivity.
      * cbn in L. lia.
    + cbn [s_thr s_q thr]. rewrite U, Et, !flat_map_app. cbn [flat_map in_hand app map].
      assert (N : flat_map in_hand l2 = []).
      { rewrite Et, flat_map_app in F. cbn [flat_map fl inflush app] in F. destruct (fip s).
        - destruct (flat_map fl l1) as [|u l]; cbn in F; [injection F as F|injection F as _ F; destruct l; discriminate].
          exact (proj1 (fl_infl l2 F)).
        - destruct (flat_map fl l1); discriminate. }
      rewrite N, <- !app_assoc. reflexivity.
  - (* FSub *)
    destruct (c_kind C);
    try (eapply J_pc; [exact HJ|exact Et|exact (U _)|reflexivity|reflexivity|reflexivity|exact O|reflexivity|reflexivity|cbn; tauto|reflexivity|reflexivity]).
    exists a, b. cbn [fst snd]. split; [|split; [|cbn; rewrite app_nil_r; reflexivity]].
    + constructor; cbn [s_thr s_q s_out thr q acc fip opened]; try assumption.
      * rewrite U. rewrite Et in T. apply Forall_app in T. destruct T as [T1 T2]. inversion T2; subst.
        apply Forall_app. split; [exact T1|]. constructor; [cbn; tauto|assumption].
      * rewrite U, <- F, Et, !flat_map_app. reflexivity.
    + cbn [s_thr s_q s_out thr written flat_map app]. rewrite U, Et, !flat_map_app. cbn [flat_map in_hand app].
      assert (N : flat_map in_hand l1 = []).
      { rewrite Et, flat_map_app in F. cbn [flat_map fl inflush app] in F. destruct (fip s).
        - destruct (flat_map fl l1) as [|u l] eqn:X; cbn in F; [exact (proj1 (fl_infl l1 X))|injection F as _ F; destruct l; discriminate].
        - destruct (flat_map fl l1); discriminate. }
      rewrite N. reflexivity.
  - (* FWrite *)
    destruct oe as [e0|].
    + rewrite O. exists a, b. cbn [fst snd]. split; [|split; [|cbn; rewrite app_nil_r; reflexivity]].
      * constructor; cbn [s_thr s_q s_out thr q acc fip opened]; try assumption; try reflexivity.
        -- rewrite U. rewrite Et in T. apply Forall_app in T. destruct T as [T1 T2]. inversion T2; subst.
           apply Forall_app. split; [exact T1|]. constructor; [cbn; tauto|assumption].
        -- rewrite U, <- F, Et, !flat_map_app. reflexivity.
      * cbn [s_thr s_q s_out thr written flat_map app]. rewrite U, Et, !flat_map_app. cbn [flat_map in_hand app].
        assert (N : flat_map in_hand l1 = []).
        { rewrite Et, flat_map_app in F. cbn [flat_map fl inflush app] in F. destruct (fip s).
          - destruct (flat_map fl l1) as [|u l] eqn:X; cbn in F; [exact (proj1 (fl_infl l1 X))|injection F as _ F; destruct l; discriminate].
          - destruct (flat_map fl l1); discriminate. }
        rewrite N. reflexivity.
    + destruct (c_kind C);
      (eapply J_pc; [exact HJ|exact Et|exact (U _)|reflexivity|reflexivity|reflexivity|exact O|reflexivity|reflexivity|cbn; tauto|reflexivity|reflexivity]).
  - (* FCasFlush *)
    destruct c; try exact S0; try (destruct spurious); try (destruct (ntf s)); try exact S0; destruct (c_kind C);
    (eapply J_pc; [exact HJ|exact Et|exact (U _)|reflexivity|reflexivity|reflexivity|exact O|reflexivity|reflexivity|cbn; tauto|reflexivity|reflexivity]).
  - (* FStream *)
    destruct (c_kind C);
    (eapply J_pc; [exact HJ|exact Et|exact (U _)|reflexivity|reflexivity|reflexivity|exact O|reflexivity|reflexivity|cbn; tauto|reflexivity|reflexivity]).
  - eapply J_pc; [exact HJ|exact Et|exact (U _)|reflexivity|reflexivity|reflexivity|exact O|reflexivity|reflexivity|cbn; tauto|reflexivity|reflexivity].
  - (* FCasRot *)
    destruct c; try exact S0; try (destruct spurious); try (destruct (ntr s)); try exact S0;
    (eapply J_pc; [exact HJ|exact Et|exact (U _)|reflexivity|reflexivity|reflexivity|exact O|reflexivity|reflexivity|cbn; tauto|reflexivity|reflexivity]).
  - (* FReopen *)
    destruct c; try exact S0; destruct r; try rewrite O;
    (eapply J_pc; [exact HJ|exact Et|exact (U _)|reflexivity|reflexivity|reflexivity|first [exact O|reflexivity]|reflexivity|reflexivity|cbn; tauto|reflexivity|reflexivity]).
  - (* FClear *)
    exists a, b. cbn [fst snd]. split; [|split].
    + constructor; cbn [s_thr s_flags thr q acc fip opened]; try assumption.
      * rewrite U. rewrite Et in T. apply Forall_app in T. destruct T as [T1 T2]. inversion T2; subst.
        apply Forall_app. split; [exact T1|]. constructor; [destruct kk; cbn; tauto|assumption].
      * rewrite U, flat_map_app. cbn [flat_map]. rewrite Et, flat_map_app in F. cbn [flat_map fl inflush app] in F.
        assert (Z : fl (after_flush kk) = []) by (destruct kk; reflexivity). rewrite Z. cbn [app]. destruct (fip s).
        -- destruct (flat_map fl l1) as [|u l]; cbn in F; [injection F as ->; reflexivity|injection F as _ F; destruct l; discriminate].
        -- destruct (flat_map fl l1); discriminate.
    + cbn [s_thr s_flags thr]. rewrite U, Et, !flat_map_app. destruct kk; reflexivity.
    + destruct kk; cbn; rewrite app_nil_r; reflexivity.
  - (* WWait *)
    destruct c; try exact S0; try (destruct timeout); try (destruct (ntf s || fin s)); try exact S0;
    (eapply J_pc; [exact HJ|exact Et|exact (U _)|reflexivity|reflexivity|reflexivity|exact O|reflexivity|reflexivity|cbn; tauto|reflexivity|reflexivity]).
  - destruct c; try (destruct spurious); destruct (fin s);
    (eapply J_pc; [exact HJ|exact Et|exact (U _)|reflexivity|reflexivity|reflexivity|exact O|reflexivity|reflexivity|cbn; tauto|reflexivity|reflexivity]).
  - destruct (q s);
    (eapply J_pc; [exact HJ|exact Et|exact (U _)|reflexivity|reflexivity|reflexivity|exact O|reflexivity|reflexivity|cbn; tauto|reflexivity|reflexivity]).
  - exact S0.
  - eapply J_pc; [exact HJ|exact Et|exact (U _)|reflexivity|reflexivity|reflexivity|exact O|reflexivity|reflexivity|cbn; tauto|reflexivity|reflexivity].
  - eapply J_pc; [exact HJ|exact Et|exact (U _)|reflexivity|reflexivity|reflexivity|exact O|reflexivity|reflexivity|cbn; tauto|reflexivity|reflexivity].
  - destruct (nth_error (thr s) 0) as [[]|]; try exact S0;
    (eapply J_pc; [exact HJ|exact Et|exact (U _)|reflexivity|reflexivity|reflexivity|exact O|reflexivity|reflexivity|cbn; tauto|reflexivity|reflexivity]).
  - destruct (c_kind C);
    (eapply J_pc; [exact HJ|exact Et|exact (U _)|reflexivity|reflexivity|reflexivity|exact O|reflexivity|reflexivity|cbn; tauto|reflexivity|reflexivity]).
  - exact S0.
Qed.

Lemma mid_eq (x y : list nat) u v z w : length x = length y -> x ++ u :: z = y ++ v :: w -> u = v.
Proof.
  revert y. induction x as [|c x IH]; intros [|d y] L H; cbn in *; try discriminate; [congruence|].
  injection H as _ H. injection L as L. exact (IH y L H).
Qed.

Lemma written_app3 (a b : list (label E)) : written (a ++ b) = written a ++ written b.
Proof. unfold written. apply flat_map_app. Qed.
Lemma accepted_app3 (a b : list (label E)) : accepted (a ++ b) = accepted a ++ accepted b.
Proof. unfold accepted, accepts. rewrite flat_map_app, map_app. reflexivity. Qed.

Lemma jam_step k e s a b m : J k s a e b -> goes k e s a b (fst (step C s m)) (snd (step C s m)).
Proof.
  intros HJ. destruct m as [t c|n]; cbn [step].
  - destruct (nth_error (thr s) t) as [p|] eqn:Hp; [exact (jam_thread k e s a b t c p HJ Hp)|].
    exists a, b. cbn. rewrite app_nil_r. auto.
  - exists a, b. cbn. rewrite app_nil_r. split; [|auto]. destruct HJ as [Q K T F L O]. constructor; assumption.
Qed.

Lemma plain_TL (ls : list (label E)) : plain (map (@TL E) ls) = ls.
Proof. induction ls as [|l ls IH]; [reflexivity|]. cbn. unfold plain in IH. rewrite IH. reflexivity. Qed.
Lemma plain_app (a b : list (tlabel E)) : plain (a ++ b) = plain a ++ plain b.
Proof. apply flat_map_app. Qed.

Lemma jam_tstep k e w a b m : over w = false -> J k (base w) a e b ->
  over (fst (tstep C false w m)) = false /\
  goes k e (base w) a b (base (fst (tstep C false w m))) (plain (snd (tstep C false w m))).
Proof.
  intros Ho HJ. unfold tstep. rewrite Ho. destruct m as [m|t].
  - pose proof (jam_step k e (base w) a b m HJ) as H. destruct (step C (base w) m) as [s ls]. cbn [fst snd base over].
    rewrite plain_TL. auto.
  - assert (S0 : goes k e (base w) a b (base w) []) by (exists a, b; cbn; rewrite app_nil_r; auto).
    destruct (nth_error (thr (base w)) t) as [p|] eqn:Hp; [|auto].
    destruct p; auto. cbn [fst snd base over]. split; [reflexivity|].
    destruct (thr_split (thr (base w)) t _ Hp) as (l1 & l2 & Et & _ & U).
    eapply J_pc; [exact HJ|exact Et|exact (U _)|reflexivity|reflexivity|reflexivity|exact (J_o _ _ _ _ _ HJ)|reflexivity|reflexivity|cbn; tauto|reflexivity|reflexivity].
Qed.

Lemma jam_texec k e ms : forall w w' l a b, over w = false -> J k (base w) a e b -> texec C false w ms = (w', l) ->
  over w' = false /\ goes k e (base w) a b (base w') (plain l).
Proof.
  induction ms as [|m ms IH]; intros w w' l a b Ho HJ He; cbn [texec] in He.
  - injection He as <- <-. split; [exact Ho|]. exists a, b. cbn. rewrite app_nil_r. auto.
  - destruct (jam_tstep k e w a b m Ho HJ) as [O1 G1]. destruct (tstep C false w m) as [w1 l1]. cbn [fst snd] in *.
    destruct (texec C false w1 ms) as [w2 l2] eqn:E2. injection He as <- <-.
    destruct G1 as (a1 & b1 & J1 & A1 & B1). destruct (IH w1 w2 l2 a1 b1 O1 J1 E2) as [O2 (a2 & b2 & J2 & A2 & B2)].
    split; [exact O2|]. exists a2, b2. split; [exact J2|]. rewrite plain_app, written_app3, accepted_app3, A1, A2, B2, B1, <- !app_assoc. auto.
Qed.

(** The first throw. *)
Lemma jam_start n s ls t k e : sizes_ok C -> reach C true n s ls -> constructing s t k e ->
  exists a b, J k (s_thr s t Idle) a e b /\
    accepted ls = (written ls ++ flat_map in_hand (thr (s_thr s t Idle)) ++ map (@q_ev E) a) ++ e :: map (@q_ev E) b /\
    length (written ls ++ flat_map in_hand (thr (s_thr s t Idle)) ++ map (@q_ev E) a) = k.
Proof.
  intros sz Hr Hp. unfold constructing in Hp. assert (Hd : has_dest C true) by (right; reflexivity).
  pose proof (reach_inv C true n s ls sz Hd Hr) as HI. pose proof (all_events C true n s ls sz Hd Hr) as HA.
  destruct (opened_stays C n s ls Hr) as (O & Hl & _). rewrite Hl in HA. cbn [app] in HA.
  destruct (reach_hist C _ _ _ _ Hr) as (H1 & _ & _).
  destruct (thr_split (thr s) t _ Hp) as (l1 & l2 & Et & _ & U).
  assert (Hin : In (mkEntry k e Reserved) (q s)).
  { apply (I_add C s HI). rewrite Et, flat_map_app. apply in_app_iff. right. left. reflexivity. }
  destruct (in_split _ _ Hin) as (a & b & Q). exists a, b.
  assert (Ih : flat_map in_hand (thr (s_thr s t Idle)) = flat_map in_hand (thr s)).
  { cbn [s_thr thr]. rewrite U, Et, !flat_map_app. reflexivity. }
  rewrite Ih. split; [|split].
  - constructor.
    + exact Q.
    + pose proof (inv_lt C s _ HI Hin) as X. exact X.
    + cbn [s_thr thr]. rewrite U. pose proof (I_nd C s HI) as ND. rewrite Et in ND. rewrite !flat_map_app in ND. cbn [flat_map adding releasing app] in ND.
      assert (NT : forall p, In p (l1 ++ l2) -> ~ touches k p).
      { intros p Hin' Tk. rewrite map_app in ND. cbn [map] in ND. rewrite !map_app in ND. cbn [map fst] in ND.
        rewrite <- app_assoc in ND. cbn [app] in ND. apply NoDup_remove_2 in ND. apply ND.
        apply in_app_iff in Hin'.
        destruct p; cbn [touches] in Tk; try contradiction; subst.
        - destruct Hin' as [X|X]; rewrite !in_app_iff; [left|right; left]; apply in_map_iff; exists (k, e0); (split; [reflexivity|]);
            apply in_flat_map; eexists; (split; [exact X|left; reflexivity]).
        - rewrite !in_app_iff. right. right. destruct Hin' as [X|X]; [left|right]; apply in_map_iff; exists (k, e0); (split; [reflexivity|]);
            apply in_flat_map; eexists; (split; [exact X|left; reflexivity]). }
      apply Forall_app. split; [apply Forall_forall; intros p Hp'; apply NT, in_app_iff; auto|].
      constructor; [cbn; tauto|]. apply Forall_forall; intros p Hp'; apply NT, in_app_iff; auto.
    + cbn [s_thr thr fip]. rewrite U, <- (I_flag C s HI), Et, !flat_map_app. reflexivity.
    + exact (I_cap C s HI).
    + exact O.
  - rewrite HA. unfold pending. rewrite Q, map_app, <- !app_assoc. reflexivity.
  - destruct (I_no C s HI) as (bs & N1 & N2).
    assert (L : length (accepted ls) = length (acc s)) by (unfold accepted; rewrite map_length; rewrite <- H1; reflexivity).
    rewrite HA in L. unfold pending in L. rewrite !app_length, map_length in L.
    rewrite !app_length, map_length.
    assert (K : k = bs + length a).
    { rewrite Q, map_app in N1. cbn [map q_no] in N1. rewrite app_length in N1. cbn [length] in N1.
      rewrite seq_app in N1. cbn [seq] in N1. apply mid_eq in N1; [exact N1|rewrite map_length, seq_length; reflexivity]. }
    lia.
Qed.

(** ** What is left of the sink *)
Lemma throw_first s t k e ms w l : constructing s t k e -> texec C false (mkT s false) (TThrow t :: ms) = (w, l) ->
  exists l', texec C false (mkT (s_thr s t Idle) false) ms = (w, l') /\ l = TThrown t e :: l'.
Proof.
  intros Hp He. cbn [texec] in He. unfold tstep in He. cbn [over base] in He. rewrite Hp in He.
  destruct (texec C false (mkT (s_thr s t Idle) false) ms) as [w2 l2]. injection He as <- <-. exists l2. auto.
Qed.

Theorem jams n s ls t k e ms w l : sizes_ok C -> reach C true n s ls -> constructing s t k e ->
  texec C false (mkT s false) (TThrow t :: ms) = (w, l) ->
  exists A R B, accepted ls = A ++ e :: B /\ length A = k /\
    A = written ls ++ written (plain l) ++ R /\
    length B + length (accepted (plain l)) < c_cap C.
Proof.
  intros sz Hr Hp He. destruct (throw_first s t k e ms w l Hp He) as (l' & He' & ->).
  destruct (jam_start n s ls t k e sz Hr Hp) as (a & b & HJ & HA & HL).
  destruct (jam_texec k e ms (mkT (s_thr s t Idle) false) w l' a b eq_refl HJ He') as [_ (a' & b' & J' & A' & B')]. cbn [base] in *.
  eexists; exists (flat_map in_hand (thr (base w)) ++ map (@q_ev E) a'), (map (@q_ev E) b).
  split; [exact HA|]. split; [exact HL|]. cbn [plain flat_map app]. fold (plain l').
  split; [rewrite A'; reflexivity|].
  pose proof (J_c _ _ _ _ _ J') as L. rewrite (J_q _ _ _ _ _ J'), app_length in L. cbn [length] in L.
  rewrite <- app_length, <- B', map_length. lia.
Qed.

(** The destructor waits for the worker for ever. *)
Definition doomed (p : pc) : bool :=
  match p with
  | WDone | DClose | Dead => true
  | _ => match kof p with Some KDestroy => true | _ => false end
  end.

Lemma doom_step k e s a b m : c_lat0 C = false -> J k s a e b -> Forall (fun p => doomed p = false) (thr s) ->
  Forall (fun p => doomed p = false) (thr (fst (step C s m))) /\ forall u, ~ In (LDestroyed u) (snd (step C s m)).
Proof.
  intros L0 HJ D. destruct m as [t c|x]; cbn [step]; [|split; [exact D|intros u []]].
  destruct (nth_error (thr s) t) as [p|] eqn:Hp; [|split; [exact D|intros u []]].
  assert (Dp : doomed p = false) by (rewrite Forall_forall in D; apply D; eapply nth_error_In; exact Hp).
  assert (S : forall p', doomed p' = false -> Forall (fun p => doomed p = false) (upd (thr s) t p')) by (intros; apply upd_Forall; assumption).
  assert (Q0 : q s <> []) by (rewrite (J_q _ _ _ _ _ HJ); destruct a; discriminate).
  assert (W0 : nth_error (thr s) 0 <> Some WDone).
  { intros X. apply nth_error_In in X. rewrite Forall_forall in D. specialize (D _ X). discriminate. }
  destruct p as [ |e0|x e0|x e0| | | |kk|kk|kk e0|kk oe|kk|kk|kk|kk|kk|kk| | | | | | | | | ]; cbn [step_thread] in *; cbn [doomed kof] in Dp;
  try discriminate; try (destruct kk as [ek| | |]); try discriminate; rewrite ?L0; cbn [after_flush ret_label];
  repeat match goal with
  | |- context [match ?x with _ => _ end] =>
      match type of x with
      | choice _ => destruct x
      | bool => destruct x eqn:?
      | list _ => destruct x eqn:?
      | option _ => destruct x eqn:?
      | stage => destruct x eqn:?
      | sink_kind => destruct x eqn:?
      | reopen => destruct x
      | SinkModel.pc _ => destruct x eqn:?
      end
  end; cbn [fst snd s_thr s_q s_acc s_flags s_out thr]; try congruence;
  (split; [first [exact D|apply S; reflexivity]|intros u X; cbn in X; intuition discriminate]).
Qed.

Lemma doom_tstep k e w a b m : c_lat0 C = false -> over w = false -> J k (base w) a e b -> Forall (fun p => doomed p = false) (thr (base w)) ->
  Forall (fun p => doomed p = false) (thr (base (fst (tstep C false w m)))) /\ forall u, ~ In (LDestroyed u) (plain (snd (tstep C false w m))).
Proof.
  intros L0 Ho HJ D. unfold tstep. rewrite Ho. destruct m as [m|t].
  - pose proof (doom_step k e (base w) a b m L0 HJ D) as H. destruct (step C (base w) m) as [s ls]. cbn [fst snd base] in *. rewrite plain_TL. exact H.
  - destruct (nth_error (thr (base w)) t) as [p|]; [|split; [exact D|intros u []]].
    destruct p; try (split; [exact D|intros u []]). cbn [fst snd base s_thr thr]. split; [apply upd_Forall; [exact D|reflexivity]|intros u []].
Qed.

Lemma doom_texec k e ms : c_lat0 C = false -> forall w w' l a b, over w = false -> J k (base w) a e b -> Forall (fun p => doomed p = false) (thr (base w)) ->
  texec C false w ms = (w', l) -> forall u, ~ In (LDestroyed u) (plain l).
Proof.
  intros L0. induction ms as [|m ms IH]; intros w w' l a b Ho HJ D He u; cbn [texec] in He.
  - injection He as <- <-. intros [].
  - destruct (jam_tstep k e w a b m Ho HJ) as [O1 (a1 & b1 & J1 & _)]. destruct (doom_tstep k e w a b m L0 Ho HJ D) as [D1 N1].
    destruct (tstep C false w m) as [w1 l1]. cbn [fst snd] in *. destruct (texec C false w1 ms) as [w2 l2] eqn:E2. injection He as <- <-.
    rewrite plain_app, in_app_iff. intros [X|X]; [exact (N1 u X)|exact (IH w1 w2 l2 a1 b1 O1 J1 D1 E2 u X)].
Qed.

Theorem never_destroyed n s ls t k e ms w l u : sizes_ok C -> c_lat0 C = false -> reach C true n s ls -> constructing s t k e ->
  texec C false (mkT s false) (TThrow t :: ms) = (w, l) -> ~ In (TL (LDestroyed u)) l.
Proof.
  intros sz L0 Hr Hp He. destruct (throw_first s t k e ms w l Hp He) as (l' & He' & ->).
  destruct (jam_start n s ls t k e sz Hr Hp) as (a & b & HJ & _ & _).
  intros [X|X]; [discriminate|]. revert u X.
  assert (D : Forall (fun p => doomed p = false) (thr (s_thr s t Idle))).
  { cbn [s_thr thr]. apply upd_Forall; [|reflexivity].
    destruct (reach_life C true n s ls Hr) as (w0 & cs & Et & W1 & W2 & W3 & W4 & M). rewrite Et.
    assert (Hh : hw C true = true) by (unfold hw; rewrite L0; reflexivity).
    unfold constructing in Hp. rewrite Et in Hp. destruct t as [|t]; cbn in Hp; [injection Hp as ->; discriminate|].
    destruct M as [(M1 & M2 & M3)|(l1 & p & l2 & M1 & M2 & M3 & M4 & _)].
    - constructor.
      + specialize (M3 Hh). destruct w0; cbn in *; try discriminate; try congruence; destruct k0; try discriminate; reflexivity.
      + apply Forall_forall. intros p Hin. rewrite Forall_forall in M1, W2. specialize (M1 p Hin). specialize (W2 p Hin).
        destruct p; cbn in *; try discriminate; try reflexivity; destruct k0; try discriminate; reflexivity.
    - exfalso. rewrite M1 in Hp. apply nth_error_In, in_app_iff in Hp. rewrite Forall_forall in M2, M3.
      destruct Hp as [X|[X|X]]; [specialize (M2 _ X); discriminate|subst; discriminate|specialize (M3 _ X); discriminate]. }
  intros u X. apply (doom_texec k e ms L0 (mkT (s_thr s t Idle) false) w l' a b eq_refl HJ D He' u). unfold plain. apply in_flat_map.
  exists (TL (LDestroyed u)). split; [exact X|left; reflexivity].
Qed.

(** Once nothing is left before it, no flush() comes back. *)
Definition stuckp (p : pc) : Prop := inflush p = true -> exists k, p = FGet k.

Lemma hang_step k e s b m : J k s [] e b -> Forall stuckp (thr s) ->
  (exists b', J k (fst (step C s m)) [] e b') /\ Forall stuckp (thr (fst (step C s m))) /\ forall u, ~ In (LUnlock u) (snd (step C s m)).
Proof.
  intros HJ D. split.
  { destruct (jam_step k e s [] b m HJ) as (a' & b' & J' & A' & _).
    assert (Z : flat_map in_hand (thr s) = []).
    { apply flat_map_nil. intros p Hin. rewrite Forall_forall in D. specialize (D p Hin).
      destruct p as [ | | | | | | | | | |? [?|]| | | | | | | | | | | | | | | ]; try reflexivity; cbn in D; destruct (D eq_refl) as (? & X); discriminate. }
    rewrite Z in A'. cbn [app map] in A'. symmetry in A'. apply app_eq_nil in A'. destruct A' as [_ A']. apply app_eq_nil in A'. destruct A' as [_ A'].
    apply map_eq_nil in A'. subst a'. exists b'. exact J'. }
  destruct m as [t c|x]; cbn [step]; [|split; [exact D|intros u []]].
  destruct (nth_error (thr s) t) as [p|] eqn:Hp; [|split; [exact D|intros u []]].
  assert (Dp : stuckp p) by (rewrite Forall_forall in D; apply D; eapply nth_error_In; exact Hp).
  assert (S : forall p', stuckp p' -> Forall stuckp (upd (thr s) t p')) by (intros; apply upd_Forall; assumption).
  pose proof (J_q _ _ _ _ _ HJ) as Q. cbn [app] in Q.
  destruct p as [ |e0|x e0|x e0| | | |kk|kk|kk e0|kk oe|kk|kk|kk|kk|kk|kk| | | | | | | | | ]; cbn [step_thread] in *;
  try (exfalso; destruct (Dp eq_refl) as (? & X); discriminate); rewrite ?Q; cbn [q_stage];
  try (destruct kk as [ek| | |]); cbn [after_flush ret_label];
  repeat match goal with
  | |- context [match ?x with _ => _ end] =>
      match type of x with
      | choice _ => destruct x
      | bool => destruct x eqn:?
      | option _ => destruct x eqn:?
      | sink_kind => destruct x eqn:?
      | reopen => destruct x
      | SinkModel.pc _ => destruct x eqn:?
      end
  end; cbn [fst snd s_thr s_q s_acc s_flags s_out thr];
  (split; [first [exact D|apply S; first [intros X; discriminate|intros _; eexists; reflexivity]]|intros u X; cbn in X; intuition discriminate]).
Qed.

Lemma hang_tstep k e w b m : over w = false -> J k (base w) [] e b -> Forall stuckp (thr (base w)) ->
  (exists b', J k (base (fst (tstep C false w m))) [] e b') /\ Forall stuckp (thr (base (fst (tstep C false w m)))) /\
  forall u, ~ In (LUnlock u) (plain (snd (tstep C false w m))).
Proof.
  intros Ho HJ D. unfold tstep. rewrite Ho. destruct m as [m|t].
  - pose proof (hang_step k e (base w) b m HJ D) as H. destruct (step C (base w) m) as [s ls]. cbn [fst snd base] in *. rewrite plain_TL. exact H.
  - assert (S0 : (exists b', J k (base w) [] e b') /\ Forall stuckp (thr (base w)) /\ forall u : nat, ~ In (LUnlock u) (@nil (label E))) by (split; [exists b; exact HJ|split; [exact D|intros u []]]).
    destruct (nth_error (thr (base w)) t) as [p|] eqn:Hp; [|exact S0]. destruct p; try exact S0.
    cbn [fst snd base plain flat_map app]. split; [|split; [|intros u []]].
    + exists b. destruct (thr_split (thr (base w)) t _ Hp) as (l1 & l2 & Et & _ & U).
      destruct HJ as [Q K T F L O]. constructor; try assumption; cbn [s_thr thr fip]; rewrite U.
      * rewrite Et in T. apply Forall_app in T. destruct T as [T1 T2]. inversion T2; subst. apply Forall_app. split; [exact T1|]. constructor; [cbn; tauto|assumption].
      * rewrite <- F, Et, !flat_map_app. reflexivity.
    + cbn [s_thr thr]. apply upd_Forall; [exact D|intros X; discriminate].
Qed.

Lemma hang_texec k e ms : forall w w' l b, over w = false -> J k (base w) [] e b -> Forall stuckp (thr (base w)) ->
  texec C false w ms = (w', l) -> forall u, ~ In (LUnlock u) (plain l).
Proof.
  induction ms as [|m ms IH]; intros w w' l b Ho HJ D He u; cbn [texec] in He.
  - injection He as <- <-. intros [].
  - destruct (jam_tstep k e w [] b m Ho HJ) as [O1 _]. destruct (hang_tstep k e w b m Ho HJ D) as ((b1 & J1) & D1 & N1).
    destruct (tstep C false w m) as [w1 l1]. cbn [fst snd] in *. destruct (texec C false w1 ms) as [w2 l2] eqn:E2. injection He as <- <-.
    rewrite plain_app, in_app_iff. intros [X|X]; [exact (N1 u X)|exact (IH w1 w2 l2 b1 O1 J1 D1 E2 u X)].
Qed.

Lemma texec_app b x y : forall w, texec C b w (x ++ y) =
  (let '(w1, l1) := texec C b w x in let '(w2, l2) := texec C b w1 y in (w2, l1 ++ l2)).
Proof.
  induction x as [|m x IH]; intros w; cbn [app texec]; [destruct (texec C b w y); reflexivity|].
  destruct (tstep C b w m) as [w1 l1]. rewrite IH. destruct (texec C b w1 x) as [w2 l2]. destruct (texec C b w2 y) as [w3 l3].
  rewrite app_assoc. reflexivity.
Qed.

Theorem flush_hangs n s ls t k e ms w l ms' w' l' u : sizes_ok C -> reach C true n s ls -> constructing s t k e ->
  texec C false (mkT s false) (TThrow t :: ms) = (w, l) ->
  length (written ls ++ written (plain l)) = k -> fip (base w) = false ->
  texec C false w ms' = (w', l') -> ~ In (TL (LUnlock u)) l'.
Proof.
  intros sz Hr Hp He HL Hf He'. destruct (throw_first s t k e ms w l Hp He) as (l0 & He0 & ->).
  destruct (jam_start n s ls t k e sz Hr Hp) as (a & b & HJ & HA & HK).
  destruct (jam_texec k e ms (mkT (s_thr s t Idle) false) w l0 a b eq_refl HJ He0) as [O (a' & b' & J' & A' & B')]. cbn [base] in *.
  rewrite A' in HK. cbn [plain flat_map app] in HL. fold (plain l0) in HL. rewrite app_length in HL. rewrite !app_length, map_length in HK.
  assert (Za : a' = []) by (apply length_zero_iff_nil; lia). subst a'.
  assert (D : Forall stuckp (thr (base w))).
  { pose proof (J_f _ _ _ _ _ J') as F. rewrite Hf in F. apply Forall_forall. intros p Hin X. exfalso.
    assert (Y : In tt (flat_map fl (thr (base w)))) by (apply in_flat_map; exists p; split; [exact Hin|unfold fl; rewrite X; left; reflexivity]).
    rewrite F in Y. destruct Y. }
  intros X. apply (hang_texec k e ms' w w' l' b' O J' D He' u). unfold plain. apply in_flat_map.
  exists (TL (LUnlock u)). split; [exact X|left; reflexivity].
Qed.

(** ** Without foreign exceptions, and in release builds *)
Theorem no_throw_same nd ms : forall (s : state) w l, texec C nd (mkT s false) ms = (w, l) -> no_throw ms ->
  exec C s (moves_of ms) = (base w, plain l) /\ over w = false.
Proof.
  induction ms as [|m ms IH]; intros s w l He N; cbn [texec] in He.
  - injection He as <- <-. auto.
  - inversion N as [|x y N1 N2]; subst. destruct m as [m|t]; [|discriminate]. unfold tstep in He. cbn [over base] in He.
    unfold moves_of. cbn [flat_map app exec]. fold (moves_of ms).
    destruct (step C s m) as [s1 l1] eqn:Es. destruct (texec C nd (mkT s1 false) ms) as [w2 l2] eqn:E2. injection He as <- <-.
    destruct (IH s1 w2 l2 E2 N2) as [A B]. cbn [exec]. rewrite A. rewrite plain_app, plain_TL. auto.
Qed.

Theorem from_the_start nd op n :
  (forall ms w l, texec C nd (tinit C op n) ms = (w, l) -> no_throw ms -> reach C op n (base w) (plain l) /\ over w = false) /\
  (forall s ls, reach C op n s ls -> exists ms w l, texec C nd (tinit C op n) ms = (w, l) /\ no_throw ms /\ base w = s /\ plain l = ls).
Proof.
  split.
  - intros ms w l X N. destruct (no_throw_same nd ms _ w l X N) as [A B]. split; [exists (moves_of ms); exact A|exact B].
  - intros s ls [ms X]. destruct (texec C nd (tinit C op n) (map (fun m => TMove m) ms)) as [w l] eqn:Q.
    assert (N : no_throw (map (fun m : move E => TMove m) ms)) by (apply Forall_map, Forall_forall; reflexivity).
    destruct (no_throw_same nd _ _ w l Q N) as [A B].
    assert (M : moves_of (map (fun m : move E => TMove m) ms) = ms).
    { unfold moves_of. clear. induction ms as [|m ms IH]; [reflexivity|]. cbn [map flat_map app]. now rewrite IH. }
    rewrite M in A. rewrite X in A. injection A as -> ->. exists (map (fun m => TMove m) ms), w, l. auto.
Qed.

Theorem release_ends s t k e ms w l : constructing s t k e -> texec C true (mkT s false) (TThrow t :: ms) = (w, l) ->
  l = [TTerminate t] /\ base w = s.
Proof.
  intros Hp He. cbn [texec] in He. unfold tstep in He. cbn [over base] in He. rewrite Hp in He.
  assert (X : forall ms, texec C true (mkT s true) ms = (mkT s true, [])).
  { intros ms0. induction ms0 as [|m ms0 IH]; [reflexivity|]. cbn [texec]. unfold tstep. cbn [over]. rewrite IH. reflexivity. }
  rewrite X in He. injection He as <- <-. auto.
Qed.
End Throw.
