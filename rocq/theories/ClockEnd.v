(** * The end of a sink with threads and a clock; the spinning worker *)

From Coq Require Import List Arith NArith Bool Lia.
From Verif Require Import Base LevelModel SinkModel SinkSpec SinkProofs SinkLabels SinkLife SinkProps ClockModel ClockSpec ClockProofs.
Import ListNotations.

Section End_.
Context {E : Type}.
Variable T : tcfg E.
Notation C := (t_sink T).
Notation L := (t_lat T).
Notation pc := (pc E).
Hypothesis Hsz : sizes_ok C.
Hypothesis Hk : c_kind C <> KSyslog.
Hypothesis Hl : c_lat0 C = false.

Lemma crun_app s0 h1 s1 tr1 h2 s2 tr2 : crun T s0 h1 s1 tr1 -> crun T s1 h2 s2 tr2 -> crun T s0 (h1 ++ h2) s2 (tr1 ++ tr2).
Proof.
  intros R1. induction 1 as [|h s tr ev s' ls R IH St]; [rewrite !app_nil_r; exact R1|].
  rewrite !app_assoc. econstructor; [exact IH|exact St].
Qed.

(** While the sink is being destroyed nobody but the worker does anything. *)
Lemma ending_clients s : Life C true s -> fin s = true ->
  exists w cs, thr s = w :: cs /\ worker_pc w = true /\
    (exists l1 p l2, cs = l1 ++ p :: l2 /\ destroying p = true) /\
    Forall (fun p => match p with Idle | DNtf | DJoin | DClose | Dead => True | _ => False end) cs.
Proof.
  intros (w & cs & Et & Hw & _ & _ & _ & M) F. exists w, cs. split; [exact Et|]. split; [exact Hw|].
  destruct M as [(_ & N & _)|(l1 & p & l2 & -> & F1 & F2 & Dp & D)]; [congruence|].
  split; [exists l1, p, l2; auto|]. apply Forall_app. split.
  - eapply Forall_impl; [|exact F1]. intros x <-. exact I.
  - constructor; [|eapply Forall_impl; [|exact F2]; intros x <-; exact I].
    unfold dcond in D. rewrite Hl, F in D. destruct p; try contradiction; auto. destruct D; discriminate.
Qed.

Lemma quiet_counts (cs : list pc) :
  Forall (fun p => match p with Idle | DNtf | DJoin | DClose | Dead => True | _ => False end) cs ->
  flat_map midp cs = [] /\ flat_map fl cs = [].
Proof.
  induction 1 as [|p cs Hp _ [I1 I2]]; [auto|]. cbn. rewrite I1, I2. destruct p; try contradiction; auto.
Qed.

Lemma client_quiet s t c : Life C true s -> fin s = true -> t <> 0 ->
  q (fst (step C s (MThread t c))) = q s /\ fin (fst (step C s (MThread t c))) = true /\
  nth_error (thr (fst (step C s (MThread t c)))) 0 = nth_error (thr s) 0 /\
  mid (fst (step C s (MThread t c))) = mid s /\ writing s (MThread t c) = None.
Proof.
  intros HL F Ht. destruct (ending_clients s HL F) as (w & cs & Et & _ & (l1 & p0 & l2 & E1 & D0) & Q).
  destruct (alive_false s w cs l1 p0 l2 Et E1 D0) as [A1 A2].
  cbn [step writing]. destruct (nth_error (thr s) t) as [p|] eqn:Hp; [|auto].
  assert (Hin : In p cs).
  { rewrite Et in Hp. destruct t; [congruence|]. cbn in Hp. eapply nth_error_In; exact Hp. }
  pose proof (proj1 (Forall_forall _ _) Q p Hin) as Hq.
  assert (U : forall p', nth_error (upd (thr s) t p') 0 = nth_error (thr s) 0).
  { intros p'. rewrite Et. destruct t; [congruence|]. reflexivity. }
  assert (X : forall s' p', thr s' = upd (thr s) t p' -> midp p' = [] -> midp p = [] -> mid s' = mid s).
  { intros s' p' Es M1 M2. destruct (counts_upd s t p p' Hp) as [X _]. rewrite M1, M2, <- Es in X. unfold mid in *. cbn in X. lia. }
  destruct p; try contradiction; cbn [step_thread].
  - destruct c; cbn [fst]; rewrite ?A1, ?A2; cbn [andb fst]; auto.
  - cbn [fst s_thr s_flags s_out thr q fin]. rewrite U. repeat split; auto. eapply X; reflexivity.
  - assert (E0 : nth_error (thr s) 0 = Some w) by (rewrite Et; reflexivity). rewrite E0.
    destruct w; cbn [fst]; auto.
    cbn [fst s_thr s_flags s_out thr q fin]. rewrite U. repeat split; auto. eapply X; reflexivity.
  - destruct (c_kind C); cbn [fst s_thr s_flags s_out thr q fin]; rewrite U; repeat split; auto; eapply X; reflexivity.
  - cbn. auto.
Qed.

Definition before (w : pc) : bool := match w with WWait | FTas _ | FGet _ => true | _ => false end.

Definition Ending (D : nat) (s : cstate E) : Prop :=
  fin (base s) = true /\
  match nth_error (thr (base s)) 0 with
  | Some WDone => True
  | Some w =>
      if before w then next s + (Nat.max 1 (length (q (base s))) - 1) * L <= D
      else (length (q (base s)) = 0 -> now s <= D) /\
           (1 <= length (q (base s)) -> nx T s + (length (q (base s)) - 1) * L <= D)
  | None => False
  end.

Lemma worker_mid (s : state E) w cs : thr s = w :: cs -> flat_map midp cs = [] -> mid s = length (midp w).
Proof. intros Et M. unfold mid. rewrite Et. cbn. rewrite M, app_nil_r. reflexivity. Qed.

Lemma ending_step n t h s tr ev s' ls D : crun T (cstart T n t) h s tr -> quick h -> cnext T s ev s' ls ->
  calm (s, ev) -> sees_end (s, ev) -> Ending D s -> Ending D s'.
Proof.
  intros R Qu St Ca Se [F W]. pose proof (crun_reach T _ _ _ _ _ R) as Re.
  pose proof (reach_inv C _ _ _ _ Hsz (or_intror eq_refl) Re) as HI. pose proof (reach_life C true n _ _ Re) as HL.
  destruct (opened_stays C n _ _ Re) as (Ho & _ & _).
  destruct (good_run T Hsz Hk Hl _ _ _ _ _ R Qu) as [G1 G2 _].
  inversion St; subst; clear St.
  2: { split; cbn [base next now]; auto. }
  2: { split; [exact F|]. unfold calm in Ca. cbn [fst snd] in Ca. cbn [base next now].
       destruct Ca as [->|[Fi Ca]]; [rewrite Nat.add_0_r; destruct s; exact W|].
       destruct (nth_error (thr (base s)) 0) as [[]|]; cbn [before] in *; destruct (until s); try contradiction; auto. }
  unfold cstep in H0. destruct (step C (base s) m) as [b l0] eqn:Hs. injection H0 as <- <-.
  destruct (ending_clients _ HL F) as (w & cs & Et & Hw & _ & Q). destruct (quiet_counts _ Q) as [M0 F0].
  rewrite Et in W. cbn [nth_error] in W.
  destruct m as [u c|k].
  2: { cbn in Hs. injection Hs as <- _. split; [exact F|]. cbn [base next_after now next thr s_out q]. rewrite Et. exact W. }
  destruct (Nat.eq_dec u 0) as [->|Hu].
  2: { destruct (client_quiet (base s) u c HL F Hu) as (Q1 & Q2 & Q3 & Q4 & Q5). rewrite Hs in *. cbn [fst] in *.
       assert (NX : next_after T s (MThread u c) = next s).
       { unfold next_after, at_pc. cbn in Q5. destruct (nth_error (thr (base s)) u) as [[]|]; try reflexivity; discriminate. }
       split; [exact Q2|]. cbn [base]. rewrite Q3, Et. unfold nx. cbn [base next now nth_error]. rewrite Q1, Q4, NX. exact W. }
  (* the worker *)
  assert (Fi : fip (base s) = inflush w).
  { pose proof (I_flag C _ HI) as X. rewrite Et in X. cbn in X. rewrite F0, app_nil_r in X. unfold fl in X.
    destruct (fip (base s)), (inflush w); try discriminate; reflexivity. }
  pose proof (worker_mid _ _ _ Et M0) as Mw.
  cbn [step] in Hs. rewrite Et in Hs. cbn [nth_error] in Hs.
  unfold sees_end in Se. cbn [fst snd] in Se. rewrite Et in Se. cbn [nth_error] in Se.
  rewrite Et in G2. cbn [nth_error] in G2.
  assert (MB : forall w', thr b = w' :: cs -> mid b = length (midp w')) by (intros w' X; apply (worker_mid _ _ _ X M0)).
  unfold Ending. cbn [base now next].
  destruct w as [ |e|i e|i e| | | |k|k|k e|k oe|k|k|k|k|k|k| | | | | | | | | ]; try discriminate Hw;
    try (destruct k; try discriminate Hw); cbn [step_thread after_flush] in Hs; cbn [before] in W.
  - (* FTas *) rewrite Fi in Hs. cbn in Hs. injection Hs as <- _. cbn. rewrite Et. cbn. split; [exact F|exact W].
  - (* FGet *) destruct (q (base s)) as [|x rest] eqn:Hq.
    + cbn in W. assert (Hn : now s <= next s) by (refine (proj1 (G2 _)); discriminate).
      destruct (c_kind C) eqn:K; try congruence; injection Hs as <- _; cbn; rewrite ?Et, ?Hq; cbn;
        (split; [exact F|]); (split; [intros; lia|intros; lia]).
    + cbn [length] in W. replace (Nat.max 1 (S (length rest)) - 1) with (length rest) in W by lia.
      assert (Hn : now s <= next s) by (refine (proj1 (G2 _)); discriminate).
      destruct (q_stage x); injection Hs as <- _; cbn [s_thr s_q thr q fin]; rewrite ?Et; cbn [upd nth_error before].
      * rewrite Hq. cbn [length]. replace (Nat.max 1 (S (length rest)) - 1) with (length rest) by lia.
        unfold next_after, at_pc. rewrite Et. cbn. auto.
      * rewrite Hq. cbn [length]. replace (Nat.max 1 (S (length rest)) - 1) with (length rest) by lia.
        unfold next_after, at_pc. rewrite Et. cbn. auto.
      * split; [exact F|]. split; [intros; nia|]. intros Hr. unfold nx, mid. cbn [base now next thr s_thr s_q].
        rewrite Et. cbn. destruct (length rest); [lia|]. cbn. rewrite Nat.sub_0_r. lia.
  - (* FSub *) destruct W as [W1 W2].
    destruct (c_kind C) eqn:K; try congruence; injection Hs as <- _; cbn [s_thr s_q thr q fin]; rewrite Et; cbn [upd nth_error before];
      (split; [exact F|]); (split; [exact W1|]); intros Hr; specialize (W2 Hr); unfold nx in *; cbn [base now next] in *;
      rewrite Mw in W2; unfold mid; cbn [thr s_thr s_q]; rewrite Et; cbn; exact W2.
  - (* FWrite *) destruct W as [W1 W2].
    assert (NX : next_after T s (MThread 0 c) <= now s + L).
    { unfold next_after, at_pc. rewrite Et. cbn. destruct oe; [lia|]. destruct (_ || _); lia. }
    unfold nx in W2. rewrite Mw in W2.
    destruct oe as [e|]; [rewrite Ho in Hs|]; destruct (c_kind C) eqn:K; try congruence; injection Hs as <- _;
      cbn [s_thr s_q s_out thr q fin]; rewrite Et; cbn [upd nth_error before];
      (split; [exact F|]); (split; [exact W1|]); intros Hr; specialize (W2 Hr); unfold nx; cbn [base now next];
      unfold mid; cbn [thr s_thr s_out]; rewrite Et; cbn [upd flat_map midp app]; rewrite M0; cbn [length Nat.eqb];
      cbn in W2; lia.
  - (* FCasFlush *) destruct W as [W1 W2]. unfold nx in W2. rewrite Mw in W2. cbn in W2.
    assert (NX : next_after T s (MThread 0 c) = next s) by (unfold next_after, at_pc; rewrite Et; reflexivity).
    rewrite NX. destruct c; [ | | | | |destruct spurious; [|destruct (ntf (base s))]|destruct (ntf (base s))| | ];
      try destruct (c_kind C); injection Hs as <- _;
      cbn [s_thr s_q s_out s_flags thr q fin]; rewrite Et; cbn [upd nth_error before];
      (split; [exact F|]); (split; [exact W1|]); intros Hr; specialize (W2 Hr); unfold nx; cbn [base now next];
      unfold mid; cbn [thr s_thr s_out s_flags]; rewrite Et; cbn [upd flat_map midp app]; rewrite M0; cbn [length Nat.eqb]; lia.
  - (* FStream *) destruct W as [W1 W2]. unfold nx in W2. rewrite Mw in W2. cbn in W2.
    assert (NX : next_after T s (MThread 0 c) = next s) by (unfold next_after, at_pc; rewrite Et; reflexivity).
    rewrite NX. destruct (c_kind C); injection Hs as <- _;
      cbn [s_thr s_q s_out s_flags thr q fin]; rewrite Et; cbn [upd nth_error before];
      (split; [exact F|]); (split; [exact W1|]); intros Hr; specialize (W2 Hr); unfold nx; cbn [base now next];
      unfold mid; cbn [thr s_thr s_out s_flags]; rewrite Et; cbn [upd flat_map midp app]; rewrite M0; cbn [length Nat.eqb]; lia.
  - (* FNtf *) destruct W as [W1 W2]. unfold nx in W2. rewrite Mw in W2. cbn in W2.
    assert (NX : next_after T s (MThread 0 c) = next s) by (unfold next_after, at_pc; rewrite Et; reflexivity).
    rewrite NX. injection Hs as <- _;
      cbn [s_thr s_q s_out s_flags thr q fin]; rewrite Et; cbn [upd nth_error before];
      (split; [exact F|]); (split; [exact W1|]); intros Hr; specialize (W2 Hr); unfold nx; cbn [base now next];
      unfold mid; cbn [thr s_thr s_out s_flags]; rewrite Et; cbn [upd flat_map midp app]; rewrite M0; cbn [length Nat.eqb]; lia.
  - (* FCasRot *) destruct W as [W1 W2]. unfold nx in W2. rewrite Mw in W2. cbn in W2.
    assert (NX : next_after T s (MThread 0 c) = next s) by (unfold next_after, at_pc; rewrite Et; reflexivity).
    rewrite NX. destruct c; [ | | | | |destruct spurious; [|destruct (ntr (base s))]|destruct (ntr (base s))| | ];
      injection Hs as <- _;
      cbn [s_thr s_q s_out s_flags thr q fin]; rewrite Et; cbn [upd nth_error before];
      (split; [exact F|]); (split; [exact W1|]); intros Hr; specialize (W2 Hr); unfold nx; cbn [base now next];
      unfold mid; cbn [thr s_thr s_out s_flags]; rewrite Et; cbn [upd flat_map midp app]; rewrite M0; cbn [length Nat.eqb]; lia.
  - (* FReopen *) destruct W as [W1 W2]. unfold nx in W2. rewrite Mw in W2. cbn in W2.
    assert (NX : next_after T s (MThread 0 c) = next s) by (unfold next_after, at_pc; rewrite Et; reflexivity).
    rewrite NX. destruct c as [ | | | | | | | |[| |]]; try rewrite Ho in Hs;
      injection Hs as <- _;
      cbn [s_thr s_q s_out s_flags thr q fin]; rewrite Et; cbn [upd nth_error before];
      (split; [exact F|]); (split; [exact W1|]); intros Hr; specialize (W2 Hr); unfold nx; cbn [base now next];
      unfold mid; cbn [thr s_thr s_out s_flags]; rewrite Et; cbn [upd flat_map midp app]; rewrite M0; cbn [length Nat.eqb]; lia.
  - (* FClear *) destruct W as [W1 W2]. unfold nx in W2. rewrite Mw in W2. cbn in W2.
    assert (NX : next_after T s (MThread 0 c) = next s) by (unfold next_after, at_pc; rewrite Et; reflexivity).
    rewrite NX. injection Hs as <- _;
      cbn [s_thr s_q s_out s_flags thr q fin]; rewrite Et; cbn [upd nth_error before];
      (split; [exact F|]); (split; [exact W1|]); intros Hr; specialize (W2 Hr); unfold nx; cbn [base now next];
      unfold mid; cbn [thr s_thr s_out s_flags]; rewrite Et; cbn [upd flat_map midp app]; rewrite M0; cbn [length Nat.eqb]; lia.
  - (* WWait *)
    assert (NX : next_after T s (MThread 0 c) = next s) by (unfold next_after, at_pc; rewrite Et; reflexivity).
    rewrite NX. destruct c; try (injection Hs as <- _; rewrite Et; cbn [nth_error before]; split; [exact F|exact W]).
    destruct timeout; [|rewrite F, orb_true_r in Hs]; injection Hs as <- _; cbn [s_thr thr q fin]; rewrite Et; cbn [upd nth_error before];
      split; [exact F|exact W|exact F|exact W].
  - (* WFin *) destruct W as [W1 W2].
    assert (NX : next_after T s (MThread 0 c) = next s) by (unfold next_after, at_pc; rewrite Et; reflexivity).
    assert (Hb : b = s_thr (base s) 0 WSize).
    { rewrite F in Hs. destruct c; try (injection Hs as <- _; reflexivity). destruct spurious; [contradiction|]. injection Hs as <- _; reflexivity. }
    rewrite NX, Hb. cbn [s_thr thr q fin]. rewrite Et. cbn [upd nth_error before]. split; [exact F|]. split; [exact W1|].
    intros Hr. specialize (W2 Hr). unfold nx in *. rewrite Mw in W2. cbn in W2. cbn [base now next].
    unfold mid; cbn [thr s_thr s_out s_flags]; rewrite Et; cbn [upd flat_map midp app]; rewrite M0; cbn [length Nat.eqb]; lia.
  - (* WSize *) destruct W as [W1 W2].
    assert (NX : next_after T s (MThread 0 c) = next s) by (unfold next_after, at_pc; rewrite Et; reflexivity).
    rewrite NX. injection Hs as <- _. cbn [s_thr thr q fin]. rewrite Et. cbn [upd nth_error].
    split; [exact F|]. destruct (q (base s)) as [|x rest] eqn:Hq; [exact I|]. cbn [before length].
    unfold nx in W2. rewrite Mw in W2. cbn in W2. rewrite Nat.sub_0_r in W2.
    replace (Nat.max 1 (S (length rest)) - 1) with (length rest) by lia. apply W2. lia.
  - (* WDone *) injection Hs as <- _. rewrite Et. cbn. auto.
Qed.

Lemma ending_start n t h s tr : crun T (cstart T n t) h s tr -> quick h -> fin (base s) = true ->
  Ending (now s + Nat.max 1 (length (pending (base s))) * L) s.
Proof.
  intros R Qu F. split; [exact F|]. destruct (good_run T Hsz Hk Hl _ _ _ _ _ R Qu) as [G1 G2 _].
  pose proof (reach_life C true n _ _ (crun_reach T _ _ _ _ _ R)) as HL.
  destruct (ending_clients _ HL F) as (w & cs & Et & _). rewrite Et in *. cbn [nth_error] in *.
  assert (Hp : length (q (base s)) <= length (pending (base s))).
  { unfold pending. rewrite app_length, map_length. lia. }
  assert (X : (Nat.max 1 (length (q (base s)))) * L <= Nat.max 1 (length (pending (base s))) * L) by (apply Nat.mul_le_mono_r; lia).
  assert (Hb : if before w then next s + (Nat.max 1 (length (q (base s))) - 1) * L <= now s + Nat.max 1 (length (pending (base s))) * L
      else (length (q (base s)) = 0 -> now s <= now s + Nat.max 1 (length (pending (base s))) * L) /\
           (1 <= length (q (base s)) -> nx T s + (length (q (base s)) - 1) * L <= now s + Nat.max 1 (length (pending (base s))) * L)).
  { destruct (before w).
    - destruct (Nat.max 1 (length (q (base s)))) eqn:Hm; [lia|]. replace (S n0 - 1) with n0 by lia. cbn [Nat.mul] in X. lia.
    - split; [lia|]. intros Hq. rewrite (Nat.max_r 1 _ Hq) in X. destruct (length (q (base s))); [lia|].
      replace (S n0 - 1) with n0 by lia. cbn [Nat.mul] in X. unfold nx. destruct (Nat.eqb _ _); lia. }
  destruct w; exact Hb || exact I.
Qed.

(** Destruction, in every schedule. *)
Lemma destruction_time n t h s1 tr h2 s2 tr2 : crun T (cstart T n t) h s1 tr -> crun T s1 h2 s2 tr2 ->
  quick (h ++ h2) -> Forall sees_end h2 -> fin (base s1) = true ->
  nth_error (thr (base s2)) 0 = Some WDone \/
  now s2 <= now s1 + Nat.max 1 (length (pending (base s1))) * L.
Proof.
  intros R R2 Qu Se F. apply Forall_app in Qu as [Q1 Q2].
  pose proof (ending_start _ _ _ _ _ R Q1 F) as E0. set (D := now s1 + _) in *.
  assert (X : Ending D s2).
  { revert Q2 Se. induction R2 as [|h2 s tr2 ev s' ls R2 IH St]; intros Q2 Se; [exact E0|].
    apply Forall_app in Q2 as [Qa Qb]. apply Forall_app in Se as [Sa Sb]. inversion Qb; inversion Sb; subst.
    eapply ending_step; [exact (crun_app _ _ _ _ _ _ _ R R2)|apply Forall_app; auto|exact St|assumption|assumption|auto]. }
  pose proof (crun_app _ _ _ _ _ _ _ R R2) as R3.
  destruct (good_run T Hsz Hk Hl _ _ _ _ _ R3) as [G1 G2 _]; [apply Forall_app; auto|].
  destruct X as [_ X]. destruct (nth_error (thr (base s2)) 0) as [w|]; [|contradiction].
  destruct (before w) eqn:Hb.
  - right. assert (now s2 <= next s2) by (refine (proj1 (G2 _)); destruct w; discriminate). destruct w; try discriminate; rewrite ?Hb in X; cbn [before] in X; (eapply Nat.le_trans; [|exact X]); (eapply Nat.le_trans; [|apply Nat.le_add_r]); assumption.
  - destruct w; try discriminate; auto; right; cbn [before] in X; destruct X as [X1 X2];
      (assert (now s2 <= next s2) by (refine (proj1 (G2 _)); discriminate));
      unfold nx in X2; destruct (length (q (base s2))); try (apply X1; reflexivity);
      (specialize (X2 ltac:(lia)); destruct (Nat.eqb _ _); lia).
Qed.

(** ** Spinning *)

Lemma spins n t0 : exists h s tr, crun T (cstart T 1 t0) h s tr /\ quick h /\ wakes h = n /\ now s = t0 /\
  written (labels tr) = [] /\ nth_error (thr (base s)) 1 = Some (FGet KReturn).
Proof.
  (* the client is in flush() and has not gone on *)
  set (B := fun w => mkSt ([] : list (entry E)) 0%N true false false false true [] [] [] [w; FGet KReturn] [] [] [] []).
  assert (S0 : exists h tr, crun T (cstart T 1 t0) h (mkC (B WWait) t0 t0 None) tr /\ quick h /\ wakes h = 0 /\ written (labels tr) = []).
  { exists ([(cstart T 1 t0, Move (MThread 1 CFlush))] ++
            [(mkC (mkSt ([] : list (entry E)) 0%N false false false false true [] [] [] [WWait; FTas KReturn] [] [] [] []) t0 t0 None,
              Move (MThread 1 (CGo false)))]), [(t0, LLock 1)].
    split; [|split; [|split; [unfold wakes, cstart, init; cbn; rewrite Hl; reflexivity|reflexivity]]].
    - change [(t0, LLock 1)] with (([] ++ map (fun l : label E => (t0, l)) []) ++ map (fun l : label E => (t0, l)) [LLock 1]).
      eapply R_snoc; [eapply (R_snoc (h := [])); [apply R_start|]|].
      + apply N_move; [unfold cstart; unfold may, at_pc, init; cbn [base thr nth_error repeat]; rewrite ?Hl; reflexivity|].
        unfold cstart, cstep, step, init. cbn [base thr nth_error repeat]. rewrite Hl. reflexivity.
      + apply N_move; reflexivity.
    - repeat (apply Forall_cons; [exact I|]). apply Forall_nil. }
  assert (X : exists h tr, crun T (cstart T 1 t0) h (mkC (B WWait) t0 t0 None) tr /\ quick h /\ wakes h = n /\ written (labels tr) = []).
  { induction n as [|m IH]; [exact S0|]. destruct IH as (h & tr & R & Q & W & Wr).
    set (s1 := mkC (B WWait) t0 t0 None). set (s2 := mkC (B WWait) t0 t0 (Some t0)).
    set (s3 := mkC (B (FTas KWorker)) t0 t0 None). set (s4 := mkC (B WFin) t0 t0 None).
    exists ((((h ++ [(s1, Read)]) ++ [(s2, Move (MThread 0 (CWake true)))]) ++ [(s3, Move (MThread 0 (CGo false)))]) ++ [(s4, Move (MThread 0 (CGo false)))]), tr.
    split.
    -
      assert (N : forall h s s' ev, crun T (cstart T 1 t0) h s tr -> cnext T s ev s' [] -> crun T (cstart T 1 t0) (h ++ [(s, ev)]) s' tr).
      { intros h' s s' ev R' St. pose proof (R_snoc R' St) as X. cbn in X. rewrite app_nil_r in X. exact X. }
      eapply N; [eapply N; [eapply N; [eapply N; [exact R|]|]|]|].
      + apply N_read; reflexivity.
      + apply N_move; [cbn; apply Nat.leb_refl|reflexivity].
      + apply N_move; reflexivity.
      + apply N_move; reflexivity.
    - split; [|split; [|exact Wr]].
      + unfold quick. rewrite !Forall_app. repeat split; try exact Q; (apply Forall_cons; [exact I|apply Forall_nil]).
      + unfold wakes in *. rewrite !filter_app, !app_length, W. cbn. lia. }
  destruct X as (h & tr & R & Q & W & Wr). exists h, (mkC (B WWait) t0 t0 None), tr. repeat (split; [assumption|]). split; [reflexivity|]. split; [exact Wr|reflexivity].
Qed.

End End_.
