(** * A sleeping worker that is notified re-opens the file without time passing *)

From Coq Require Import List Arith NArith Bool Lia.
From Verif Require Import Base LevelModel SinkModel SinkSpec SinkProofs SinkLabels SinkLife SinkProps SinkProgress SinkReturn SinkRotate
  ClockModel ClockSpec ClockProofs ClockEnd ClockRotate.
Import ListNotations.

Section Go.
Context {E : Type}.
Variable T : tcfg E.
Notation C := (t_sink T).
Hypothesis Hsz : sizes_ok C.
Hypothesis Hf : c_kind C = KFile.
Hypothesis Hl : c_lat0 C = false.

Lemma crun_cons s0 ev s1 ls h s tr : cnext T s0 ev s1 ls -> crun T s1 h s tr ->
  crun T s0 ((s0, ev) :: h) s (map (fun l => (now s0, l)) ls ++ tr).
Proof.
  intros N R. induction R as [|h s tr ev' s' ls' R IH N'].
  - rewrite app_nil_r. exact (R_snoc (R_start T s0) N).
  - rewrite app_assoc. exact (R_snoc IH N').
Qed.

(* [s2] comes from [s1] by moves of threads, without time passing *)
Definition still (s1 s2 : cstate E) (l : list (label E)) : Prop :=
  exists h, crun T s1 h s2 (map (fun x => (now s1, x)) l) /\ now s2 = now s1 /\ Forall (fun x => exists m, snd x = Move m) h /\ steady h.

Lemma still_refl s : still s s [].
Proof. exists []. split; [constructor|]. split; [reflexivity|]. split; constructor. Qed.
Lemma still_step s m s' ls s2 l : cnext T s (Move m) s' ls -> now s' = now s -> still s' s2 l -> spurious m = false -> still s s2 (ls ++ l).
Proof.
  intros N En (h & R & Ew & F & St) Sp. exists ((s, Move m) :: h). rewrite map_app. rewrite En in R, Ew. split; [exact (crun_cons _ _ _ _ _ _ _ N R)|].
  split; [exact Ew|]. split; constructor; [cbn; eauto|exact F|exact Sp|exact St].
Qed.

Lemma go_thread s t c p b ls : nth_error (thr (base s)) t = Some p -> p <> WWait -> step_thread C (base s) t c p = (b, ls) ->
  exists s', cnext T s (Move (MThread t c)) s' ls /\ base s' = b /\ now s' = now s /\ until s' = until s.
Proof.
  intros N NW H. eexists. split; [constructor; [|unfold cstep; cbn [step]; rewrite N, H; reflexivity]|].
  - unfold may, at_pc. rewrite N. destruct p; try reflexivity. congruence.
  - cbn. split; [reflexivity|]. split; [reflexivity|]. unfold at_pc. rewrite N. destruct p; try reflexivity. congruence.
Qed.

Definition at0 (s : cstate E) (p : pc E) : Prop := nth_error (thr (base s)) 0 = Some p.

Lemma upd0 (s : cstate E) p0 p : at0 s p0 -> nth_error (upd (thr (base s)) 0 p) 0 = Some p.
Proof. intros H. apply nth_error_upd, nth_error_Some. unfold at0 in H. congruence. Qed.

Definition reopens (s : cstate E) : Prop := exists s2 l, still s s2 l /\ In (LReopen 0 ROFresh) l.

Lemma reopens_step s c p p' b ls : at0 s p -> p <> WWait -> step_thread C (base s) 0 c p = (b, ls) ->
  (c = CGo false \/ c = COpen ROFresh) -> nth_error (thr b) 0 = Some p' ->
  (forall s', base s' = b -> at0 s' p' -> reopens s') -> reopens s.
Proof.
  intros A NW H Hc Hp K. destruct (go_thread s 0 c p b ls A NW H) as (s' & N & Eb & En & Eu).
  destruct (K s' Eb) as (s2 & l & S & I0); [unfold at0; rewrite Eb; exact Hp|].
  exists s2, (ls ++ l). split; [|apply in_or_app; right; exact I0]. eapply still_step; [exact N|exact En|exact S|].
  destruct Hc as [-> | ->]; reflexivity.
Qed.

Lemma from_reopen s k : at0 s (FReopen k) -> reopens s.
Proof.
  intros A. assert (H : exists b, step_thread C (base s) 0 (COpen ROFresh) (FReopen k) = (b, [LReopen 0 ROFresh])).
  { cbn [step_thread]. destruct (opened (base s)); eexists; reflexivity. }
  destruct H as [b H]. destruct (go_thread s 0 _ _ _ _ A ltac:(discriminate) H) as (s' & N & Eb & En & Eu).
  exists s', ([LReopen 0 ROFresh] ++ []). split; [|left; reflexivity]. eapply still_step; [exact N|exact En|apply still_refl|reflexivity].
Qed.
Lemma from_cas_rot s k : at0 s (FCasRot k) -> ntr (base s) = true -> reopens s.
Proof.
  intros A Nr. eapply (reopens_step s (CGo false)); [exact A|discriminate|cbn [step_thread]; rewrite Nr; reflexivity|auto|cbn; apply (upd0 s _ _ A)|].
  intros s' _ A'. exact (from_reopen s' k A').
Qed.
Lemma from_cas_flush s k : at0 s (FCasFlush k) -> ntr (base s) = true -> reopens s.
Proof.
  intros A Nr. destruct (ntf (base s)) eqn:F.
  - eapply (reopens_step s (CGo false)); [exact A|discriminate|cbn [step_thread]; rewrite F; reflexivity|auto|cbn; apply (upd0 s _ _ A)|].
    intros s' E' A'. eapply (reopens_step s' (CGo false)); [exact A'|discriminate|cbn [step_thread]; rewrite Hf; reflexivity|auto|cbn; apply (upd0 s' _ _ A')|].
    intros s'' E'' A''. apply (from_cas_rot s'' k A''). rewrite E''. cbn. rewrite E'. exact Nr.
  - eapply (reopens_step s (CGo false)); [exact A|discriminate|cbn [step_thread]; rewrite F, Hf; reflexivity|auto|cbn; apply (upd0 s _ _ A)|].
    intros s' E' A'. apply (from_cas_rot s' k A'). rewrite E'. exact Nr.
Qed.
Lemma from_tas s k : at0 s (FTas k) -> fip (base s) = false -> ntr (base s) = true ->
  match q (base s) with [] => True | x :: _ => q_stage x = Published end -> reopens s.
Proof.
  intros A Fp Nr Q. eapply (reopens_step s (CGo false)); [exact A|discriminate|cbn [step_thread]; rewrite Fp; reflexivity|auto|cbn; apply (upd0 s _ _ A)|].
  intros s1 E1 A1. assert (Nr1 : ntr (base s1) = true) by (rewrite E1; exact Nr). assert (Q1 : q (base s1) = q (base s)) by (rewrite E1; reflexivity).
  destruct (q (base s)) as [|x rest].
  - eapply (reopens_step s1 (CGo false)); [exact A1|discriminate|cbn [step_thread]; rewrite Q1, Hf; reflexivity|auto|cbn; apply (upd0 s1 _ _ A1)|].
    intros s2 E2 A2. eapply (reopens_step s2 (CGo false)); [exact A2|discriminate|cbn [step_thread]; rewrite Hf; reflexivity|auto|cbn; apply (upd0 s2 _ _ A2)|].
    intros s3 E3 A3. apply (from_cas_rot s3 k A3). rewrite E3. cbn. rewrite E2. exact Nr1.
  - eapply (reopens_step s1 (CGo false)); [exact A1|discriminate|cbn [step_thread]; rewrite Q1, Q; reflexivity|auto|cbn; apply (upd0 s1 _ _ A1)|].
    intros s2 E2 A2. assert (Nr2 : ntr (base s2) = true) by (rewrite E2; exact Nr1).
    eapply (reopens_step s2 (CGo false)); [exact A2|discriminate|cbn [step_thread]; rewrite Hf; reflexivity|auto|cbn; apply (upd0 s2 _ _ A2)|].
    intros s3 E3 A3. assert (Nr3 : ntr (base s3) = true) by (rewrite E3; exact Nr2).
    assert (H : exists b ls, step_thread C (base s3) 0 (CGo false) (FWrite k (Some (q_ev x))) = (b, ls) /\ thr b = upd (thr (base s3)) 0 (FCasFlush k) /\ ntr b = ntr (base s3)).
    { cbn [step_thread]. destruct (opened (base s3)); eexists; eexists; (split; [reflexivity|split; reflexivity]). }
    destruct H as (b & ls & H & Ht & Hn). eapply (reopens_step s3 (CGo false)); [exact A3|discriminate|exact H|auto|rewrite Ht; apply (upd0 s3 _ _ A3)|].
    intros s4 E4 A4. apply (from_cas_flush s4 k A4). rewrite E4, Hn. exact Nr3.
Qed.

Lemma asleep_reopens s th u : nth_error (thr (base s)) th = Some RAsync -> at0 s WWait -> until s = Some u ->
  fip (base s) = false -> ntr (base s) = true ->
  match q (base s) with [] => True | x :: _ => q_stage x = Published end -> 
  exists s2 l, still s s2 l /\ In (LReopen 0 ROFresh) l.
Proof.
  intros R A U Fp Nr Q.
  assert (Nth : th <> 0) by (intros ->; unfold at0 in A; congruence).
  destruct (go_thread s th (CGo false) RAsync (s_thr (s_flags (base s) (fip (base s)) true (ntr (base s)) (fin (base s))) th Idle) [LReturn th] R ltac:(discriminate))
    as (s1 & N1 & E1 & T1 & U1).
  { cbn [step_thread]. rewrite Hl. reflexivity. }
  assert (A1 : at0 s1 WWait) by (unfold at0; rewrite E1; cbn [thr s_thr s_flags]; rewrite nth0_upd by exact Nth; exact A).
  assert (F1 : ntf (base s1) = true) by (rewrite E1; reflexivity).
  assert (N2 : cnext T s1 (Move (MThread 0 (CWake false))) (mkC (s_thr (base s1) 0 (FTas KWorker)) (now s1) (next s1) None) []).
  { constructor.
    - unfold may, at_pc. unfold at0 in A1. rewrite A1, U1, U. reflexivity.
    - unfold cstep. cbn [step]. unfold at0 in A1. rewrite A1. cbn [step_thread]. rewrite F1. cbn [orb].
      unfold next_after, until_after, at_pc. rewrite A1. reflexivity. }
  set (s2 := mkC _ _ _ _) in N2.
  assert (A2 : at0 s2 (FTas KWorker)) by (apply (upd0 s1 _ _ A1)).
  destruct (from_tas s2 KWorker A2) as (s3 & l & S & I0); [cbn; rewrite E1; exact Fp|cbn; rewrite E1; exact Nr|cbn; rewrite E1; exact Q|].
  exists s3, ([LReturn th] ++ [] ++ l). split; [|right; exact I0].
  eapply still_step; [exact N1|exact T1| |reflexivity]. eapply still_step; [exact N2|reflexivity|exact S|reflexivity].
Qed.

Theorem rotation_happens n t0 h s1 tr pre t th post : crun T (cstart T n t0) h s1 tr ->
  tr = pre ++ (t, LRotate th) :: post -> no_reopen post -> quick h -> steady h ->
  nth_error (thr (base s1)) th = Some RAsync -> fip (base s1) = false -> asleep s1 = true -> fin (base s1) = false ->
  match q (base s1) with [] => True | x :: _ => q_stage x = Published end ->
  exists h2 s2 tr2, crun T s1 h2 s2 tr2 /\ Forall (fun x => exists m, snd x = Move m) h2 /\ steady h2 /\
    now s2 = now s1 /\ In (now s1, LReopen 0 ROFresh) tr2.
Proof.
  intros R Htr NR Q S Rt Fp As Fi Qh. unfold asleep in As.
  destruct (nth_error (thr (base s1)) 0) as [p|] eqn:A; [|discriminate]. destruct p; try discriminate.
  destruct (until s1) as [u|] eqn:U; [|discriminate].
  assert (Nr : ntr (base s1) = true).
  { destruct (after_rotate T Hsz Hf Hl _ _ _ _ _ _ _ _ _ R Q S Htr NR) as [H|(P & _)]; [congruence|].
    destruct P as [P|(v & p & Hp & P)]; [exact P|]. exfalso.
    assert (P' : J v (base s1)) by (exists p; split; [exact Hp|]; destruct p; try discriminate P; (split; [reflexivity|]); (split; [discriminate|right; reflexivity])).
    pose proof (J_locked T Hsz _ _ _ _ (crun_reach T _ _ _ _ _ R) P'). congruence. }
  destruct (asleep_reopens s1 th u Rt A U Fp Nr Qh) as (s2 & l & (h2 & R2 & En & F & St) & I0).
  exists h2, s2, (map (fun x => (now s1, x)) l). split; [exact R2|]. split; [exact F|]. split; [exact St|]. split; [exact En|].
  apply in_map_iff. exists (LReopen 0 ROFresh). split; [reflexivity|exact I0].
Qed.
End Go.
