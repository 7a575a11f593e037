(** * Every execution of a sink is one in time, and one with time stamps *)
From Coq Require Import List Arith NArith Bool Lia.
From Verif Require Import Base LevelModel SinkModel SinkSpec SinkProofs SinkLife.
From Verif Require ClockModel ClockSpec StampModel StampSpec StampProofs.
Import ListNotations.

Lemma snoc_exec {E} (C : cfg E) ms m s : exec C s (ms ++ [m]) =
  (let '(s1, l1) := exec C s ms in let '(s2, l2) := step C s1 m in (s2, l1 ++ l2)).
Proof.
  revert s. induction ms as [|m0 ms IH]; intros s; cbn [app exec].
  - destruct (step C s m). now rewrite app_nil_r.
  - destruct (step C s m0) as [s1 l1]. rewrite IH. destruct (exec C s1 ms) as [s2 l2]. destruct (step C s2 m). now rewrite app_assoc.
Qed.

Section Stamped.
Context {E : Type}.
Variable C : cfg E.
Variable op : bool.
Variable n : nat.

Theorem stamped_execution t0 ms s ls : exec C (init C op n) ms = (s, ls) ->
  exists wms w tr, StampModel.wexec C (StampModel.winit C op n t0) wms = (w, tr) /\ StampModel.base w = s /\ map snd tr = ls.
Proof.
  revert s ls. induction ms as [|m ms IH] using rev_ind; intros s ls X.
  - cbn in X. inversion X; subst. exists [], (StampModel.winit C op n t0), []. repeat split.
  - rewrite snoc_exec in X. destruct (exec C (init C op n) ms) as [s1 l1]. destruct (IH _ _ eq_refl) as (wms & w & tr & W & B & Lb). clear IH.
    pose proof (StampProofs.wreach_ok C op n w tr (ex_intro _ t0 (ex_intro _ wms W))) as OK.
    destruct (step C s1 m) as [s2 l2] eqn:ES. inversion X; subst s ls. clear X.
    assert (K : exists more w1, StampModel.wexec C w more = (w1, []) /\ StampModel.base w1 = s1 /\ StampModel.wmay w1 m = true).
    { destruct m as [t c|k]; [|exists [], w; repeat split; auto].
      destruct (StampModel.constructing (StampModel.base w) t) as [i|] eqn:Q.
      2:{ exists [], w. split; [reflexivity|]. split; [exact B|]. cbn [StampModel.wmay]. now rewrite Q. }
      destruct (StampModel.stamp_of w i) as [v|] eqn:V.
      { exists [], w. split; [reflexivity|]. split; [exact B|]. cbn [StampModel.wmay]. now rewrite Q, V. }
      exists [StampModel.WStamp t]. cbn [StampModel.wexec StampModel.wstep]. rewrite Q, V. eexists. split; [reflexivity|]. split; [exact B|].
      cbn [StampModel.wmay StampModel.base]. rewrite Q. unfold StampModel.stamp_of. cbn [StampModel.stamps].
      rewrite StampProofs.set_nth_same; [reflexivity|]. rewrite (StampProofs.w_len _ _ OK).
      unfold StampModel.constructing in Q. destruct (nth_error (thr (StampModel.base w)) t) as [p|] eqn:P; [|discriminate].
      destruct p; try discriminate. inversion Q; subst. exact (StampProofs.w_building _ _ OK _ _ _ P). }
    destruct K as (more & w1 & W1 & B1 & M1).
    exists (wms ++ more ++ [StampModel.WMove m]). rewrite !StampProofs.wexec_app, W. cbv beta iota. rewrite StampProofs.wexec_app, W1. cbn [StampModel.wexec StampModel.wstep].
    rewrite M1, B1, ES. eexists _, _. split; [reflexivity|]. split; [reflexivity|].
    rewrite app_nil_r. cbn [app]. rewrite map_app, Lb, map_map. cbn [snd]. now rewrite map_id.
Qed.
End Stamped.

Section Timed.
Context {E : Type}.
Variable T : ClockModel.tcfg E.
Notation C := (ClockModel.t_sink T).
Variable n : nat.

Lemma worker_waits s ls t : reach C true n s ls -> nth_error (thr s) t = Some WWait -> t = 0.
Proof.
  intros R H. destruct (reach_life C true n s ls R) as (w & cs & E1 & _ & F & _). rewrite E1 in H. destruct t as [|t]; [reflexivity|].
  cbn in H. apply nth_error_In in H. rewrite Forall_forall in F. specialize (F _ H). discriminate.
Qed.

Theorem timed_execution t0 ms s ls : exec C (init C true n) ms = (s, ls) ->
  exists h x tr, ClockModel.crun T (ClockModel.cstart T n t0) h x tr /\ ClockModel.base x = s /\ ClockSpec.labels tr = ls.
Proof.
  revert s ls. induction ms as [|m ms IH] using rev_ind; intros s ls X.
  - cbn in X. inversion X; subst. exists [], (ClockModel.cstart T n t0), []. split; [constructor|]. split; reflexivity.
  - rewrite snoc_exec in X. destruct (exec C (init C true n) ms) as [s1 l1] eqn:E1. destruct (IH _ _ eq_refl) as (h & x & tr & W & B & Lb). clear IH.
    destruct (step C s1 m) as [s2 l2] eqn:ES. inversion X; subst s ls. clear X.
    assert (R1 : reach C true n s1 l1) by (exists ms; exact E1).
    (* the time has to be read before the wait, and has to pass *)
    assert (K : (exists h1 x1 tr1, ClockModel.crun T (ClockModel.cstart T n t0) h1 x1 tr1 /\ ClockModel.base x1 = s1 /\ ClockSpec.labels tr1 = l1 /\
                  ClockModel.may x1 m = true) \/ (s2 = s1 /\ l2 = [])).
    { destruct m as [t c|k]; [|left; exists h, x, tr; auto].
      destruct (nth_error (thr s1) t) as [p|] eqn:P.
      2:{ left. exists h, x, tr. split; [exact W|]. split; [exact B|]. split; [exact Lb|]. cbn [ClockModel.may]. unfold ClockModel.at_pc. now rewrite B, P. }
      assert (D : p = WWait \/ p <> WWait) by (destruct p; auto; right; discriminate).
      destruct D as [-> |D].
      2:{ left. exists h, x, tr. split; [exact W|]. split; [exact B|]. split; [exact Lb|]. cbn [ClockModel.may]. unfold ClockModel.at_pc. rewrite B, P. destruct p; try reflexivity. now destruct D. }
      assert (t = 0) by (eapply worker_waits; eauto). subst t.
      assert (WK : (exists b, c = CWake b) \/ (s2 = s1 /\ l2 = [])).
      { cbn [step] in ES. rewrite P in ES. cbn [step_thread] in ES. destruct c; try (right; now inversion ES). left. eauto. }
      destruct WK as [[b ->]|WK]; [left|right; exact WK].
      assert (U : exists h1 x1 tr1 u, ClockModel.crun T (ClockModel.cstart T n t0) h1 x1 tr1 /\ ClockModel.base x1 = s1 /\ ClockSpec.labels tr1 = l1 /\ ClockModel.until x1 = Some u).
      { destruct (ClockModel.until x) as [u|] eqn:Q; [exists h, x, tr, u; auto|].
        pose proof (ClockModel.R_snoc W (ClockModel.N_read T x ltac:(unfold ClockModel.at_pc; now rewrite B) Q)) as W2.
        eexists _, _, _, _. split; [exact W2|]. split; [exact B|]. split; [unfold ClockSpec.labels in *; rewrite map_app; cbn; rewrite app_nil_r; exact Lb|reflexivity]. }
      destruct U as (h1 & x1 & tr1 & u & W1 & B1 & L1 & U1).
      pose proof (ClockModel.R_snoc W1 (ClockModel.N_tick T x1 u)) as W3.
      eexists _, _, _. split; [exact W3|]. split; [exact B1|]. split; [unfold ClockSpec.labels in *; rewrite map_app; cbn; rewrite app_nil_r; exact L1|].
      cbn [ClockModel.may ClockModel.until ClockModel.now]. unfold ClockModel.at_pc. cbn [ClockModel.base]. rewrite B1, P, U1. destruct b; [|reflexivity]. apply Nat.leb_le. lia. }
    destruct K as [(h1 & x1 & tr1 & W1 & B1 & L1 & M1)|[-> ->]].
    + pose proof (ClockModel.N_move T x1 m M1 (surjective_pairing _)) as N. pose proof (ClockModel.R_snoc W1 N) as W2.
      unfold ClockModel.cstep in W2. rewrite B1, ES in W2. cbn [fst snd] in W2.
      eexists _, _, _. split; [exact W2|]. split; [reflexivity|].
      unfold ClockSpec.labels in *. rewrite map_app, map_map, map_id, L1. reflexivity.
    + exists h, x, tr. rewrite app_nil_r. auto.
Qed.
End Timed.
