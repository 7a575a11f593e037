(** * How long a requested rotation takes *)

From Coq Require Import List Arith NArith Bool Lia.
From Verif Require Import Base LevelModel SinkModel SinkSpec SinkProofs SinkLabels SinkLife SinkProps SinkProgress SinkReturn SinkRotate
  ClockModel ClockSpec ClockProofs ClockEnd.
Import ListNotations.

Ltac split_step :=
  repeat match goal with
  | |- context [match ?x with _ => _ end] =>
      match type of x with
      | choice _ => destruct x
      | bool => destruct x eqn:?
      | list _ => destruct x eqn:?
      | option _ => destruct x eqn:?
      | stage => destruct x eqn:?
      | sink_kind => destruct x eqn:?
      | reopen => destruct x
      | SinkModel.pc _ => destruct x eqn:?
      end
  end.

Section Rot.
Context {E : Type}.
Variable T : tcfg E.
Notation C := (t_sink T).
Notation L := (t_lat T).
Notation pc := (pc E).
Hypothesis Hsz : sizes_ok C.
Hypothesis Hf : c_kind C = KFile.
Hypothesis Hl : c_lat0 C = false.

Lemma not_syslog : c_kind C <> KSyslog.
Proof. rewrite Hf. discriminate. Qed.

Lemma fin_stays s m : fin s = true -> fin (fst (step C s m)) = true.
Proof.
  intros H. destruct m as [t c|k]; [|exact H]. cbn [step].
  destruct (nth_error (thr s) t) as [p|]; [|exact H].
  destruct p; cbn [step_thread]; split_step; cbn [fst fin s_thr s_q s_acc s_flags s_out]; auto; congruence.
Qed.

Lemma lock_or_free s t c p : nth_error (thr s) t = Some p -> fip s = false ->
  fip (fst (step_thread C s t c p)) = false \/
  (exists k, p = FTas k /\ In (LLock t) (snd (step_thread C s t c p))).
Proof.
  intros _ H. destruct p; cbn [step_thread]; try (rewrite H; right; eexists; split; [reflexivity|left; reflexivity]);
    left; split_step; cbn [fst fip s_thr s_q s_acc s_flags s_out]; auto; congruence.
Qed.

Lemma running s : Life C true s -> fin s = false -> nth_error (thr s) 0 <> Some WDone.
Proof.
  intros (w & cs & Et & _ & _ & _ & _ & M) F H. rewrite Et in H. injection H as ->.
  assert (Hw : hw C true = true) by (unfold hw; rewrite Hl; reflexivity).
  destruct M as [(_ & _ & N)|(l1 & p & l2 & _ & _ & _ & _ & D)]; [destruct (N Hw); reflexivity|].
  unfold dcond in D. rewrite Hl, F in D. destruct p; try contradiction; try (destruct D; discriminate).
  destruct D as [_ D]. destruct (D Hw); reflexivity.
Qed.

(** ** The invariant *)

Definition X (t D : nat) (s : cstate E) : Prop :=
  now s = t \/ (exists u, J u (base s)) \/
  (fip (base s) = false /\ nth_error (thr (base s)) 0 = Some (FTas KWorker)) \/
  (fip (base s) = false /\ nth_error (thr (base s)) 0 = Some WWait /\ next s <= D /\ forall u, until s = Some u -> u <= D).

Definition K (t : nat) (s : cstate E) : Prop :=
  fin (base s) = true \/ (pend (base s) /\ t <= now s /\ now s <= t + L /\ X t (t + L) s).

Lemma J_locked n s ls u : reach C true n s ls -> J u s -> fip s = true.
Proof.
  intros R (p & Hp & Hi & _). pose proof (reach_inv C _ _ _ _ Hsz (or_intror eq_refl) R) as HI.
  destruct (thr_split _ _ _ Hp) as (a & b & E1 & _ & _). exact (proj2 (proj2 (others_out C s a p b HI E1 Hi))).
Qed.

Lemma K_step n t0 h s tr ev s' ls t : crun T (cstart T n t0) h s tr -> quick h -> cnext T s ev s' ls -> calm (s, ev) ->
  match ev with Move m => spurious m = false | _ => True end -> K t s ->
  (exists v r, In (LReopen v r) ls) \/ K t s'.
Proof.
  intros R Q St Ca Sp HK. pose proof (crun_reach _ _ _ _ _ _ R) as Re.
  pose proof (reach_inv C _ _ _ _ Hsz (or_intror eq_refl) Re) as HI.
  pose proof (reach_life C true n _ _ Re) as HL.
  destruct HK as [F|(P & B0 & B1 & HX)].
  { right. left. inversion St; subst; cbn [base]; auto.
    unfold cstep in H0. pose proof (fin_stays (base s) m F) as G. destruct (step C (base s) m) as [b l0]. injection H0 as <- <-. exact G. }
  inversion St; subst; clear St.
  - (* a step *)
    unfold cstep in H0. destruct (step C (base s) m) as [b l0] eqn:Hs. injection H0 as <- <-.
    pose proof (pend_step C Hsz Hf true n _ _ m Re P Sp) as PS. rewrite Hs in PS. cbn [fst snd] in PS.
    destruct PS as [(v & r & Hv)|(_ & P' & LJ)]; [left; exists v, r; rewrite Hv; left; reflexivity|].
    destruct HX as [Hn|[(u & Hu)|[(Fi & Wk)|(Fi & Wk & Nx & Un)]]].
    + right. right. cbn [base now]. split; [exact P'|]. split; [exact B0|]. split; [exact B1|]. left. exact Hn.
    + pose proof (J_step C Hsz Hf true n u _ _ m Re Hu Sp) as JS. rewrite Hs in JS. cbn [fst snd] in JS.
      destruct JS as [(v & r & Hv)|(_ & Hj)]; [left; exists v, r; rewrite Hv; left; reflexivity|].
      right. right. cbn [base now]. split; [exact P'|]. split; [exact B0|]. split; [exact B1|]. right. left. exists u. exact Hj.
    + right. right. cbn [base now]. split; [exact P'|]. split; [exact B0|]. split; [exact B1|].
      destruct m as [u c|k].
      2: { cbn in Hs. injection Hs as <- <-. right. right. left. split; [exact Fi|exact Wk]. }
      cbn [step] in Hs. destruct (nth_error (thr (base s)) u) as [p|] eqn:Hp.
      2: { injection Hs as <- <-. right. right. left. split; [exact Fi|exact Wk]. }
      pose proof (lock_or_free (base s) u c p Hp Fi) as LF. destruct (step_own C (base s) u c p Hp) as [_ (p' & Et)].
      rewrite Hs in LF, Et. cbn [fst snd] in LF, Et. destruct LF as [LF|(k & -> & Hin)].
      * right. right. left. split; [exact LF|]. destruct u as [|u].
        -- rewrite Hp in Wk. injection Wk as ->. cbn [step_thread] in Hs. rewrite Fi in Hs. injection Hs as <- <-. discriminate LF.
        -- cbn [base]. rewrite Et, nth_error_upd_other by discriminate. exact Wk.
      * right. left. exists u. exact (proj2 (LJ u Hin)).
    + right. right. cbn [base now]. split; [exact P'|]. split; [exact B0|]. split; [exact B1|].
      destruct m as [u c|k].
      2: { cbn in Hs. injection Hs as <- <-. right. right. right. cbn [next_after until_after next until base thr fip s_out]. auto. }
      unfold may in H. cbn [step next_after until_after] in *. unfold at_pc in *.
      destruct (nth_error (thr (base s)) u) as [p|] eqn:Hp.
      2: { injection Hs as <- <-. right. right. right. cbn [next until base]. auto. }
      pose proof (lock_or_free (base s) u c p Hp Fi) as LF. destruct (step_own C (base s) u c p Hp) as [_ (p' & Et)].
      rewrite Hs in LF, Et. cbn [fst snd] in LF, Et. destruct LF as [LF|(k & -> & Hin)].
      2: { right. left. exists u. exact (proj2 (LJ u Hin)). }
      destruct u as [|u].
      * rewrite Hp in Wk. injection Wk as ->. cbn [step_thread] in Hs.
        assert (U : forall q, nth_error (upd (thr (base s)) 0 q) 0 = Some q).
        { intros q. apply nth_error_upd. apply nth_error_Some. congruence. }
        destruct c as [ | | | | | | |b0| ]; try (destruct (until s); discriminate). destruct b0.
        -- injection Hs as <- <-. right. right. left. cbn [base thr fip s_thr]. auto.
        -- destruct (ntf (base s) || fin (base s)); injection Hs as <- <-.
           ++ right. right. left. cbn [base thr fip s_thr]. auto.
           ++ right. right. right. cbn [base next until]. split; [auto|]. split; [auto|]. split; [exact Nx|discriminate].
      * right. right. right. cbn [base next until].
        split; [exact LF|]. split; [rewrite Et, nth_error_upd_other by discriminate; exact Wk|].
        assert (NF : inflush p = false).
        { destruct (inflush p) eqn:Hi; [|reflexivity]. destruct (thr_split _ _ _ Hp) as (a & bb & E1 & _ & _).
          pose proof (proj2 (proj2 (others_out C (base s) a p bb HI E1 Hi))). congruence. }
        split.
        -- destruct p; try exact Nx. discriminate.
        -- intros w. destruct p; try (exact (Un w)). discriminate.
  - (* the worker reads the time *)
    right. right. cbn [base now]. split; [exact P|]. split; [exact B0|]. split; [exact B1|].
    destruct HX as [Hn|[Hu|[Hw|(Fi & Wk & Nx & Un)]]]; unfold X; cbn [base now next until]; auto.
    right. right. right. split; [exact Fi|]. split; [exact Wk|]. split; [exact Nx|]. intros u Hu. injection Hu as <-. exact Nx.
  - (* time passes *)
    right. destruct (fin (base s)) eqn:Fn; [left; exact Fn|].
    pose proof (running _ HL Fn) as Rn. unfold calm in Ca. cbn [fst snd] in Ca. destruct Ca as [->|[Fi Ca]].
    + right. unfold X. cbn [base now next until]. rewrite Nat.add_0_r. auto.
    + destruct (nth_error (thr (base s)) 0) as [w|] eqn:Wk; [|destruct (until s); contradiction].
      assert (w = WWait) by (destruct w, (until s); try contradiction; congruence). subst w.
      destruct (until s) as [u|] eqn:Un; [|contradiction].
      destruct HX as [Hn|[(v & Hv)|[(_ & Wk')|(_ & _ & Nx & Un')]]].
      * destruct (good_run T Hsz not_syslog Hl _ _ _ _ _ R Q) as [G1 G2 _].
        rewrite Wk in G2. destruct G2 as [G2 G3]; [discriminate|]. destruct (G3 u Un) as [G4 G5].
        right. cbn [base now]. split; [exact P|]. split; [lia|]. split; [lia|]. right. right. right. cbn [base next until].
        split; [exact Fi|]. split; [exact Wk|]. split; [lia|]. intros u' Hu'. injection Hu' as <-. lia.
      * rewrite (J_locked _ _ _ _ Re Hv) in Fi. discriminate.
      * rewrite Wk in Wk'. discriminate.
      * pose proof (Un' u Un). right. cbn [base now]. split; [exact P|]. split; [lia|]. split; [lia|].
        right. right. right. cbn [base next until]. split; [exact Fi|]. split; [exact Wk|]. split; [exact Nx|]. intros u0 Hu0. injection Hu0 as <-. assumption.
Qed.

Lemma no_reopen_app (a b : list (nat * label E)) : no_reopen (a ++ b) -> no_reopen a /\ no_reopen b.
Proof. intros H. split; intros t th r Hi; apply (H t th r), in_app_iff; auto. Qed.

Lemma no_reopen_stamped t (ls : list (label E)) : no_reopen (map (fun l => (t, l)) ls) -> forall v r, ~ In (LReopen v r) ls.
Proof. intros H v r Hi. apply (H t v r). apply in_map_iff. exists (LReopen v r). auto. Qed.

Lemma K_run n t0 h0 s0 tr0 t h s tr : crun T (cstart T n t0) h0 s0 tr0 -> K t s0 -> crun T s0 h s tr ->
  quick (h0 ++ h) -> steady h -> no_reopen tr -> K t s.
Proof.
  intros R0 K0. induction 1 as [|h s tr ev s' ls R IH St]; intros Q S N; [exact K0|].
  rewrite app_assoc in Q. apply Forall_app in Q as [Q1 Q2]. apply Forall_app in S as [S1 S2].
  apply no_reopen_app in N as [N1 N2]. inversion Q2; subst. inversion S2; subst.
  destruct (K_step n t0 (h0 ++ h) s _ ev s' ls t (crun_app T _ _ _ _ _ _ _ R0 R) Q1 St H1 H3 (IH Q1 S1 N1)) as [(v & r & Hr)|HK]; [|exact HK].
  destruct (no_reopen_stamped _ _ N2 v r Hr).
Qed.

(** An execution can be split where an observation was made. *)
Lemma crun_split s0 h s tr : crun T s0 h s tr -> forall pre x post, tr = pre ++ x :: post ->
  exists h1 s1 tr1 ev s1' la l lb h2 tr2, crun T s0 h1 s1 tr1 /\ cnext T s1 ev s1' (la ++ l :: lb) /\
    crun T s1' h2 s tr2 /\ h = h1 ++ (s1, ev) :: h2 /\ x = (now s1, l) /\ pre = tr1 ++ map (fun l => (now s1, l)) la /\
    post = map (fun l => (now s1, l)) lb ++ tr2.
Proof.
  induction 1 as [|h s tr ev s' ls R IH St]; intros pre x post Hx; [destruct pre; discriminate|].
  apply app_eq_app in Hx as (w & [(-> & E2)|(-> & E2)]).
  - destruct w as [|y w].
    + cbn in E2. rewrite app_nil_r in *. destruct ls as [|l ls]; [discriminate|]. cbn in E2. injection E2 as -> ->.
      exists h, s, pre, ev, s', [], l, ls, [], []. cbn [app map]. rewrite !app_nil_r.
      split; [exact R|]. split; [exact St|]. split; [constructor|]. auto.
    + cbn in E2. injection E2 as <- ->.
      destruct (IH pre x w eq_refl) as (h1 & s1 & tr1 & e1 & s1' & la & l & lb & h2 & tr2 & A & B & D & -> & G & -> & ->).
      exists h1, s1, tr1, e1, s1', la, l, lb, (h2 ++ [(s, ev)]), (tr2 ++ map (fun l => (now s, l)) ls).
      split; [exact A|]. split; [exact B|]. split; [econstructor; eassumption|]. rewrite <- !app_assoc. auto.
  - apply map_eq_app in E2 as (la & lb & -> & <- & E2). destruct lb as [|l lb]; [discriminate|]. cbn in E2. injection E2 as <- <-.
    exists h, s, tr, ev, s', la, l, lb, [], []. rewrite !app_nil_r.
    split; [exact R|]. split; [exact St|]. split; [constructor|]. auto.
Qed.

Lemma rotate_pends s m t : In (LRotate t) (snd (step C s m)) -> ntr (fst (step C s m)) = true.
Proof.
  intros Hin. destruct m as [v c|k]; [|destruct Hin]. cbn [step] in *.
  destruct (nth_error (thr s) v) as [p|]; [|destruct Hin].
  destruct p as [ |e|x e|x e| | | |k|k|k e|k oe|k|k|k|k|k|k| | | | | | | | | ]; cbn [step_thread] in *;
  try (destruct k as [ek| | |]); cbn [after_flush ret_label] in *;
  repeat match type of Hin with
  | context [match ?x with _ => _ end] =>
      match type of x with
      | choice _ => destruct x
      | bool => destruct x eqn:?
      | list _ => destruct x eqn:?
      | option _ => destruct x
      | stage => destruct x
      | sink_kind => destruct x
      | reopen => destruct x
      | SinkModel.pc _ => destruct x
      end
  end; cbn in Hin; try contradiction; try (intuition discriminate).
Qed.

Lemma after_rotate n t0 h s tr pre t th post : crun T (cstart T n t0) h s tr -> quick h -> steady h ->
  tr = pre ++ (t, LRotate th) :: post -> no_reopen post -> K t s.
Proof.
  intros R Q S Htr N.
  destruct (crun_split _ _ _ _ R _ _ _ Htr) as (h1 & s1 & tr1 & ev & s1' & la & l & lb & h2 & tr2 & A & B & D & -> & G & -> & ->).
  injection G as -> <-.
  assert (K1 : K (now s1) s1').
  { inversion B; subst; [|destruct la; discriminate|destruct la; discriminate].
    unfold cstep in H0. pose proof (rotate_pends (base s1) m th) as P. destruct (step C (base s1) m) as [b l0].
    injection H0 as <- ->. right. cbn [base now]. split; [left; apply P; apply in_app_iff; right; left; reflexivity|].
    split; [auto|]. split; [lia|]. left. reflexivity. }
  apply Forall_app in S as [_ S]. inversion S; subst.
  apply no_reopen_app in N as [_ N].
  refine (K_run n t0 (h1 ++ [(s1, ev)]) s1' _ (now s1) h2 s tr2 _ K1 D _ H2 N).
  - eapply R_snoc; [exact A|exact B].
  - rewrite <- app_assoc. exact Q.
Qed.

(** The rotation is carried out within one period. *)
Lemma rotation_delay n t0 h s tr pre t th post : crun T (cstart T n t0) h s tr -> quick h -> steady h ->
  tr = pre ++ (t, LRotate th) :: post -> no_reopen post -> fin (base s) = false -> now s <= t + L.
Proof.
  intros R Q S Htr N F. destruct (after_rotate _ _ _ _ _ _ _ _ _ R Q S Htr N) as [H|(_ & _ & H & _)]; [congruence|exact H].
Qed.

(** ** The worker is asleep when it is notified *)

Definition Y (C0 : cfg E) (h : list (cstate E * event E)) (s : cstate E) : Prop :=
  (exists u, J u (base s)) \/
  (fip (base s) = false /\ nth_error (thr (base s)) 0 = Some (FTas KWorker)) \/
  (fip (base s) = false /\ nth_error (thr (base s)) 0 = Some WWait /\ ntf (base s) = true /\ (exists u, until s = Some u) /\
   told C0 h = true).

Lemma ntf_stays s t c p : nth_error (thr s) t = Some p -> inflush p = false -> ntf s = true ->
  ntf (fst (step_thread C s t c p)) = true.
Proof.
  intros _ I H. destruct p; try discriminate; cbn [step_thread]; split_step;
    cbn [fst ntf s_thr s_q s_acc s_flags s_out]; auto; congruence.
Qed.

Lemma told_snoc (C0 : cfg E) h x : told C0 (h ++ [x]) =
  if asleep (fst x) then match snd x with Move (MThread 0 _) => false | _ => told C0 h || notifies C0 x end else false.
Proof. unfold told. rewrite fold_left_app. reflexivity. Qed.

Lemma Y_step n t0 h s tr ev s' ls t : crun T (cstart T n t0) h s tr -> cnext T s ev s' ls -> calm (s, ev) ->
  match ev with Move m => spurious m = false | _ => True end ->
  (forall d, ev = Tick d -> 0 < d -> told C h = false) ->
  fin (base s) = true \/ (pend (base s) /\ now s = t /\ Y C h s) ->
  (exists v r, In (LReopen v r) ls) \/ fin (base s') = true \/ (pend (base s') /\ now s' = t /\ Y C (h ++ [(s, ev)]) s').
Proof.
  intros R St Ca Sp Pr HK. pose proof (crun_reach _ _ _ _ _ _ R) as Re.
  pose proof (reach_inv C _ _ _ _ Hsz (or_intror eq_refl) Re) as HI.
  pose proof (reach_life C true n _ _ Re) as HL.
  destruct HK as [F|(P & B1 & HX)].
  { right. left. inversion St; subst; cbn [base]; auto.
    unfold cstep in H0. pose proof (fin_stays (base s) m F) as G. destruct (step C (base s) m) as [b l0]. injection H0 as <- <-. exact G. }
  inversion St; subst; clear St.
  - (* a step *)
    unfold cstep in H0. destruct (step C (base s) m) as [b l0] eqn:Hs. injection H0 as <- <-.
    pose proof (pend_step C Hsz Hf true n _ _ m Re P Sp) as PS. rewrite Hs in PS. cbn [fst snd] in PS.
    destruct PS as [(v & r & Hv)|(_ & P' & LJ)]; [left; exists v, r; rewrite Hv; left; reflexivity|].
    destruct HX as [(u & Hu)|[(Fi & Wk)|(Fi & Wk & Nt & (w & Un) & To)]].
    + pose proof (J_step C Hsz Hf true n u _ _ m Re Hu Sp) as JS. rewrite Hs in JS. cbn [fst snd] in JS.
      destruct JS as [(v & r & Hv)|(_ & Hj)]; [left; exists v, r; rewrite Hv; left; reflexivity|].
      right. right. cbn [base now]. split; [exact P'|]. split; [reflexivity|]. left. exists u. exact Hj.
    + right. right. cbn [base now]. split; [exact P'|]. split; [reflexivity|].
      destruct m as [u c|k].
      2: { cbn in Hs. injection Hs as <- <-. right. left. split; [exact Fi|exact Wk]. }
      cbn [step] in Hs. destruct (nth_error (thr (base s)) u) as [p|] eqn:Hp.
      2: { injection Hs as <- <-. right. left. split; [exact Fi|exact Wk]. }
      pose proof (lock_or_free (base s) u c p Hp Fi) as LF. destruct (step_own C (base s) u c p Hp) as [_ (p' & Et)].
      rewrite Hs in LF, Et. cbn [fst snd] in LF, Et. destruct LF as [LF|(k & -> & Hin)].
      * right. left. split; [exact LF|]. destruct u as [|u].
        -- rewrite Hp in Wk. injection Wk as ->. cbn [step_thread] in Hs. rewrite Fi in Hs. injection Hs as <- <-. discriminate LF.
        -- cbn [base]. rewrite Et, nth_error_upd_other by discriminate. exact Wk.
      * left. exists u. exact (proj2 (LJ u Hin)).
    + right. right. cbn [base now]. split; [exact P'|]. split; [reflexivity|].
      assert (As : asleep s = true) by (unfold asleep; rewrite Wk, Un; reflexivity).
      destruct m as [u c|k].
      2: { cbn in Hs. injection Hs as <- <-. right. right. cbn [next_after until_after next until base thr fip ntf s_out].
           rewrite told_snoc. cbn [fst snd]. rewrite As, To. eauto 10. }
      unfold may in H. cbn [step next_after until_after] in *. unfold at_pc in *.
      destruct (nth_error (thr (base s)) u) as [p|] eqn:Hp.
      2: { injection Hs as <- <-. right. right. cbn [next until base].
           destruct u as [|u]; [congruence|]. rewrite told_snoc. cbn [fst snd]. rewrite As, To. eauto 10. }
      pose proof (lock_or_free (base s) u c p Hp Fi) as LF. destruct (step_own C (base s) u c p Hp) as [_ (p' & Et)].
      assert (NF : inflush p = false).
      { destruct (inflush p) eqn:Hi; [|reflexivity]. destruct (thr_split _ _ _ Hp) as (a & bb & E1 & _ & _).
        pose proof (proj2 (proj2 (others_out C (base s) a p bb HI E1 Hi))). congruence. }
      pose proof (ntf_stays (base s) u c p Hp NF Nt) as Nt'.
      rewrite Hs in LF, Et, Nt'. cbn [fst snd] in LF, Et, Nt'. destruct LF as [LF|(k & -> & Hin)].
      2: { left. exists u. exact (proj2 (LJ u Hin)). }
      destruct u as [|u].
      * rewrite Hp in Wk. injection Wk as ->. cbn [step_thread] in Hs.
        assert (U : forall q, nth_error (upd (thr (base s)) 0 q) 0 = Some q).
        { intros q. apply nth_error_upd. apply nth_error_Some. congruence. }
        destruct c as [ | | | | | | |b0| ]; try (destruct (until s); discriminate). rewrite Nt in Hs. cbn [orb] in Hs.
        right. left. destruct b0; injection Hs as <- <-; cbn [base thr fip s_thr]; auto.
      * right. right. cbn [base next until].
        split; [exact LF|]. split; [rewrite Et, nth_error_upd_other by discriminate; exact Wk|]. split; [exact Nt'|].
        rewrite told_snoc. cbn [fst snd]. rewrite As, To. split; [|reflexivity]. exists w.
        assert (NW : p <> WWait).
        { intros ->. destruct HL as (w0 & cs & E0 & _ & Cl & _). rewrite E0 in Hp. cbn in Hp. apply nth_error_In in Hp.
          rewrite Forall_forall in Cl. apply Cl in Hp. discriminate. }
        destruct p; try exact Un. congruence.
  - (* the worker reads the time *)
    right. right. cbn [base now]. split; [exact P|]. split; [reflexivity|].
    destruct HX as [Hu|[(Fi & Wk)|(_ & _ & _ & (w & Un) & _)]]; unfold Y; cbn [base now next until]; auto. congruence.
  - (* time passes *)
    right. destruct (fin (base s)) eqn:Fn; [left; exact Fn|].
    destruct (Nat.eq_dec d 0) as [->|Hd].
    + right. cbn [base now next until]. rewrite Nat.add_0_r. split; [exact P|]. split; [reflexivity|].
      destruct HX as [Hu|[Hw|(Fi & Wk & Nt & (w & Un) & To)]]; [left; exact Hu|right; left; exact Hw|].
      right. right. cbn [base until]. rewrite told_snoc. cbn [fst snd]. unfold asleep. rewrite Wk, Un, To. eauto 10.
    + exfalso. pose proof (running _ HL Fn) as Rn. unfold calm in Ca. cbn [fst snd] in Ca. destruct Ca as [->|[Fi Ca]]; [congruence|].
      destruct (nth_error (thr (base s)) 0) as [w|] eqn:Wk; [|destruct (until s); contradiction].
      assert (w = WWait) by (destruct w, (until s); try contradiction; congruence). subst w.
      destruct HX as [(v & Hv)|[(_ & Wk')|(_ & _ & _ & _ & To)]].
      * rewrite (J_locked _ _ _ _ Re Hv) in Fi. discriminate.
      * rewrite Wk in Wk'. discriminate.
      * rewrite (Pr d eq_refl) in To by lia. discriminate.
Qed.

Lemma prompt_app h1 h2 : prompt C (h1 ++ h2) -> prompt C h1.
Proof. intros H a s d b -> Hd. apply (H a s d (b ++ h2)); [rewrite <- app_assoc; reflexivity|exact Hd]. Qed.

Lemma Y_run n t0 h0 s0 tr0 t h s tr : crun T (cstart T n t0) h0 s0 tr0 ->
  fin (base s0) = true \/ (pend (base s0) /\ now s0 = t /\ Y C h0 s0) -> crun T s0 h s tr ->
  quick (h0 ++ h) -> prompt C (h0 ++ h) -> steady h -> no_reopen tr ->
  fin (base s) = true \/ (pend (base s) /\ now s = t /\ Y C (h0 ++ h) s).
Proof.
  intros R0 K0. induction 1 as [|h s tr ev s' ls R IH St]; intros Q Pr S N; [rewrite app_nil_r; exact K0|].
  rewrite app_assoc in *. apply Forall_app in Q as [Q1 Q2]. apply Forall_app in S as [S1 S2].
  apply no_reopen_app in N as [N1 N2]. inversion Q2; subst. inversion S2; subst.
  destruct (Y_step n t0 (h0 ++ h) s _ ev s' ls t (crun_app T _ _ _ _ _ _ _ R0 R) St H1 H3) as [(v & r & Hr)|HK].
  - intros d -> Hd. exact (Pr (h0 ++ h) s d [] eq_refl Hd).
  - apply IH; auto. eapply prompt_app. exact Pr.
  - destruct (no_reopen_stamped _ _ N2 v r Hr).
  - exact HK.
Qed.

(** The worker sleeps and nobody flushes when rotate() notifies: carried out at once. *)
Lemma rotation_at_once n t0 h s1 tr pre t th post c h2 s2 tr2 : crun T (cstart T n t0) h s1 tr ->
  tr = pre ++ (t, LRotate th) :: post -> no_reopen post ->
  nth_error (thr (base s1)) th = Some RAsync -> fip (base s1) = false -> asleep s1 = true ->
  crun T s1 ((s1, Move (MThread th c)) :: h2) s2 tr2 -> let h' := h ++ (s1, Move (MThread th c)) :: h2 in
  quick h' -> prompt C h' -> steady h' -> no_reopen tr2 -> fin (base s2) = false -> now s2 = now s1.
Proof.
  intros R Htr N Ht Fi As R2. cbv zeta. intros Q Pr S N2 F.
  assert (Ax : forall s0 x h s tr, crun T s0 (x :: h) s tr ->
    exists s1 ls tr', fst x = s0 /\ cnext T s0 (snd x) s1 ls /\ crun T s1 h s tr' /\ tr = map (fun l => (now s0, l)) ls ++ tr').
  { clear. intros s0 x h s tr R. remember (x :: h) as hh eqn:Eh. revert x h Eh.
    induction R as [|h0 s tr ev s' ls R IH St]; intros x h Eh; [discriminate|].
    destruct h0 as [|y h0].
    - cbn in Eh. injection Eh as <- <-. inversion R; subst; [|destruct h; discriminate].
      exists s', ls, []. cbn [fst snd]. rewrite app_nil_r. split; [reflexivity|]. split; [exact St|]. split; [constructor|reflexivity].
    - cbn in Eh. injection Eh as <- <-. destruct (IH y h0 eq_refl) as (s1 & l1 & tr' & A & B & D & ->).
      exists s1, l1, (tr' ++ map (fun l => (now s, l)) ls). split; [exact A|]. split; [exact B|].
      split; [econstructor; eassumption|]. rewrite app_assoc. reflexivity. }
  destruct (Ax _ _ _ _ _ R2) as (s1' & l1 & tr' & _ & St & R3 & ->). cbn [snd] in St. clear Ax R2.
  apply no_reopen_app in N2 as [_ N3].
  pose proof Q as Q0. apply Forall_app in Q0 as [Q1 _]. pose proof S as S0. apply Forall_app in S0 as [S1 S2].
  assert (R1 : crun T (cstart T n t0) (h ++ [(s1, Move (MThread th c))]) s1' (tr ++ map (fun l => (now s1, l)) l1)) by (eapply R_snoc; eassumption).
  assert (E1 : h ++ (s1, Move (MThread th c)) :: h2 = (h ++ [(s1, Move (MThread th c))]) ++ h2) by (rewrite <- app_assoc; reflexivity).
  rewrite E1 in *. inversion S2; subst.
  assert (Nth : th <> 0).
  { intros ->. unfold asleep in As. rewrite Ht in As. discriminate. }
  destruct (Y_run n t0 _ s1' _ (now s1) h2 s2 tr' R1) as [H|(_ & H & _)]; auto; [|congruence].
  inversion St; subst. unfold cstep in H4. cbn [step] in H4. rewrite Ht in H4. cbn [step_thread] in H4. rewrite Hl in H4.
  injection H4 as <- <-.
  destruct (after_rotate _ _ _ _ _ _ _ _ _ R Q1 S1 eq_refl N) as [Hfin|(P & _)]; [left; exact Hfin|].
  right. cbn [base now]. split; [|split; [reflexivity|]].
  - destruct P as [P|(v & p & Hv & Hp)]; [left; exact P|]. right. exists v, p. cbn [thr s_thr s_flags].
    rewrite nth_error_upd_other; [auto|]. intros ->. rewrite Ht in Hv. injection Hv as <-. discriminate.
  - right. right. cbn [base fip ntf thr s_thr s_flags until until_after]. unfold at_pc. rewrite Ht.
    rewrite told_snoc. cbn [fst snd]. rewrite As.
    pose proof As as As'. unfold asleep in As'. rewrite nth_error_upd_other by auto.
    destruct (nth_error (thr (base s1)) 0) as [[]|]; try discriminate. destruct (until s1) as [w|]; [|discriminate].
    split; [exact Fi|]. split; [reflexivity|]. split; [reflexivity|]. split; [eauto|].
    destruct th as [|th]; [congruence|]. unfold notifies. cbn [fst snd]. rewrite Ht. apply orb_true_r.
Qed.

End Rot.
