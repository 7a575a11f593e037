(** * Proofs for C124: fair executions of the whole stack finish every call *)
From Coq Require Import List Arith NArith Bool Lia.
From Verif Require Import Base LevelModel SinkModel SinkSpec TreeSpec TreeProofs PoolModel PoolSpec.
From Verif Require Import SinkProofs SinkLabels SinkLife SinkProps SinkProgress SinkReturn SinkFair SinkEnd PoolProofs PoolFair PoolEnd.
From Verif Require TreeModel CircModel CircSpec CircProofs FullModel FullSpec FullProofs FullEnd StackEnd.
From Verif Require Import StackModel StackProofs StackFairSpec.
Import ListNotations.

(** ** To put or to take an event brings a sink nearer to rest *)
Section Take.
Context {E : Type}.
Variable C : cfg E.
Hypothesis cap_pos : 1 <= c_cap C.
Hypothesis sz : sizes_ok C.
Variable op : bool.
Hypothesis dst : has_dest C op.

Lemma put_lowers (s : state E) t c e n e' : nth_error (thr s) t = Some (PPut e) -> calls c = false ->
  nth_error (thr (fst (step C s (MThread t c)))) t = Some (PAdd n e') -> Phi C (fst (step C s (MThread t c))) < Phi C s.
Proof using C cap_pos.
  intros Hp Hc. cbn [step]. rewrite Hp. pose proof (step_kind C s t c _ Hp Hc) as HK.
  assert (L : t < length (thr s)) by (apply nth_error_Some; congruence).
  generalize dependent (fst (step_thread C s t c (PPut e))). remember (PPut e) as p0 eqn:Ep. intros s' HK H.
  destruct HK as [p s' A B D|e0 m s' Hq (A & B & D)|e0 s' Hq (A & B & D)|k x r s' Eq Es (A & B & D)
    |k p' s' Eq Hpo Ht Hd (A & B & D)|k s' Hf (A & B & D)|k s' Hf (A & B & D)|k s' (A & B & D)
    |m e0 s' (A & B & D)|m e0 s' (A & B & D)|p p' s' Hpo Hpo' Ht Hd (A & B & D)
    |p p' s' N1 N2 N3 N4 N5 N6 N7 Hd N8 N9 (A & B & D)]; try discriminate Ep.
  - rewrite A, Hp in H. congruence.
  - apply Phi_drop; [rewrite A; apply upd_length|]. unfold V. rewrite A, B, app_length. pose proof (sumf_upd ftry _ _ _ (PAdd m e0) Hp) as U. cbn in *. lia.
  - rewrite A, nth_error_upd in H by exact L. discriminate.
  - subst p. discriminate.
  - subst p. destruct (N8 e eq_refl).
Qed.

Lemma take_kind (s : state E) t c k k' e' : nth_error (thr s) t = Some (FGet k) -> calls c = false ->
  nth_error (thr (fst (step C s (MThread t c)))) t = Some (FSub k' e') ->
  length (q s) = S (length (q (fst (step C s (MThread t c))))) /\ Phi C (fst (step C s (MThread t c))) < Phi C s.
Proof using C cap_pos.
  intros Hp Hc. cbn [step]. rewrite Hp. pose proof (step_kind C s t c _ Hp Hc) as HK.
  assert (L : t < length (thr s)) by (apply nth_error_Some; congruence).
  assert (NE : nth_error (thr (fst (step_thread C s t c (FGet k)))) t = Some (FSub k' e') -> q s <> []).
  { intros H Q. revert H. cbn [step_thread]. rewrite Q. destruct (c_kind C); cbn [fst s_thr thr]; rewrite nth_error_upd by exact L; discriminate. }
  generalize dependent (fst (step_thread C s t c (FGet k))). remember (FGet k) as p0 eqn:Ep. intros s' HK NE H. specialize (NE H).
  destruct HK as [p s' A B D|e0 m s' Hq (A & B & D)|e0 s' Hq (A & B & D)|k0 x r s' Eq Es (A & B & D)
    |k0 p' s' Eq Hpo Ht Hd (A & B & D)|k0 s' Hf (A & B & D)|k0 s' Hf (A & B & D)|k0 s' (A & B & D)
    |m e0 s' (A & B & D)|m e0 s' (A & B & D)|p p' s' Hpo Hpo' Ht Hd (A & B & D)
    |p p' s' N1 N2 N3 N4 N5 N6 N7 Hd N8 N9 (A & B & D)]; try discriminate Ep.
  - rewrite A, Hp in H. congruence.
  - split; [rewrite B, Eq; reflexivity|]. apply Phi_drop; [rewrite A; apply upd_length|]. unfold V. rewrite A, B, Eq.
    pose proof (sumf_upd ftry _ _ _ (FSub k0 (q_ev x)) Hp) as U.
    assert (ftry (FSub k0 (q_ev x)) = ftry (FGet k0)) by (destruct k0; reflexivity). cbn [length]. lia.
  - contradiction.
  - subst p. discriminate.
  - subst p. discriminate.
Qed.

Lemma take_delta n (s : state E) ls t c k k' e' : reach C op n s ls -> alive s = false -> c <> CGo true -> nth_error (thr s) t = Some (FGet k) -> calls c = false ->
  nth_error (thr (fst (step C s (MThread t c)))) t = Some (FSub k' e') -> delta C (fst (step C s (MThread t c))) < delta C s.
Proof.
  intros Hr Ha Hg Hp Hc H. pose proof (proj1 (take_kind s t c k k' e' Hp Hc H)) as Q.
  destruct (end_step C cap_pos sz op dst n s ls (MThread t c) Hr Hc Ha) as [_ D].
  destruct D as [D|[[D1 D2]|[D _]]]; [exact D| |destruct c as [| | | | |[|]| | |]; try discriminate D; congruence]. exfalso.
  assert (NK : KeyD t s -> False) by (intros Z; destruct (D2 t Z) as [_ D3]; rewrite H, Hp in D3; discriminate).
  pose proof (reach_life C op n s ls Hr) as HL. pose proof (step_life C op s (MThread t c) HL) as HL'.
  destruct (destroyer_is C op s HL Ha) as (u & p & Hu & Hd).
  destruct (life_destroyer C op s u p HL Hu Hd) as (Hu0 & w & cs & Et & Hw & Ho & Hdc & A1 & A2 & Hsz & Hhw).
  assert (Hw0 : nth_error (thr s) 0 = Some w) by (rewrite Et; reflexivity).
  destruct (Nat.eq_dec t u) as [->|Hn].
  { rewrite Hp in Hu. injection Hu as <-. apply NK. exists (FGet k). split; [exact Hp|]. left. split; [exact Hd|]. split; discriminate. }
  destruct (Nat.eq_dec t 0) as [->|Hn0]; [|specialize (Ho t _ Hp Hn Hn0); discriminate Ho].
  rewrite Hp in Hw0. injection Hw0 as <-.
  destruct (c_lat0 C) eqn:Hl; [assert (FGet k = WDone) by (apply Hhw; unfold hw; rewrite Hl; reflexivity); discriminate|].
  set (s' := fst (step C s (MThread 0 c))) in *.
  assert (Hu' : nth_error (thr s') u = Some p).
  { subst s'. cbn [step]. rewrite Hp. destruct (step_own C s 0 c _ Hp) as (_ & w' & Ew). rewrite Ew, nth_error_upd_other by exact Hu0. exact Hu. }
  destruct (life_destroyer C op _ u p HL' Hu' Hd) as (_ & w1 & cs1 & Et1 & Hw1 & Ho1 & Hdc1 & _).
  assert (w1 = FSub k' e') by (rewrite Et1 in H; cbn in H; congruence). subst w1.
  unfold dcond in Hdc, Hdc1. rewrite Hl in Hdc, Hdc1.
  destruct (past_store p) eqn:Hps.
  - destruct (worker_mu C op Hl sz dst cap_pos n s ls u p (MThread 0 c) Hr Hu Hps) as (_ & WM). fold s' in WM.
    destruct (WM _ Hp) as (w2 & W1 & W2). assert (w2 = FSub k' e') by congruence. subst w2.
    assert (F : fin s = true /\ fin s' = true) by (destruct p; try discriminate Hps; tauto). destruct F as [F F'].
    unfold delta in D1. rewrite F, F' in D1. cbn [orb] in D1. unfold mus in D1. rewrite (mus_two C cap_pos s u p (FGet k) cs) in D1 by auto. rewrite (mus_two C cap_pos s' u p (FSub k' e') cs1) in D1 by auto.
    assert (MP : SinkProgress.mu C p (length (q s')) = SinkProgress.mu C p (length (q s))) by (destruct p; try discriminate Hps; reflexivity).
    destruct W2 as [(W2 & _)|[W2|(W2 & _)]]; [discriminate|lia|]. destruct c as [| | | | |[|]| | |]; try discriminate W2; congruence.
  - destruct p; try contradiction; try discriminate Hps. destruct Hdc as [F _]. destruct Hdc1 as [F' _]. unfold delta in D1. rewrite F, F', Hl in D1. cbn [orb] in D1. lia.
Qed.
End Take.

(** ** Both models side by side *)
Section Fair.
Context {E : Type}.
Variable K : nat.
Variable cf : nat -> cfg E.
Variable op : nat -> bool.
Variable n : nat.
Hypothesis caps : forall id, 1 <= c_cap (cf id).
Hypothesis sz : forall id, id < K -> sizes_ok (cf id).
Hypothesis dest : forall id, id < K -> has_dest (cf id) (op id).
Definition cap_pos : forall id, id < K -> 1 <= c_cap (cf id) := fun id _ => caps id.

Notation pstep := (pstep K cf n).
Notation spstep := (spstep K cf n).
Notation spexec := (spexec K cf n).
Notation like := (like cf).
Notation PInv := (PInv K cf op n).
Notation ME := (ME K cf n).
Notation why := (why K cf n).
Notation place := (place K).
Notation splace := (splace K).
Notation sturn := (sturn K cf n).

Definition J (s : spool E) (p : pstate E) : Prop := like s p /\ exists tr, PInv p tr.
Record jstep (s : spool E) (p : pstate E) (m : pmove E) (s' : spool E) (p' : pstate E) : Prop := {
  j_on : goes_on m;
  j_from : J s p;
  j_to : J s' p';
  j_step : exists l, spstep s m = Some (s', l);
  j_abs : p' = p \/ p' = fst (pstep p m)
}.
Lemma j_exists s p m : J s p -> goes_on m -> exists s' p', jstep s p m s' p'.
Proof.
  intros [L (tr & V)] G. destruct (like_step K cf n s p m L) as (s' & ls & S & [(p' & P & L')|(_ & L' & _)]).
  - exists s', p'. constructor; [exact G|split; eauto|split; [exact L'|]|eauto|right; now rewrite P].
    exists (tr ++ snd (pstep p m)). pose proof (step_pinv K cf op n p tr m V) as V'. rewrite P in V' |- *. exact V'.
  - exists s', p. constructor; [exact G|split; eauto|split; eauto|eauto|now left].
Qed.

Definition busy (s : spool E) (id u : nat) : Prop := free_in (FullModel.outside (sleaf s id)) u = false.
Lemma free_eq s p id u : J s p -> free_in (FullModel.outside (sleaf s id)) u = free_in (leaf p id) u.
Proof. intros [[L _] _]. destruct (L id) as [g R]. exact (rel_free _ _ _ _ u R). Qed.

Lemma free_spot (x : FullModel.fstate E) u : free_in (FullModel.outside x) u = true ->
  nth_error (FullModel.pcs x) u = Some (FullModel.At Idle) \/ nth_error (FullModel.pcs x) u = Some (FullModel.At Dead).
Proof.
  unfold free_in, FullModel.outside. cbn [thr]. rewrite nth_error_map. destruct (nth_error (FullModel.pcs x) u) as [p|]; cbn [option_map]; [|discriminate].
  destruct p as [p|e|i|i|k|k i|k e i|]; cbn [FullModel.show]; try discriminate. destruct p; try discriminate; auto.
Qed.

(** A thread between two calls stays there. *)
Lemma idle_step (C : cfg E) x u c x' ls : free_in (FullModel.outside x) u = true -> calls c = false -> FullModel.fstep C x (MThread u c) = Some (x', ls) ->
  nth_error (FullModel.pcs x') u = nth_error (FullModel.pcs x) u /\ FullModel.ring x' = FullModel.ring x.
Proof.
  intros F Hc H. destruct (free_spot x u F) as [Hp|Hp]; cbn [FullModel.fstep] in H; rewrite Hp in H; cbn [FullModel.fstep_thread] in H.
  - assert (S : step_thread C (FullModel.outside x) u c Idle = (FullModel.outside x, [])) by (cbn [step_thread]; destruct c; try discriminate Hc; reflexivity).
    rewrite S in H. injection H as <- <-. cbn [FullModel.pcs FullModel.ring]. split; [|reflexivity]. rewrite FullProofs.fupd_at by exact (FullProofs.some_lt _ _ Hp).
    cbn [FullModel.outside thr]. rewrite Hp. f_equal. f_equal. apply nth_error_nth. rewrite nth_error_map, Hp. reflexivity.
  - cbn [step_thread] in H. injection H as <- <-. cbn [FullModel.pcs FullModel.ring]. split; [|reflexivity]. rewrite FullProofs.fupd_at by exact (FullProofs.some_lt _ _ Hp).
    cbn [FullModel.outside thr]. rewrite Hp. f_equal. f_equal. apply nth_error_nth. rewrite nth_error_map, Hp. reflexivity.
Qed.

Definition own (s : spool E) (m : pmove E) (s' : spool E) (id u : nat) : Prop :=
  exists c ls, m = XLeaf id (MThread u c) /\ calls c = false /\ FullModel.fstep (cf id) (sleaf s id) (MThread u c) = Some (sleaf s' id, ls).

Lemma spot_frame (s s' : spool E) id u : (forall i, i = id -> FullModel.pcs (sleaf s' i) = FullModel.pcs (sleaf s i) /\ FullModel.ring (sleaf s' i) = FullModel.ring (sleaf s i)) -> spot s' id u = spot s id u.
Proof. intros H. destruct (H id eq_refl) as [H1 H2]. unfold spot. now rewrite H1, H2. Qed.

Lemma in_leaf_spot s i mv s' l id u : sin_leaf cf s i mv = Some (s', l) -> begins mv = false \/ (exists v c, mv = MThread v c /\ u <> v) ->
  (i = id /\ exists c ls, mv = MThread u c /\ calls c = false /\ FullModel.fstep (cf id) (sleaf s id) (MThread u c) = Some (sleaf s' id, ls)) \/ spot s' id u = spot s id u.
Proof.
  unfold sin_leaf. intros H B. destruct (FullModel.fstep (cf i) (sleaf s i) mv) as [[x ls]|] eqn:F; [|discriminate]. injection H as <- <-.
  destruct (Nat.eq_dec id i) as [<-|N].
  2:{ right. unfold spot. cbn [set_sleaf sleaf]. apply Nat.eqb_neq in N. rewrite N. reflexivity. }
  destruct mv as [v c|k].
  - destruct (Nat.eq_dec u v) as [<-|Hn].
    + left. split; [reflexivity|]. destruct B as [B|(v & c0 & Ev & Hv)]; [|injection Ev; congruence]. exists c, ls. split; [reflexivity|]. split; [rewrite begins_calls in B; exact B|].
      cbn [set_sleaf sleaf]. rewrite Nat.eqb_refl. exact F.
    + right. destruct (FullEnd.fstep_frame _ _ _ _ F) as [_ Fr]. destruct (Fr u Hn) as [F1 F2]. unfold spot. cbn [set_sleaf sleaf]. rewrite Nat.eqb_refl, F1. f_equal. exact F2.
  - right. cbn [FullModel.fstep] in F. injection F as <- _. unfold spot. cbn [set_sleaf sleaf]. rewrite Nat.eqb_refl. reflexivity.
Qed.

Lemma spot_step s m s' l id u : spstep s m = Some (s', l) -> goes_on m ->
  own s m s' id u \/ (m = XNext u /\ sfree K s u = true) \/ spot s' id u = spot s id u.
Proof.
  intros H G. destruct m as [t o|t|i mv|i t]; try destruct G; cbn [StackModel.spstep] in H.
  - destruct (stodo s t) as [|c cs]; [injection H as <- <-; auto|]. destruct (sfree K s t) eqn:F; [|injection H as <- <-; auto].
    destruct (Nat.eq_dec u t) as [->|N]; [auto|]. right. right.
    destruct (Nat.ltb (target c) K); [|injection H as <- <-; reflexivity].
    assert (B : begins (@MThread E t (begin_call c)) = false \/ exists v c', @MThread E t (begin_call c) = MThread v c' /\ u <> v) by (right; eauto).
    destruct (in_leaf_spot _ _ _ _ _ id u H B) as [(_ & c' & ls & Z & _)|Z]; [injection Z; congruence|exact Z].
  - destruct (Nat.ltb i K); [|injection H as <- <-; auto]. destruct (begins mv) eqn:B; [injection H as <- <-; auto|]. cbn [negb andb] in H.
    destruct (in_leaf_spot _ _ _ _ _ id u H (or_introl B)) as [(-> & c & ls & -> & Z1 & Z2)|Z]; [left; exists c, ls; auto|auto].
Qed.
Lemma todo_step s m s' l u : spstep s m = Some (s', l) -> goes_on m -> (m = XNext u /\ sfree K s u = true) \/ stodo s' u = stodo s u.
Proof.
  assert (I : forall s0 i mv, sin_leaf cf s0 i mv = Some (s', l) -> stodo s' = stodo s0).
  { intros s0 i mv H. unfold sin_leaf in H. destruct (FullModel.fstep (cf i) (sleaf s0 i) mv) as [[x ls]|]; [|discriminate]. injection H as <- <-. reflexivity. }
  intros H G. destruct m as [t o|t|i mv|i t]; try destruct G; cbn [StackModel.spstep] in H.
  - destruct (stodo s t) as [|c cs]; [injection H as <- <-; auto|]. destruct (sfree K s t) eqn:F; [|injection H as <- <-; auto].
    destruct (Nat.eq_dec u t) as [->|N]; [auto|]. right. apply Nat.eqb_neq in N.
    destruct (Nat.ltb (target c) K); [rewrite (I _ _ _ H)|injection H as <- <-]; cbn [set_stodo stodo]; rewrite N; reflexivity.
  - destruct (Nat.ltb i K && negb (begins mv)); [rewrite (I _ _ _ H); auto|injection H as <- <-; auto].
Qed.

Definition ag (id u : nat) : agent := if Nat.eqb u 0 then Worker id else Client u.
Lemma not_free s id u : id < K -> busy s id u -> sfree K s u = false.
Proof.
  intros Hid B. destruct (sfree K s u) eqn:F; [|reflexivity]. exfalso. unfold sfree in F. rewrite forallb_forall in F.
  unfold busy in B. rewrite F in B; [discriminate|]. apply in_seq. lia.
Qed.

(** What moves somebody who is inside a call on a leaf sink. *)
Lemma place_own s p m s' p' id u : jstep s p m s' p' -> id < K -> u <= n -> busy s id u ->
  own s m s' id u \/ splace s' (ag id u) = splace s (ag id u).
Proof.
  intros S Hid Hu B. destruct (j_step _ _ _ _ _ S) as (l & H). pose proof (j_on _ _ _ _ _ S) as G. pose proof (not_free _ _ _ Hid B) as NF.
  destruct (spot_step _ _ _ _ id u H G) as [O|[[_ F]|Z]]; [auto|congruence|]. right.
  unfold ag. destruct (Nat.eqb_spec u 0) as [->|Hu0]; cbn [StackFairSpec.splace]; [now rewrite Z|]. f_equal.
  - destruct (todo_step _ _ _ _ u H G) as [[_ F]|T]; [congruence|exact T].
  - apply map_ext_in. intros j Hj. apply in_seq in Hj. destruct (Nat.eq_dec j id) as [->|Nj]; [exact Z|].
    destruct (spot_step _ _ _ _ j u H G) as [(c & ls & -> & Hc & F)|[[_ F]|Zj]]; [|congruence|exact Zj].
    assert (Fj : free_in (FullModel.outside (sleaf s j)) u = true).
    { destruct (j_from _ _ _ _ _ S) as [L (tr & V)]. unfold busy in B. rewrite (free_eq s p) in B |- * by (exact (j_from _ _ _ _ _ S)).
      destruct (free_in (leaf p j) u) eqn:Fj; [reflexivity|]. exfalso. apply Nj. apply (V_one _ _ _ _ p tr V u j id); auto; lia. }
    destruct (idle_step _ _ _ _ _ _ Fj Hc F) as [F1 F2]. unfold spot. now rewrite F1, F2.
Qed.

(** ** Stretches in which nothing comes nearer to rest *)
Definition cstep (s : spool E) (p : pstate E) (m : pmove E) (s' : spool E) (p' : pstate E) : Prop :=
  jstep s p m s' p' /\ weak m = false /\ ME p' = ME p.
Inductive crun (X : spool E -> Prop) : spool E -> pstate E -> list (pmove E) -> spool E -> pstate E -> Prop :=
| cr_nil s p : crun X s p [] s p
| cr_cons s p m s1 p1 ms s2 p2 : X s -> X s1 -> cstep s p m s1 p1 -> crun X s1 p1 ms s2 p2 -> crun X s p (m :: ms) s2 p2.

Lemma calm_why s p m s' p' a : cstep s p m s' p' -> why p a -> why p' a /\ place p' a = place p a.
Proof.
  intros (S & W & M) H. destruct (j_abs _ _ _ _ _ S) as [->| ->]; [auto|]. destruct (j_from _ _ _ _ _ S) as [_ (tr & V)].
  destruct (step_ME K cf op n cap_pos sz dest p tr m V (j_on _ _ _ _ _ S)) as [D|[[_ D]|[D _]]]; [lia|exact (D a H)|congruence].
Qed.

Lemma lower_ME p tr id m : PInv p tr -> id < K -> begins m = false -> Psi cf id (fst (step (cf id) (leaf p id) m)) < Psi cf id (leaf p id) ->
  ME (fst (pstep p (XLeaf id m))) < ME p.
Proof.
  intros HV Hid Hb D. cbn [PoolModel.pstep]. apply Nat.ltb_lt in Hid as Hi. rewrite Hi, Hb. cbn [negb andb]. rewrite in_leaf_eq. cbn [fst].
  set (x := fst (step (cf id) (leaf p id) m)) in *.
  assert (CL : calls_left n (set_leaf p id x) = calls_left n p) by reflexivity.
  pose proof (sum_one (fun i => Psi cf i (leaf p i)) (fun i => Psi cf i (leaf (set_leaf p id x) i)) (seq 0 K) id (seq_NoDup _ _)) as S.
  assert (In id (seq 0 K)) as Hin by (apply in_seq; lia). specialize (S Hin).
  assert (G : forall y, y <> id -> Psi cf y (leaf (set_leaf p id x) y) = Psi cf y (leaf p y)) by (intros y Hy; rewrite set_other by exact Hy; reflexivity).
  specialize (S G). cbv beta in S. rewrite set_same in S. fold (psis K cf p) in S. fold (psis K cf (set_leaf p id x)) in S. unfold PoolEnd.ME. rewrite CL. lia.
Qed.

(** What the abstract thread is doing. *)
Lemma abs_at s p id u f : J s p -> nth_error (FullModel.pcs (sleaf s id)) u = Some f ->
  exists pa g, nth_error (thr (leaf p id)) u = Some pa /\ FullProofs.prel (cf id) g u f pa /\ FullProofs.rel (cf id) (sleaf s id) (leaf p id) g.
Proof.
  intros [[L _] _] H. destruct (L id) as [g R]. destruct (nth_error (thr (leaf p id)) u) as [pa|] eqn:Ha.
  - exists pa, g. split; [reflexivity|]. split; [exact (FullProofs.r_thr R _ H Ha)|exact R].
  - destruct (FullProofs.thr_some u R H Ha).
Qed.

Definition rpc (s : spool E) (id u : nat) : CircModel.pc E := snd (spot s id u).
Definition taking (r : CircModel.pc E) : bool := match r with CircModel.PAdv _ _ | CircModel.GAdv _ => true | _ => false end.
Definition taken (r : CircModel.pc E) : bool := match r with CircModel.PInc _ _ | CircModel.GDec _ => true | _ => false end.

Lemma taking_at s p id u : J s p -> taking (rpc s id u) = true ->
  (exists e, nth_error (thr (leaf p id)) u = Some (PPut e)) \/ (exists k, nth_error (thr (leaf p id)) u = Some (FGet k)).
Proof.
  intros HJ T. destruct (nth_error (FullModel.pcs (sleaf s id)) u) as [f|] eqn:Hf.
  - destruct (abs_at s p id u f HJ Hf) as (pa & g & Ha & Pr & R). pose proof (FullProofs.r_inv R) as IV. pose proof (CircProofs.inv_phase IV u) as Ph.
    unfold CircProofs.PC in Ph. change (CircModel.t_pc (CircModel.thr (FullModel.ring (sleaf s id)) u)) with (rpc s id u) in Ph.
    destruct (rpc s id u) eqn:Q; try discriminate T; cbn [CircProofs.phase_ok] in Ph;
      destruct f; cbn [FullProofs.prel] in Pr; try (destruct Pr as [Pr _]; congruence).
    + destruct Pr as (_ & [[X ->]|[(m & X & _)|[X _]]]); [|congruence|congruence]. eauto.
    + destruct Pr as (_ & [[X ->]|[(m & e & X & _)|[X _]]]); congruence.
    + destruct Pr as (_ & [[X ->]|(m & X & _)]); congruence.
    + destruct Pr as (_ & [[X ->]|[(m & X & _)|[X _]]]); congruence.
    + destruct Pr as (_ & [[X ->]|[(m & e & X & _)|[X _]]]); [|congruence|congruence]. eauto.
    + destruct Pr as (_ & [[X ->]|(m & X & _)]); congruence.
  - exfalso. destruct HJ as [[L _] _]. destruct (L id) as [g R]. apply nth_error_None in Hf.
    pose proof (@FullProofs.idle_pc E (cf id) (c_cap (cf id)) _ g u (FullProofs.r_inv R) (proj1 (FullProofs.r_out R Hf))) as Z.
    unfold rpc, spot in T. cbn [snd] in T. rewrite Z in T. discriminate.
Qed.
Lemma taken_at s p id u : J s p -> taken (rpc s id u) = true ->
  (exists m e, nth_error (thr (leaf p id)) u = Some (PAdd m e)) \/ (exists k e, nth_error (thr (leaf p id)) u = Some (FSub k e)).
Proof.
  intros HJ T. destruct (nth_error (FullModel.pcs (sleaf s id)) u) as [f|] eqn:Hf.
  - destruct (abs_at s p id u f HJ Hf) as (pa & g & Ha & Pr & R). pose proof (FullProofs.r_inv R) as IV. pose proof (CircProofs.inv_phase IV u) as Ph.
    unfold CircProofs.PC in Ph. change (CircModel.t_pc (CircModel.thr (FullModel.ring (sleaf s id)) u)) with (rpc s id u) in Ph.
    destruct (rpc s id u) eqn:Q; try discriminate T; cbn [CircProofs.phase_ok] in Ph.
    + destruct Ph as (m & Ph). destruct f; cbn [FullProofs.prel] in Pr; try (destruct Pr as [Pr _]; congruence).
      * destruct Pr as (_ & [[X ->]|[(m' & X & ->)|[X _]]]); [congruence| |congruence]. eauto.
      * destruct Pr as (_ & [[X ->]|[(m' & e & X & _)|[X _]]]); congruence.
      * destruct Pr as (_ & [[X ->]|(m' & X & _)]); congruence.
    + destruct Ph as (m & v & Ph & _). destruct f; cbn [FullProofs.prel] in Pr; try (destruct Pr as [Pr _]; congruence).
      * destruct Pr as (_ & [[X ->]|[(m' & X & _)|[X _]]]); congruence.
      * destruct Pr as (_ & [[X ->]|[(m' & e & X & ->)|[X _]]]); [congruence| |congruence]. eauto.
      * destruct Pr as (_ & [[X ->]|(m' & X & _)]); congruence.
  - exfalso. destruct HJ as [[L _] _]. destruct (L id) as [g R]. apply nth_error_None in Hf.
    pose proof (@FullProofs.idle_pc E (cf id) (c_cap (cf id)) _ g u (FullProofs.r_inv R) (proj1 (FullProofs.r_out R Hf))) as Z.
    unfold rpc, spot in T. cbn [snd] in T. rewrite Z in T. discriminate.
Qed.

(** Who has taken a slot of the buffer and goes on has put or taken an event. *)
Lemma taking_goes s p m s' p' id u : jstep s p m s' p' -> taking (rpc s id u) = true -> own s m s' id u -> taken (rpc s' id u) = true.
Proof.
  intros S T (c & ls & -> & Hc & F). destruct (nth_error (FullModel.pcs (sleaf s id)) u) as [f|] eqn:Hf.
  - destruct (abs_at s p id u f (j_from _ _ _ _ _ S) Hf) as (pa & g & Ha & Pr & R). pose proof (FullProofs.r_inv R) as IV. pose proof (CircProofs.inv_phase IV u) as Ph.
    pose proof (@FullEnd.phase_rpc E (cf id) _ _ _ u f R Hf) as PR.
    unfold CircProofs.PC in Ph. unfold rpc, spot in T |- *. cbn [snd] in *. unfold FullEnd.RPC in PR.
    cbn [FullModel.fstep] in F. rewrite Hf in F. pose proof (FullProofs.some_lt _ _ Hf) as Lt.
    assert (St : forall cc r tr, CircModel.step (c_cap (cf id)) (FullModel.ring (sleaf s id)) u cc = CircModel.Ok r tr -> taken (CircModel.t_pc (CircModel.thr r u)) = true).
    { intros cc r tr. unfold CircModel.step. destruct (CircModel.t_pc (CircModel.thr (FullModel.ring (sleaf s id)) u)); try discriminate T;
        (destruct (Nat.eqb (c_cap (cf id)) 0); [discriminate|]); intros H; injection H as <- <-; cbn; unfold CircModel.upd; rewrite Nat.eqb_refl; reflexivity. }
    destruct f as [f|e|i|i|k|k i|k e i|]; cbn [FullModel.fstep_thread] in F; try (rewrite PR in T; discriminate T).
    + destruct (CircModel.step (c_cap (cf id)) (FullModel.ring (sleaf s id)) u _) as [r tr|] eqn:Sx; [|discriminate]. specialize (St _ _ _ Sx).
      destruct tr as [|x [|]]; try (injection F as <- _; exact St); destruct x as [| |? v| |]; try (injection F as <- _; exact St).
      * unfold FullModel.taken in F. destruct (CircModel.t_pc (CircModel.thr r u)) eqn:Q; injection F as <- _; cbn [FullModel.ring]; rewrite Q; exact St.
      * destruct v; injection F as <- _; exact St.
      * destruct v; injection F as <- _; exact St.
    + destruct (CircModel.step (c_cap (cf id)) (FullModel.ring (sleaf s id)) u _) as [r tr|] eqn:Sx; [|discriminate]. specialize (St _ _ _ Sx).
      destruct tr as [|x [|]]; try (injection F as <- _; exact St); destruct x as [| |? v| |]; try (injection F as <- _; exact St); destruct v; injection F as <- _; exact St.
    + destruct (CircModel.step (c_cap (cf id)) (FullModel.ring (sleaf s id)) u _) as [r tr|] eqn:Sx; [|discriminate]. specialize (St _ _ _ Sx).
      destruct tr as [|x [|]]; try (injection F as <- _; exact St); destruct x as [| |? v| |]; try (injection F as <- _; exact St); destruct v; injection F as <- _; exact St.
  - exfalso. destruct (j_from _ _ _ _ _ S) as [[L _] _]. destruct (L id) as [g R]. apply nth_error_None in Hf.
    pose proof (@FullProofs.idle_pc E (cf id) (c_cap (cf id)) _ g u (FullProofs.r_inv R) (proj1 (FullProofs.r_out R Hf))) as Z.
    unfold rpc, spot in T. cbn [snd] in T. rewrite Z in T. discriminate.
Qed.

Lemma no_take s p m s' p' id u : cstep s p m s' p' -> id < K -> taking (rpc s id u) = true -> own s m s' id u -> False.
Proof.
  intros (S & W & M) Hid T O. pose proof (taking_goes _ _ _ _ _ _ _ S T O) as T'.
  pose proof (taking_at _ _ _ _ (j_from _ _ _ _ _ S) T) as A. pose proof (taken_at _ _ _ _ (j_to _ _ _ _ _ S) T') as A'.
  destruct (j_abs _ _ _ _ _ S) as [->| ->].
  { destruct A as [(e & A)|(k & A)], A' as [(x & y & A')|(x & y & A')]; congruence. }
  destruct O as (c & ls & -> & Hc & _). destruct (j_from _ _ _ _ _ S) as [_ (tr & V)].
  assert (Hb : begins (@MThread E u c) = false) by (rewrite begins_calls; exact Hc).
  assert (Hg : c <> CGo true) by (intros ->; discriminate W).
  assert (D : Psi cf id (fst (step (cf id) (leaf p id) (MThread u c))) < Psi cf id (leaf p id)).
  { pose proof (V_leaf _ _ _ _ p tr V id Hid) as Hr. assert (Z : leaf (fst (pstep p (XLeaf id (MThread u c)))) id = fst (step (cf id) (leaf p id) (MThread u c))).
    { cbn [PoolModel.pstep]. apply Nat.ltb_lt in Hid as Hi. rewrite Hi, Hb. cbn [negb andb]. rewrite in_leaf_eq. cbn [fst]. apply set_same. }
    rewrite Z in A'. unfold Psi. destruct (alive (leaf p id)) eqn:Al.
    - rewrite (alive_step (cf id) (op id) _ (MThread u c) (reach_life _ _ _ _ _ Hr) Al Hc).
      destruct A as [(e & A)|(k & A)].
      + destruct A' as [(x & y & A')|(x & y & A')]; [exact (put_lowers (cf id) (caps id) _ u c e x y A Hc A')|]. exfalso. revert A'. cbn [step]. rewrite A. cbn [step_thread].
        assert (Lt : u < length (thr (leaf p id))) by (apply nth_error_Some; congruence).
        destruct (Nat.ltb _ _); cbn [fst s_thr s_q s_acc thr]; rewrite nth_error_upd by exact Lt; discriminate.
      + destruct A' as [(x & y & A')|(x & y & A')]; [|exact (proj2 (take_kind (cf id) (caps id) _ u c k x y A Hc A'))]. exfalso. revert A'. cbn [step]. rewrite A. cbn [step_thread].
        assert (Lt : u < length (thr (leaf p id))) by (apply nth_error_Some; congruence).
        destruct (q (leaf p id)) as [|z r]; [destruct (c_kind (cf id)); cbn [fst s_thr thr]; rewrite nth_error_upd by exact Lt; discriminate|].
        destruct (q_stage z); cbn [fst s_thr s_q thr]; try (rewrite A; discriminate). rewrite nth_error_upd by exact Lt. discriminate.
    - destruct (end_step (cf id) (caps id) (sz id Hid) (op id) (dest id Hid) n _ _ (MThread u c) Hr Hc Al) as [Al' _]. rewrite Al'.
      destruct A as [(e & A)|(k & A)].
      + exfalso. pose proof (reach_life _ _ _ _ _ Hr) as HL. destruct (destroyer_is (cf id) (op id) _ HL Al) as (v & y & Hv & Hd).
        destruct (life_destroyer (cf id) (op id) _ v y HL Hv Hd) as (_ & w & cs & Et & Hw & Ho & _).
        destruct (Nat.eq_dec u v) as [->|Nv]; [rewrite A in Hv; injection Hv as <-; discriminate Hd|].
        destruct (Nat.eq_dec u 0) as [->|N0]; [rewrite Et in A; injection A as ->; discriminate Hw|]. specialize (Ho u _ A Nv N0). discriminate.
      + destruct A' as [(x & y & A')|(x & y & A')]; [|exact (take_delta (cf id) (caps id) (sz id Hid) (op id) (dest id Hid) n _ _ u c k x y Hr Al Hg A Hc A')].
        exfalso. revert A'. cbn [step]. rewrite A. cbn [step_thread].
        assert (Lt : u < length (thr (leaf p id))) by (apply nth_error_Some; congruence).
        destruct (q (leaf p id)) as [|z r]; [destruct (c_kind (cf id)); cbn [fst s_thr thr]; rewrite nth_error_upd by exact Lt; discriminate|].
        destruct (q_stage z); cbn [fst s_thr s_q thr]; try (rewrite A; discriminate). rewrite nth_error_upd by exact Lt. discriminate. }
  pose proof (lower_ME p tr id (MThread u c) V Hid Hb D). lia.
Qed.

(** ** What a turn brings about *)
Definition now (s : spool E) (a : agent) : Prop := (exists t, a = Client t /\ sresting K s t) \/ (~ sbusy K s a /\ ~ scan_go K cf n a s).

Lemma turn_gets (X : spool E -> Prop) (a : agent) (P Q : spool E -> pstate E -> Prop) :
  (forall s p m s' p', X s -> X s' -> cstep s p m s' p' -> P s p -> P s' p' \/ Q s' p') ->
  (forall s p m s' p', X s -> X s' -> cstep s p m s' p' -> P s p -> splace s' a <> splace s a -> Q s' p') ->
  (forall s p, J s p -> P s p -> ~ now s a) ->
  (forall s p m s' p', X s -> X s' -> cstep s p m s' p' -> Q s p -> Q s' p') ->
  forall s ms, sturn a s ms -> forall p s' p', J s p -> P s p \/ Q s p -> crun X s p ms s' p' -> Q s' p'.
Proof.
  intros H1 H2 H3 H4.
  assert (H5 : forall s p ms s' p', crun X s p ms s' p' -> Q s p -> Q s' p').
  { induction 1 as [|s p m s1 p1 ms s2 p2 X1 X2 S R IH]; intros HQ; [exact HQ|]. apply IH. exact (H4 _ _ _ _ _ X1 X2 S HQ). }
  induction 1 as [s ms N|s m ms s1 l S N|s m ms s1 l S T IH]; intros p s' p' HJ [HP|HQ] R; try (exact (H5 _ _ _ _ _ R HQ)).
  - destruct (H3 s p HJ HP N).
  - inversion R as [|? ? ? s2 p2 ? ? ? X1 X2 C R']; subst. apply (H5 _ _ _ _ _ R'). destruct (j_step _ _ _ _ _ (proj1 C)) as (l' & S'). rewrite S in S'. injection S' as <- <-.
    exact (H2 _ _ _ _ _ X1 X2 C HP N).
  - inversion R as [|? ? ? s2 p2 ? ? ? X1 X2 C R']; subst. destruct (j_step _ _ _ _ _ (proj1 C)) as (l' & S'). rewrite S in S'. injection S' as <- <-.
    apply (IH p2 s' p' (j_to _ _ _ _ _ (proj1 C))); [|exact R']. exact (H1 _ _ _ _ _ X1 X2 C HP).
Qed.

Lemma crun_J X s p ms s' p' : crun X s p ms s' p' -> J s p -> J s' p'.
Proof. induction 1 as [|s p m s1 p1 ms s2 p2 X1 X2 S R IH]; intros HJ; [exact HJ|]. apply IH. exact (j_to _ _ _ _ _ (proj1 S)). Qed.
Lemma crun_app X s p ms ms' s' p' : crun X s p (ms ++ ms') s' p' -> exists s1 p1, crun X s p ms s1 p1 /\ crun X s1 p1 ms' s' p'.
Proof.
  revert s p. induction ms as [|m ms IH]; intros s p H; cbn [List.app] in H; [exists s, p; split; [constructor|exact H]|].
  inversion H as [|? ? ? s2 p2 ? ? ? X1 X2 C R']; subst. destruct (IH _ _ R') as (s1 & p1 & A & B). exists s1, p1. split; [econstructor; eassumption|exact B].
Qed.
Lemma crun_exec X s p ms s' p' s1 l : crun X s p ms s' p' -> spexec s ms = Some (s1, l) -> s1 = s'.
Proof.
  intros R. revert s1 l. induction R as [|s p m s2 p2 ms s3 p3 X1 X2 S R IH]; intros s1 l H; cbn [StackModel.spexec] in H; [injection H as <- _; reflexivity|].
  destruct (j_step _ _ _ _ _ (proj1 S)) as (l' & S'). rewrite S' in H. destruct (spexec s2 ms) as [[s4 l4]|] eqn:Q; [|discriminate]. injection H as <- _. exact (IH _ _ eq_refl).
Qed.

(** The step of somebody else. *)
Lemma busy_kept s m s' l id u : spstep s m = Some (s', l) -> goes_on m -> id < K -> busy s id u -> own s m s' id u \/ spot s' id u = spot s id u.
Proof. intros H G Hid B. destruct (spot_step _ _ _ _ id u H G) as [O|[[_ F]|Z]]; auto. rewrite (not_free _ _ _ Hid B) in F. discriminate. Qed.
Lemma busy_spot s s' id u : spot s' id u = spot s id u -> busy s id u -> busy s' id u.
Proof.
  unfold spot, busy. intros Z. injection Z as Z _. unfold free_in, FullModel.outside. cbn [thr]. rewrite !nth_error_map, Z. auto.
Qed.
Lemma inside_busy s id u f : nth_error (FullModel.pcs (sleaf s id)) u = Some f -> FullEnd.inside f = true -> busy s id u.
Proof. intros H I. unfold busy, free_in, FullModel.outside. cbn [thr]. rewrite nth_error_map, H. cbn [option_map]. destruct f; try discriminate I; reflexivity. Qed.
Lemma inside_not_now s id u f : nth_error (FullModel.pcs (sleaf s id)) u = Some f -> FullEnd.inside f = true -> id < K -> ~ now s (ag id u).
Proof.
  intros H I Hid [(t & Ea & _ & R)|[N _]].
  - unfold ag in Ea. destruct (Nat.eqb_spec u 0) as [->|Hu]; [discriminate|]. injection Ea as <-. destruct (R id Hid) as [R'|R']; rewrite R' in H; injection H as <-; discriminate I.
  - apply N. assert (B : busy_in s id u) by (exists f; split; [exact H|destruct f; try discriminate I; reflexivity]).
    unfold ag. destruct (Nat.eqb_spec u 0) as [->|Hu]; cbn [sbusy]; eauto.
Qed.
Lemma ag_in id u : id < K -> u <= n -> In (ag id u) (agents K n).
Proof. intros Hid Hu. unfold agents, ag. apply in_or_app. destruct (Nat.eqb_spec u 0) as [->|N]; [right|left]; apply in_map, in_seq; lia. Qed.
Lemma thread_le s p id u f : J s p -> id < K -> nth_error (FullModel.pcs (sleaf s id)) u = Some f -> u <= n.
Proof.
  intros HJ Hid H. destruct (abs_at _ _ _ _ _ HJ H) as (pa & g & Ha & _). destruct HJ as [_ (tr & V)].
  pose proof (len_reach n (cf id) _ _ _ (V_leaf _ _ _ _ p tr V id Hid)) as L. assert (u < length (thr (leaf p id))) by (apply nth_error_Some; congruence). lia.
Qed.
Lemma rpc_inside s p id u : J s p -> rpc s id u <> CircModel.Idle -> exists f, nth_error (FullModel.pcs (sleaf s id)) u = Some f /\ FullEnd.inside f = true.
Proof.
  intros [[L _] _] H. destruct (L id) as [g R].
  destruct (nth_error (FullModel.pcs (sleaf s id)) u) as [f|] eqn:Hf.
  - exists f. split; [reflexivity|]. destruct (FullEnd.inside f) eqn:I; [reflexivity|]. exfalso. apply H. apply (@FullEnd.out_idle E (cf id) _ _ _ u R). intros x Hx. congruence.
  - exfalso. apply H. apply (@FullEnd.out_idle E (cf id) _ _ _ u R). intros x Hx. congruence.
Qed.

(** Nobody takes a slot in a round after which there is another one. *)
Lemma no_taker X s p ms s' p' id u : sround K cf n s ms -> J s p -> crun X s p ms s' p' -> id < K -> taking (rpc s id u) = true -> False.
Proof.
  intros [_ RT] HJ R Hid T.
  assert (Hn : rpc s id u <> CircModel.Idle) by (intros Z; rewrite Z in T; discriminate).
  destruct (rpc_inside s p id u HJ Hn) as (f & Hf & If).
  refine (turn_gets X (ag id u) (fun s _ => taking (rpc s id u) = true) (fun _ _ => False) _ _ _ _ s ms _ p s' p' HJ (or_introl T) R).
  - intros s1 p1 m s2 p2 _ _ C T1. left. destruct (j_step _ _ _ _ _ (proj1 C)) as (l & S).
    assert (N1 : rpc s1 id u <> CircModel.Idle) by (intros Z; rewrite Z in T1; discriminate).
    destruct (rpc_inside s1 p1 id u (j_from _ _ _ _ _ (proj1 C)) N1) as (f1 & F1 & I1).
    destruct (busy_kept _ _ _ _ id u S (j_on _ _ _ _ _ (proj1 C)) Hid (inside_busy _ _ _ _ F1 I1)) as [O|Z]; [destruct (no_take _ _ _ _ _ _ _ C Hid T1 O)|].
    unfold rpc. rewrite Z. exact T1.
  - intros s1 p1 m s2 p2 _ _ C T1 N.
    assert (N1 : rpc s1 id u <> CircModel.Idle) by (intros Z; rewrite Z in T1; discriminate).
    destruct (rpc_inside s1 p1 id u (j_from _ _ _ _ _ (proj1 C)) N1) as (f1 & F1 & I1).
    destruct (place_own _ _ _ _ _ id u (proj1 C) Hid (thread_le _ _ _ _ _ (j_from _ _ _ _ _ (proj1 C)) Hid F1) (inside_busy _ _ _ _ F1 I1)) as [O|Z]; [exact (no_take _ _ _ _ _ _ _ C Hid T1 O)|contradiction].
  - intros s1 p1 HJ1 T1. assert (N1 : rpc s1 id u <> CircModel.Idle) by (intros Z; rewrite Z in T1; discriminate).
    destruct (rpc_inside s1 p1 id u HJ1 N1) as (f1 & F1 & I1). exact (inside_not_now _ _ _ _ F1 I1 Hid).
  - intros. assumption.
  - apply RT. apply ag_in; [exact Hid|]. exact (thread_le _ _ _ _ _ HJ Hid Hf).
Qed.
(* before such a round nobody takes one either *)
Lemma taking_stays X s p ms s' p' id u : crun X s p ms s' p' -> id < K -> taking (rpc s id u) = true -> taking (rpc s' id u) = true.
Proof.
  intros R Hid. induction R as [|s p m s2 p2 ms s3 p3 X1 X2 C R IH]; intros T; [exact T|]. apply IH. destruct (j_step _ _ _ _ _ (proj1 C)) as (l & S).
  assert (N1 : rpc s id u <> CircModel.Idle) by (intros Z; rewrite Z in T; discriminate).
  destruct (rpc_inside s p id u (j_from _ _ _ _ _ (proj1 C)) N1) as (f1 & F1 & I1).
  destruct (busy_kept _ _ _ _ id u S (j_on _ _ _ _ _ (proj1 C)) Hid (inside_busy _ _ _ _ F1 I1)) as [O|Z]; [destruct (no_take _ _ _ _ _ _ _ C Hid T O)|].
  unfold rpc. rewrite Z. exact T.
Qed.
Definition NT (id : nat) (s : spool E) : Prop := forall u, taking (rpc s id u) = false.
Lemma crun_NT X s p ms s1 p1 more s' p' id : id < K -> J s p -> crun X s p ms s1 p1 -> sround K cf n s1 more -> crun X s1 p1 more s' p' -> crun (NT id) s p ms s1 p1 /\ NT id s1.
Proof.
  intros Hid HJ R RT R2.
  assert (G : forall s0 p0 ms0, J s0 p0 -> crun X s0 p0 ms0 s1 p1 -> NT id s0).
  { intros s0 p0 ms0 HJ0 R0 u. destruct (taking (rpc s0 id u)) eqn:T; [|reflexivity]. exfalso.
    exact (no_taker X s1 p1 more s' p' id u RT (crun_J _ _ _ _ _ _ R0 HJ0) R2 Hid (taking_stays _ _ _ _ _ _ _ _ R0 Hid T)). }
  split; [|exact (G s1 p1 [] (crun_J _ _ _ _ _ _ R HJ) (cr_nil X s1 p1))].
  induction R as [|s p m s2 p2 ms s3 p3 X1 X2 C R IH]; [constructor|]. econstructor; [exact (G s p _ HJ (cr_cons _ _ _ _ _ _ _ _ _ X1 X2 C R))| |exact C|].
  - exact (G s2 p2 _ (j_to _ _ _ _ _ (proj1 C)) R).
  - apply IH; auto. exact (j_to _ _ _ _ _ (proj1 C)).
Qed.

(** ** Rounds bring a measure down *)
Lemma rounds_get (X : spool E -> Prop) (a : agent) (I : spool E -> pstate E -> Prop) (f : spool E -> pstate E -> nat) :
  In a (agents K n) ->
  (forall s p m s' p', X s -> X s' -> cstep s p m s' p' -> I s p -> I s' p' /\ f s' p' <= f s p /\ (0 < f s p -> splace s' a <> splace s a -> f s' p' < f s p)) ->
  (forall s p, J s p -> I s p -> 0 < f s p -> ~ now s a) ->
  forall k s ms, srounds K cf n k s ms -> forall p s' p', J s p -> I s p -> crun X s p ms s' p' -> I s' p' /\ f s' p' <= f s p - k.
Proof.
  intros Ha H1 H2.
  assert (HI : forall s p ms s' p', crun X s p ms s' p' -> I s p -> I s' p' /\ f s' p' <= f s p).
  { induction 1 as [|s p m s1 p1 ms s2 p2 X1 X2 S R IH]; intros Hi; [auto|]. destruct (H1 _ _ _ _ _ X1 X2 S Hi) as (A & B & _). destruct (IH A) as [A' B']. split; [exact A'|lia]. }
  induction 1 as [s|k s ms ms' s1 l [G T] X0 HR IH]; intros p s' p' HJ Hi R; [inversion R; subst; split; [exact Hi|lia]|].
  destruct (crun_app _ _ _ _ _ _ _ R) as (s2 & p2 & R1 & R2). pose proof (crun_exec _ _ _ _ _ _ _ _ R1 X0) as Z. subst s2.
  destruct (HI _ _ _ _ _ R1 Hi) as [Hi1 Le]. destruct (IH _ _ _ (crun_J _ _ _ _ _ _ R1 HJ) Hi1 R2) as [Hi2 Le2]. split; [exact Hi2|].
  destruct (Nat.eq_dec (f s p) 0) as [Z0|N0]; [lia|].
  assert (D : f s1 p2 < f s p); [|lia].
  refine (proj2 (turn_gets X a (fun s0 p0 => I s0 p0 /\ f s0 p0 = f s p) (fun s0 p0 => I s0 p0 /\ f s0 p0 < f s p) _ _ _ _ s ms (T a Ha) p s1 p2 HJ (or_introl (conj Hi eq_refl)) R1)).
  - intros s3 p3 m s4 p4 X3 X4 C [I3 F3]. destruct (H1 _ _ _ _ _ X3 X4 C I3) as (I4 & F4 & _). destruct (Nat.eq_dec (f s4 p4) (f s p)) as [Q|Q]; [left; auto|right; split; [exact I4|lia]].
  - intros s3 p3 m s4 p4 X3 X4 C [I3 F3] N. destruct (H1 _ _ _ _ _ X3 X4 C I3) as (I4 & F4 & F5). split; [exact I4|]. rewrite <- F3. apply F5; [lia|exact N].
  - intros s3 p3 HJ3 [I3 F3]. apply (H2 _ _ HJ3 I3). lia.
  - intros s3 p3 m s4 p4 X3 X4 C [I3 F3]. destruct (H1 _ _ _ _ _ X3 X4 C I3) as (I4 & F4 & _). split; [exact I4|lia].
Qed.

(** ** Those who hold a slot *)
Definition hw (x : option (FullModel.fpc E) * CircModel.pc E) : nat :=
  match fst x with
  | Some (FullModel.InPut _) | Some (FullModel.InGet _) =>
      match snd x with
      | CircModel.PAdv _ _ | CircModel.GAdv _ => 7
      | CircModel.PInc _ _ | CircModel.GDec _ => 6
      | CircModel.PUnlock _ _ | CircModel.GUnlock _ => 5
      | CircModel.PBuild _ _ => 4
      | CircModel.PBuilt _ _ => 3
      | _ => 0
      end
  | Some (FullModel.Add _) | Some (FullModel.Sub _ _) => 2
  | Some (FullModel.Rel _) | Some (FullModel.Free _ _ _) => 1
  | _ => 0
  end.
Lemma hw_at f r : hw (Some (FullModel.At f), r) = 0.
Proof. reflexivity. Qed.

Lemma own_hw s p m s' p' id u : jstep s p m s' p' -> taking (rpc s' id u) = false -> own s m s' id u ->
  hw (spot s' id u) < hw (spot s id u) \/ (hw (spot s id u) = 0 /\ hw (spot s' id u) = 0).
Proof.
  intros S T (c & ls & -> & Hc & F). cbn [FullModel.fstep] in F. unfold rpc, spot in *. cbn [snd] in T.
  destruct (nth_error (FullModel.pcs (sleaf s id)) u) as [f|] eqn:Hf.
  2:{ injection F as F _. rewrite <- F, Hf. right. split; reflexivity. }
  destruct (abs_at s p id u f (j_from _ _ _ _ _ S) Hf) as (pa & g & Ha & Pr & R).
  pose proof (@FullEnd.phase_rpc E (cf id) _ _ _ u f R Hf) as PR. unfold FullEnd.RPC in PR. pose proof (FullProofs.some_lt _ _ Hf) as Lt.
  generalize dependent (sleaf s' id). intros x T F.
  destruct f as [f|e|i|i|k|k i|k e i|].
  - right. split; [reflexivity|].
    assert (QA : forall p0, (let '(a, l0) := step_thread (cf id) (FullModel.outside (sleaf s id)) u c p0 in
      Some (FullModel.mkF (FullModel.ring (sleaf s id)) (FullModel.strip a) (FullModel.fupd (FullModel.pcs (sleaf s id)) u (FullModel.At (nth u (thr a) Idle))), l0)) = Some (x, ls) ->
      hw (nth_error (FullModel.pcs x) u, CircModel.t_pc (CircModel.thr (FullModel.ring x) u)) = 0).
    { intros p0 H. destruct (step_thread (cf id) _ u c p0) as [a l0]. injection H as <- _. cbn [FullModel.pcs]. rewrite FullProofs.fupd_at by exact Lt. reflexivity. }
    destruct f; cbn [FullModel.fstep_thread] in F; try (match type of F with context [step_thread _ _ _ _ ?q] => exact (QA q F) end); unfold FullModel.call in F;
      unfold CircModel.step in F; rewrite PR in F; injection F as <- _; cbn [FullModel.pcs FullModel.ring]; rewrite FullProofs.fupd_at by exact Lt;
      cbn [CircModel.thr CircModel.set_pc CircModel.set_thr]; unfold CircModel.upd; rewrite Nat.eqb_refl; reflexivity.
  - cbn [FullModel.fstep_thread] in F. unfold CircModel.step in F.
    destruct (CircModel.t_pc (CircModel.thr (FullModel.ring (sleaf s id)) u)) eqn:Q; cbn [CircProofs.phase_ok] in PR;
      repeat match type of F with context [if ?b then _ else _] => destruct b eqn:?B end; try discriminate F; cbv beta iota zeta in F;
      try (match type of F with context [FullModel.taken ?a ?b ?c ?d] => destruct (FullModel.taken a b c d) as [y l0] end);
      injection F as <- _; cbn [FullModel.pcs FullModel.ring] in T |- *; rewrite ?Hf; rewrite ?FullProofs.fupd_at by exact Lt; rewrite ?Q;
      cbn [CircModel.thr CircModel.set_pc CircModel.set_thr CircModel.set_lock CircModel.set_node CircModel.set_idx] in T |- *;
      unfold CircModel.upd in T |- *; rewrite ?Nat.eqb_refl in T |- *; cbn [CircModel.t_pc hw fst snd] in T |- *; try discriminate T; try lia; rewrite ?Q; cbn [hw fst snd]; try lia.
  - cbn [FullModel.fstep_thread] in F. destruct (CircModel.step (c_cap (cf id)) (FullModel.ring (sleaf s id)) u _) as [r tr|] eqn:Sx; [|discriminate F].
    destruct tr as [|l [|]]; try discriminate F; destruct l; try discriminate F. injection F as <- _. cbn [FullModel.pcs]. rewrite FullProofs.fupd_at by exact Lt. left. cbn. lia.
  - cbn [FullModel.fstep_thread] in F. destruct (CircModel.step (c_cap (cf id)) (FullModel.ring (sleaf s id)) u _) as [r tr|] eqn:Sx; [|discriminate F].
    injection F as <- _. cbn [FullModel.pcs]. rewrite FullProofs.fupd_at by exact Lt. left. cbn. lia.
  - cbn [FullModel.fstep_thread] in F. unfold CircModel.step in F.
    destruct (CircModel.t_pc (CircModel.thr (FullModel.ring (sleaf s id)) u)) eqn:Q; cbn [CircProofs.phase_ok] in PR;
      repeat match type of F with context [if ?b then _ else _] => destruct b eqn:?B end; try discriminate F; cbv beta iota zeta in F;
      injection F as <- _; cbn [FullModel.pcs FullModel.ring] in T |- *; rewrite ?Hf; rewrite ?FullProofs.fupd_at by exact Lt; rewrite ?Q;
      cbn [CircModel.thr CircModel.set_pc CircModel.set_thr CircModel.set_lock CircModel.set_node CircModel.set_idx] in T |- *;
      unfold CircModel.upd in T |- *; rewrite ?Nat.eqb_refl in T |- *; cbn [CircModel.t_pc hw fst snd] in T |- *; try discriminate T; try lia; rewrite ?Q; cbn [hw fst snd]; try lia.
  - cbn [FullModel.fstep_thread] in F. destruct (CircModel.step (c_cap (cf id)) (FullModel.ring (sleaf s id)) u _) as [r tr|] eqn:Sx; [|discriminate F].
    destruct tr as [|l [|]]; try discriminate F; destruct l; try discriminate F. destruct (c_kind (cf id)); injection F as <- _; cbn [FullModel.pcs]; rewrite FullProofs.fupd_at by exact Lt; left; cbn; lia.
  - cbn [FullModel.fstep_thread] in F. destruct (CircModel.step (c_cap (cf id)) (FullModel.ring (sleaf s id)) u _) as [r tr|] eqn:Sx; [|discriminate F].
    injection F as <- _. cbn [FullModel.pcs]. rewrite FullProofs.fupd_at by exact Lt. left. cbn. lia.
  - right. split; [reflexivity|]. cbn [FullModel.fstep_thread] in F. destruct (CircModel.step (c_cap (cf id)) (FullModel.ring (sleaf s id)) u _) as [r tr|] eqn:Sx; [|discriminate F].
    destruct tr as [|l [|]]; try (injection F as <- _; cbn [FullModel.pcs]; rewrite Hf; reflexivity).
    + destruct l as [| |? v| |]; try (injection F as <- _; cbn [FullModel.pcs]; rewrite Hf; reflexivity).
      destruct v; injection F as <- _; cbn [FullModel.pcs]; rewrite ?Hf; rewrite ?FullProofs.fupd_at by exact Lt; reflexivity.
    + destruct l as [| |? v| |]; try (injection F as <- _; cbn [FullModel.pcs]; rewrite Hf; reflexivity).
      destruct v; injection F as <- _; cbn [FullModel.pcs]; rewrite Hf; reflexivity.
Qed.

Lemma hw_inside s id u : 0 < hw (spot s id u) -> exists f, nth_error (FullModel.pcs (sleaf s id)) u = Some f /\ FullEnd.inside f = true.
Proof.
  unfold hw, spot. cbn [fst snd]. destruct (nth_error (FullModel.pcs (sleaf s id)) u) as [f|]; [|lia]. intros H. exists f. split; [reflexivity|]. destruct f; try reflexivity. lia.
Qed.
Lemma next_hw s u s' l id : spstep s (XNext u) = Some (s', l) -> id < K -> sfree K s u = true -> hw (spot s id u) = 0 /\ hw (spot s' id u) = 0.
Proof.
  intros H Hid F0. assert (F : free_in (FullModel.outside (sleaf s id)) u = true) by (unfold sfree in F0; rewrite forallb_forall in F0; apply F0, in_seq; lia).
  destruct (free_spot _ _ F) as [Hp|Hp].
  - assert (Z : hw (spot s id u) = 0) by (unfold spot; rewrite Hp; reflexivity). split; [exact Z|].
    cbn [StackModel.spstep] in H. destruct (stodo s u) as [|c cs]; [injection H as <- _; exact Z|]. rewrite F0 in H.
    destruct (Nat.ltb (target c) K); [|injection H as <- _; exact Z]. unfold sin_leaf in H. cbn [set_stodo sleaf] in H.
    destruct (FullModel.fstep (cf (target c)) (sleaf s (target c)) _) as [[x ls]|] eqn:Fx; [|discriminate]. injection H as <- _.
    unfold spot. cbn [set_sleaf set_stodo sleaf]. destruct (Nat.eqb_spec id (target c)) as [->|N]; [|rewrite Hp; reflexivity].
    cbn [FullModel.fstep] in Fx. rewrite Hp in Fx. cbn [FullModel.fstep_thread] in Fx. destruct (step_thread _ _ u _ Idle) as [a l0]. injection Fx as <- _.
    cbn [FullModel.pcs]. rewrite FullProofs.fupd_at by exact (FullProofs.some_lt _ _ Hp). reflexivity.
  - assert (Z : hw (spot s id u) = 0) by (unfold spot; rewrite Hp; reflexivity). split; [exact Z|].
    cbn [StackModel.spstep] in H. destruct (stodo s u) as [|c cs]; [injection H as <- _; exact Z|]. rewrite F0 in H.
    destruct (Nat.ltb (target c) K); [|injection H as <- _; exact Z]. unfold sin_leaf in H. cbn [set_stodo sleaf] in H.
    destruct (FullModel.fstep (cf (target c)) (sleaf s (target c)) _) as [[x ls]|] eqn:Fx; [|discriminate]. injection H as <- _.
    unfold spot. cbn [set_sleaf set_stodo sleaf]. destruct (Nat.eqb_spec id (target c)) as [->|N]; [|rewrite Hp; reflexivity].
    cbn [FullModel.fstep] in Fx. rewrite Hp in Fx. cbn [FullModel.fstep_thread] in Fx. destruct (step_thread _ _ u _ Dead) as [a l0]. injection Fx as <- _.
    cbn [FullModel.pcs]. rewrite FullProofs.fupd_at by exact (FullProofs.some_lt _ _ Hp). reflexivity.
Qed.
Lemma hw_step s p m s' p' id u : cstep s p m s' p' -> NT id s' -> id < K ->
  hw (spot s' id u) <= hw (spot s id u) /\ (0 < hw (spot s id u) -> splace s' (ag id u) <> splace s (ag id u) -> hw (spot s' id u) < hw (spot s id u)).
Proof.
  intros C N Hid. destruct (j_step _ _ _ _ _ (proj1 C)) as (l & S). split.
  - destruct (spot_step _ _ _ _ id u S (j_on _ _ _ _ _ (proj1 C))) as [O|[[-> F]|Z]].
    + destruct (own_hw _ _ _ _ _ _ _ (proj1 C) (N u) O) as [H|[H1 H2]]; lia.
    + destruct (next_hw _ _ _ _ id S Hid F) as [H1 H2]. lia.
    + rewrite Z. lia.
  - intros H P. destruct (hw_inside _ _ _ H) as (f & Hf & If).
    destruct (place_own _ _ _ _ _ id u (proj1 C) Hid (thread_le _ _ _ _ _ (j_from _ _ _ _ _ (proj1 C)) Hid Hf) (inside_busy _ _ _ _ Hf If)) as [O|Z]; [|contradiction].
    destruct (own_hw _ _ _ _ _ _ _ (proj1 C) (N u) O) as [Q|[H1 H2]]; lia.
Qed.

Definition NH (id : nat) (s : spool E) : Prop := forall u, hw (spot s id u) = 0.
Lemma holders_leave id s p ms s' p' : id < K -> srounds K cf n 7 s ms -> J s p -> crun (NT id) s p ms s' p' -> NH id s'.
Proof.
  intros Hid HR HJ R u. destruct (le_lt_dec u n) as [Hu|Hu].
  - assert (Z : hw (spot s' id u) <= hw (spot s id u) - 7).
    { refine (proj2 (rounds_get (NT id) (ag id u) (fun _ _ => True) (fun s _ => hw (spot s id u)) (ag_in id u Hid Hu) _ _ 7 s ms HR p s' p' HJ I R)).
      - intros s1 p1 m s2 p2 _ X2 C _. split; [exact I|]. exact (hw_step _ _ _ _ _ _ _ C X2 Hid).
      - intros s1 p1 HJ1 _ H. destruct (hw_inside _ _ _ H) as (f & Hf & If). exact (inside_not_now _ _ _ _ Hf If Hid). }
    assert (hw (spot s id u) <= 7); [|lia]. unfold hw. destruct (fst (spot s id u)) as [f|]; [|lia]. destruct f; try lia; destruct (snd (spot s id u)); lia.
  - destruct (hw (spot s' id u)) eqn:Q; [reflexivity|]. destruct (hw_inside s' id u ltac:(lia)) as (f & Hf & _). pose proof (thread_le _ _ _ _ _ (crun_J _ _ _ _ _ _ R HJ) Hid Hf). lia.
Qed.
Lemma crun_NH id s p ms s' p' : id < K -> crun (NT id) s p ms s' p' -> NH id s -> crun (NH id) s p ms s' p' /\ NH id s'.
Proof.
  intros Hid R. induction R as [|s p m s1 p1 ms s2 p2 X1 X2 C R IH]; intros H; [split; [constructor|exact H]|].
  assert (H1 : NH id s1).
  { intros u. destruct (hw_step _ _ _ _ _ id u C X2 Hid) as [Z _]. rewrite (H u) in Z. lia. }
  destruct (IH H1) as [A B]. split; [|exact B]. exact (cr_cons (NH id) _ _ _ _ _ _ _ _ H H1 C A).
Qed.
(* no slot is busy then *)
Lemma NH_slots s p id i : J s p -> NH id s -> CircModel.n_busy (CircModel.nodes (FullModel.ring (sleaf s id)) i) = false.
Proof.
  intros [[L _] _] H. destruct (L id) as [g R]. apply (@FullEnd.slot_free E (cf id) _ _ g i R).
  - intros u f Hf. specialize (H u). unfold hw, spot in H. cbn [fst snd] in H. rewrite Hf in H. destruct f; try reflexivity; discriminate H.
  - intros u. specialize (H u). unfold hw, spot in H. cbn [fst snd] in H. fold (FullEnd.RPC (sleaf s id) u) in H.
    destruct (nth_error (FullModel.pcs (sleaf s id)) u) as [f|] eqn:Hf.
    + pose proof (@FullEnd.phase_rpc E (cf id) _ _ _ u f R Hf) as PR. destruct f; try (rewrite PR; reflexivity).
      * destruct (FullEnd.RPC (sleaf s id) u); try reflexivity; discriminate H.
      * destruct (FullEnd.RPC (sleaf s id) u); try reflexivity; discriminate H.
      * destruct (FullEnd.RPC (sleaf s id) u) eqn:Q; try reflexivity; cbn [CircProofs.phase_ok] in PR; destruct PR as [PR|[? PR]]; repeat match type of PR with ex _ => destruct PR as [? PR] end; try discriminate PR; destruct PR; discriminate.
    + rewrite (@FullEnd.out_idle E (cf id) _ _ _ u R); [reflexivity|]. intros q Hq. congruence.
Qed.

(** ** The agent that everything waits for *)
Definition w2 (x : option (FullModel.fpc E) * CircModel.pc E) : nat :=
  match fst x with
  | Some (FullModel.At (PPut _)) | Some (FullModel.At (FGet _)) | Some (FullModel.At WSize) => 24
  | Some (FullModel.InPut _) | Some (FullModel.InGet _) | Some FullModel.InSize => FullEnd.rank (snd x)
  | _ => 0
  end.
Definition KI (id k : nat) (pa : pc E) (s : spool E) (p : pstate E) : Prop :=
  why p (ag id k) /\ nth_error (thr (leaf p id)) k = Some pa /\ free_in (leaf p id) k = false.

Lemma KI_step id k pa s p m s' p' : id < K -> cstep s p m s' p' -> KI id k pa s p -> KI id k pa s' p'.
Proof.
  intros Hid C (W & A & F). destruct (calm_why _ _ _ _ _ _ C W) as [W' P]. split; [exact W'|].
  assert (Z : nth_error (thr (leaf p' id)) k = nth_error (thr (leaf p id)) k).
  { unfold ag in P. destruct (Nat.eqb_spec k 0) as [->|Hk]; [cbn [PoolSpec.place] in P; congruence|]. exact (place_client_leaf K _ _ _ id Hid P). }
  split; [now rewrite Z|]. unfold free_in in *. rewrite Z. exact F.
Qed.
Lemma KI_busy id k pa s p : J s p -> KI id k pa s p -> busy s id k.
Proof. intros HJ (_ & _ & F). unfold busy. rewrite (free_eq s p id k HJ). exact F. Qed.
Lemma KI_at id k pa s p : J s p -> KI id k pa s p -> exists f g, nth_error (FullModel.pcs (sleaf s id)) k = Some f /\ FullProofs.prel (cf id) g k f pa /\ FullProofs.rel (cf id) (sleaf s id) (leaf p id) g.
Proof.
  intros HJ (_ & A & _). destruct (nth_error (FullModel.pcs (sleaf s id)) k) as [f|] eqn:Hf.
  - destruct (abs_at _ _ _ _ _ HJ Hf) as (pa' & g & A' & Pr & R). rewrite A in A'. injection A' as <-. eauto.
  - exfalso. destruct HJ as [[L _] _]. destruct (L id) as [g R]. apply nth_error_None in Hf. rewrite (FullProofs.r_len R) in Hf. apply nth_error_None in Hf. congruence.
Qed.
Lemma KI_le id k pa s p : J s p -> id < K -> KI id k pa s p -> k <= n.
Proof. intros HJ Hid H. destruct (KI_at _ _ _ _ _ HJ H) as (f & g & Hf & _). exact (thread_le _ _ _ _ _ HJ Hid Hf). Qed.

Lemma place_spot s p m s' p' id u : jstep s p m s' p' -> id < K -> u <= n -> busy s id u -> spot s' id u = spot s id u -> splace s' (ag id u) = splace s (ag id u).
Proof.
  intros S Hid Hu B Z. destruct (j_step _ _ _ _ _ S) as (l & H). pose proof (j_on _ _ _ _ _ S) as G. pose proof (not_free _ _ _ Hid B) as NF.
  unfold ag. destruct (Nat.eqb_spec u 0) as [->|Hu0]; cbn [StackFairSpec.splace]; [now rewrite Z|]. f_equal.
  - destruct (todo_step _ _ _ _ u H G) as [[_ F]|T]; [congruence|exact T].
  - apply map_ext_in. intros j Hj. apply in_seq in Hj. destruct (Nat.eq_dec j id) as [->|Nj]; [exact Z|].
    destruct (spot_step _ _ _ _ j u H G) as [(c & ls & -> & Hc & F)|[[_ F]|Zj]]; [|congruence|exact Zj].
    assert (Fj : free_in (FullModel.outside (sleaf s j)) u = true).
    { destruct (j_from _ _ _ _ _ S) as [L (tr & V)]. unfold busy in B. rewrite (free_eq s p) in B |- * by (exact (j_from _ _ _ _ _ S)).
      destruct (free_in (leaf p j) u) eqn:Fj; [reflexivity|]. exfalso. apply Nj. apply (V_one _ _ _ _ p tr V u j id); auto; lia. }
    destruct (idle_step _ _ _ _ _ _ Fj Hc F) as [F1 F2]. unfold spot. now rewrite F1, F2.
Qed.

Lemma spin_stays (C : cfg E) x u c x' ls f : nth_error (FullModel.pcs x) u = Some f -> CircModel.g_busy (FullModel.ring x) = true ->
  match f with FullModel.InPut _ | FullModel.InGet _ | FullModel.InSize => True | _ => False end ->
  match FullEnd.RPC x u with CircModel.PSpin _ | CircModel.GSpin | CircModel.QSpin _ => True | _ => False end ->
  FullModel.fstep C x (MThread u c) = Some (x', ls) -> nth_error (FullModel.pcs x') u = Some f /\ FullEnd.RPC x' u = FullEnd.RPC x u.
Proof.
  intros Hf B Sh Sp F. cbn [FullModel.fstep] in F. rewrite Hf in F.
  destruct f; try contradiction; cbn [FullModel.fstep_thread] in F; unfold CircModel.step in F; fold (FullEnd.RPC x u) in F;
    destruct (FullEnd.RPC x u) eqn:Q; try contradiction; rewrite B in F; cbv beta iota zeta in F; injection F as <- _; cbn [FullModel.pcs FullModel.ring];
    (split; [exact Hf|]); unfold FullEnd.RPC; cbn [FullModel.ring]; exact Q.
Qed.

Lemma own_w2 s p m s' p' id k pa : cstep s p m s' p' -> id < K -> NH id s -> KI id k pa s p -> own s m s' id k ->
  w2 (spot s' id k) < w2 (spot s id k) \/ spot s' id k = spot s id k.
Proof.
  intros C Hid NHs HK (c & ls & -> & Hc & F). pose proof (KI_step _ _ _ _ _ _ _ _ Hid C HK) as HK'.
  destruct (KI_at _ _ _ _ _ (j_from _ _ _ _ _ (proj1 C)) HK) as (f & g & Hf & Pr & R).
  destruct (KI_at _ _ _ _ _ (j_to _ _ _ _ _ (proj1 C)) HK') as (f' & g' & Hf' & Pr' & R').
  unfold spot, w2. cbn [fst snd]. rewrite Hf, Hf'. change (CircModel.t_pc (CircModel.thr (FullModel.ring (sleaf s id)) k)) with (FullEnd.RPC (sleaf s id) k).
  change (CircModel.t_pc (CircModel.thr (FullModel.ring (sleaf s' id)) k)) with (FullEnd.RPC (sleaf s' id) k).
  assert (IN : match f with FullModel.InPut _ | FullModel.InGet _ | FullModel.InSize => True | _ => False end ->
     (match f' with
      | FullModel.At (PPut _) | FullModel.At (FGet _) | FullModel.At WSize => 24
      | FullModel.InPut _ | FullModel.InGet _ | FullModel.InSize => FullEnd.rank (FullEnd.RPC (sleaf s' id) k)
      | _ => 0 end < FullEnd.rank (FullEnd.RPC (sleaf s id) k)) \/ (Some f', FullEnd.RPC (sleaf s' id) k) = (Some f, FullEnd.RPC (sleaf s id) k)).
  { intros Sh. assert (Ii : FullEnd.inside f = true) by (destruct f; try contradiction; reflexivity).
    destruct (@FullEnd.step_down E (cf id) _ _ _ k f c _ _ R Hf Ii F) as (f2 & Hf2 & Ld & W). rewrite Hf' in Hf2. injection Hf2 as <-.
    rewrite (@FullEnd.weight_at E _ _ _ Hf), (@FullEnd.weight_at E _ _ _ Hf') in W.
    assert (Low : FullEnd.need_not_wait (sleaf s id) k -> match f' with
      | FullModel.At (PPut _) | FullModel.At (FGet _) | FullModel.At WSize => 24
      | FullModel.InPut _ | FullModel.InGet _ | FullModel.InSize => FullEnd.rank (FullEnd.RPC (sleaf s' id) k)
      | _ => 0 end < FullEnd.rank (FullEnd.RPC (sleaf s id) k)).
    { intros N. specialize (W N). pose proof (FullEnd.rank_ge (FullEnd.RPC (sleaf s id) k)) as Ge.
      destruct f; try contradiction; cbn [FullEnd.leads FullEnd.mu] in *.
      - destruct Ld as [->|[[i ->]| ->]]; [exact W|lia|lia].
      - destruct Ld as [->|[[i ->]| ->]]; [exact W|lia|]. unfold FullProofs.after_none. destruct (c_kind (cf id)); lia.
      - destruct Ld as [->|[i ->]]; [exact W|]. unfold FullProofs.after_size. destruct (Nat.eqb i 0); lia. }
    pose proof (fun i => NH_slots s p id i (j_from _ _ _ _ _ (proj1 C)) NHs) as SF.
    unfold FullEnd.need_not_wait in Low.
    assert (Spin : match FullEnd.RPC (sleaf s id) k with CircModel.PSpin _ | CircModel.GSpin | CircModel.QSpin _ => True | _ => False end ->
       CircModel.g_busy (FullModel.ring (sleaf s id)) = true -> (Some f', FullEnd.RPC (sleaf s' id) k) = (Some f, FullEnd.RPC (sleaf s id) k)).
    { intros Sp B. destruct (spin_stays (cf id) _ _ _ _ _ _ Hf B Sh Sp F) as [Z1 Z2]. rewrite Hf' in Z1. injection Z1 as ->. now rewrite Z2. }
    destruct (FullEnd.RPC (sleaf s id) k); try (left; apply Low; exact I); try (left; apply Low; apply SF);
      (destruct (CircModel.g_busy (FullModel.ring (sleaf s id))) eqn:B; [right; apply Spin; [exact I|reflexivity]|left; apply Low; reflexivity]). }
  pose proof (NHs k) as Hk. unfold hw, spot in Hk. cbn [fst snd] in Hk. rewrite Hf in Hk.
  destruct f as [q|e|i|i|kk|kk i|kk e i|]; try discriminate Hk; try (exact (IN I)). clear IN.
  pose proof (@FullEnd.phase_rpc E (cf id) _ _ _ k _ R Hf) as PR. pose proof (FullProofs.some_lt _ _ Hf) as Lt.
  cbn [FullModel.fstep] in F. rewrite Hf in F. cbn [FullProofs.prel] in Pr. destruct Pr as (_ & _ & -> & _).
  assert (QA : forall p0, (let '(a, l0) := step_thread (cf id) (FullModel.outside (sleaf s id)) k c p0 in
      Some (FullModel.mkF (FullModel.ring (sleaf s id)) (FullModel.strip a) (FullModel.fupd (FullModel.pcs (sleaf s id)) k (FullModel.At (nth k (thr a) Idle))), l0)) = Some (sleaf s' id, ls) ->
      (Some f', FullEnd.RPC (sleaf s' id) k) = (Some (FullModel.At q), FullEnd.RPC (sleaf s id) k)).
  { intros p0 H. destruct (step_thread (cf id) _ k c p0) as [a l0]. injection H as H _. rewrite <- H in Hf' |- *. cbn [FullModel.pcs] in Hf'. rewrite FullProofs.fupd_at in Hf' by exact Lt.
    injection Hf' as <-. cbn [FullProofs.prel] in Pr'. destruct Pr' as (_ & _ & -> & _). reflexivity. }
  destruct q; cbn [FullModel.fstep_thread] in F; try (right; match type of F with context [step_thread _ _ _ _ ?q] => exact (QA q F) end);
    unfold FullModel.call in F; unfold CircModel.step in F; fold (FullEnd.RPC (sleaf s id) k) in F; rewrite PR in F; injection F as F _;
    rewrite <- F in Hf' |- *; cbn [FullModel.pcs] in Hf'; rewrite FullProofs.fupd_at in Hf' by exact Lt; injection Hf' as <-; left; unfold FullEnd.RPC; cbn [FullModel.ring];
    cbn [CircModel.thr CircModel.set_pc CircModel.set_thr]; unfold CircModel.upd; rewrite Nat.eqb_refl; cbn; lia.
Qed.

Lemma w2_step s p m s' p' id k pa : cstep s p m s' p' -> id < K -> NH id s -> KI id k pa s p ->
  KI id k pa s' p' /\ w2 (spot s' id k) <= w2 (spot s id k) /\ (splace s' (ag id k) <> splace s (ag id k) -> w2 (spot s' id k) < w2 (spot s id k)).
Proof.
  intros C Hid N HK. split; [exact (KI_step _ _ _ _ _ _ _ _ Hid C HK)|]. pose proof (KI_busy _ _ _ _ _ (j_from _ _ _ _ _ (proj1 C)) HK) as B.
  pose proof (KI_le _ _ _ _ _ (j_from _ _ _ _ _ (proj1 C)) Hid HK) as Le. destruct (j_step _ _ _ _ _ (proj1 C)) as (l & S). split.
  - destruct (busy_kept _ _ _ _ id k S (j_on _ _ _ _ _ (proj1 C)) Hid B) as [O|Z]; [|rewrite Z; lia].
    destruct (own_w2 _ _ _ _ _ _ _ _ C Hid N HK O) as [Q|Z]; [lia|rewrite Z; lia].
  - intros P. destruct (busy_kept _ _ _ _ id k S (j_on _ _ _ _ _ (proj1 C)) Hid B) as [O|Z]; [|destruct (P (place_spot _ _ _ _ _ _ _ (proj1 C) Hid Le B Z))].
    destruct (own_w2 _ _ _ _ _ _ _ _ C Hid N HK O) as [Q|Z]; [exact Q|destruct (P (place_spot _ _ _ _ _ _ _ (proj1 C) Hid Le B Z))].
Qed.

Lemma place_diff (s s' : spool E) id u : id < K -> nth_error (FullModel.pcs (sleaf s' id)) u <> nth_error (FullModel.pcs (sleaf s id)) u -> splace s' (ag id u) <> splace s (ag id u).
Proof.
  intros Hid N Q. apply N. unfold ag in Q. destruct (Nat.eqb_spec u 0) as [->|Hu]; cbn [StackFairSpec.splace] in Q.
  - unfold spot in Q. congruence.
  - apply (f_equal snd) in Q. cbn [snd] in Q. assert (Z : spot s' id u = spot s id u); [|unfold spot in Z; congruence].
    apply map_ext_in_iff with (a := id) in Q; [exact Q|]. apply in_seq. lia.
Qed.
Lemma goes_scan s id u c x ls : id < K -> calls c = false -> FullModel.fstep (cf id) (sleaf s id) (MThread u c) = Some (x, ls) ->
  nth_error (FullModel.pcs x) u <> nth_error (FullModel.pcs (sleaf s id)) u -> scan_go K cf n (ag id u) s.
Proof.
  intros Hid Hc F N. exists (XLeaf id (MThread u c)), (set_sleaf s id x), (map (PLeaf id) ls). split; [exact I|]. split.
  - cbn [StackModel.spstep]. apply Nat.ltb_lt in Hid. rewrite Hid, begins_calls, Hc. cbn [negb andb]. unfold sin_leaf. rewrite F. reflexivity.
  - apply place_diff; [exact Hid|]. cbn [set_sleaf sleaf]. rewrite Nat.eqb_refl. exact N.
Qed.
Lemma busy_not_resting s id u : id < K -> busy s id u -> ~ (exists t, ag id u = Client t /\ sresting K s t).
Proof.
  intros Hid B (t & Ea & _ & R). unfold ag in Ea. destruct (Nat.eqb_spec u 0) as [->|Hu]; [discriminate|]. injection Ea as <-.
  unfold busy, free_in, FullModel.outside in B. cbn [thr] in B. rewrite nth_error_map in B. destruct (R id Hid) as [Q|Q]; rewrite Q in B; discriminate B.
Qed.

Lemma key_can id k pa s p : J s p -> id < K -> KI id k pa s p -> exists c, calls c = false /\ nth_error (thr (fst (step (cf id) (leaf p id) (MThread k c)))) k <> Some pa.
Proof.
  intros HJ Hid HK. pose proof (KI_le _ _ _ _ _ HJ Hid HK) as Le. destruct HK as (W & A & Fr). destruct HJ as [_ (tr & V)].
  destruct (why_goes K cf op n cap_pos sz dest p tr _ V W) as [(m & M1 & M2) _].
  assert (CM : can_move (cf id) k (leaf p id)).
  { unfold ag in M2. destruct (Nat.eqb_spec k 0) as [->|Hk].
    - apply (worker_only K cf n p id m Hid M1 M2). intros u Hu. destruct u as [|u]; [|lia]. exfalso. apply Hu. apply (V_who _ _ _ _ p tr V). lia.
    - apply (client_only K cf op n p tr k id m V Hid ltac:(lia) Fr M1 M2). }
  destruct (move_or_not (cf id) (leaf p id) k pa A) as [(c & C1 & C2)|N]; [intros ->; unfold free_in in Fr; rewrite A in Fr; discriminate| |contradiction].
  exists c. split; [exact C1|]. rewrite A in C2. exact C2.
Qed.

Lemma w2_not_now s p id k pa : J s p -> id < K -> NH id s -> KI id k pa s p -> 0 < w2 (spot s id k) -> ~ now s (ag id k).
Proof.
  intros HJ Hid N HK Hw. pose proof (KI_busy _ _ _ _ _ HJ HK) as B. destruct (KI_at _ _ _ _ _ HJ HK) as (f & g & Hf & Pr & R).
  destruct (FullEnd.inside f) eqn:Ii; [exact (inside_not_now _ _ _ _ Hf Ii Hid)|].
  intros [Q|[_ Q]]; [exact (busy_not_resting _ _ _ Hid B Q)|]. apply Q. clear Q.
  pose proof (@FullEnd.phase_rpc E (cf id) _ _ _ k _ R Hf) as PR. pose proof (FullProofs.some_lt _ _ Hf) as Lt.
  destruct (@FullProofs.sim_step E (cf id) _ _ g (MThread k (CGo false)) R) as (x & ls & _ & _ & _ & F & _).
  apply (goes_scan s id k (CGo false) x ls Hid eq_refl F).
  unfold w2, spot in Hw. cbn [fst snd] in Hw. rewrite Hf in Hw. destruct f as [q|e|i|i|kk|kk i|kk e i|]; try discriminate Ii.
  cbn [FullModel.fstep] in F. rewrite Hf in F. rewrite Hf.
  destruct q; try lia; cbn [FullModel.fstep_thread] in F; unfold FullModel.call in F;
    (destruct (CircModel.step (c_cap (cf id)) (FullModel.ring (sleaf s id)) k _) as [r tr|]; [|discriminate F]); injection F as <- _; cbn [FullModel.pcs];
    rewrite FullProofs.fupd_at by exact Lt; discriminate.
Qed.

Lemma key_out s p id k pa ms s' p' : id < K -> srounds K cf n 24 s ms -> J s p -> NH id s -> crun (NH id) s p ms s' p' -> KI id k pa s p ->
  KI id k pa s' p' /\ w2 (spot s' id k) = 0.
Proof.
  intros Hid HR HJ XN R HK.
  assert (Z : (KI id k pa s' p' /\ NH id s') /\ w2 (spot s' id k) <= w2 (spot s id k) - 24).
  { refine (rounds_get (NH id) (ag id k) (fun s0 p0 => KI id k pa s0 p0 /\ NH id s0) (fun s0 _ => w2 (spot s0 id k)) (ag_in id k Hid (KI_le _ _ _ _ _ HJ Hid HK)) _ _ 24 s ms HR p s' p' HJ (conj HK XN) R).
    + intros s0 p0 m s1 p1 X0 X1 C [K0 N0]. destruct (w2_step _ _ _ _ _ _ _ _ C Hid X0 K0) as (B1 & B2 & B3). split; [auto|]. split; [exact B2|]. intros _. exact B3.
    + intros s0 p0 HJ0 [K0 N0] H0. exact (w2_not_now _ _ _ _ _ HJ0 Hid N0 K0 H0). }
  destruct Z as [[Z1 _] Z2]. split; [exact Z1|]. assert (w2 (spot s id k) <= 24); [|lia].
  unfold w2. destruct (fst (spot s id k)) as [f|]; [|lia]. destruct f as [q| | | | | | |]; try lia; [destruct q; lia| | |]; destruct (snd (spot s id k)); cbn; lia.
Qed.

(** The thread that destroys a sink waits for the worker to leave size(). *)
Definition f3 (id : nat) (s : spool E) : nat := match nth_error (FullModel.pcs (sleaf s id)) 0 with Some FullModel.InSize => 1 | _ => 0 end.
Lemma join_done id k s p : J s p -> id < K -> KI id k DJoin s p -> nth_error (thr (leaf p id)) 0 = Some WDone.
Proof.
  intros HJ Hid HK. destruct (key_can _ _ _ _ _ HJ Hid HK) as (c & _ & N). destruct HK as (_ & A & _). cbn [step] in N. rewrite A in N. cbn [step_thread] in N.
  destruct (nth_error (thr (leaf p id)) 0) as [w|] eqn:Q; [|cbn [fst] in N; congruence]. destruct w; cbn [fst] in N; try congruence; reflexivity.
Qed.
Lemma done_at s p id : J s p -> nth_error (thr (leaf p id)) 0 = Some WDone ->
  nth_error (FullModel.pcs (sleaf s id)) 0 = Some (FullModel.At WDone) \/
  (nth_error (FullModel.pcs (sleaf s id)) 0 = Some FullModel.InSize /\ exists q r, rpc s id 0 = CircModel.QClear q r).
Proof.
  intros HJ A. destruct (nth_error (FullModel.pcs (sleaf s id)) 0) as [f|] eqn:Hf.
  - destruct (abs_at _ _ _ _ _ HJ Hf) as (pa & g & A' & Pr & R). rewrite A in A'. injection A' as <-.
    destruct f as [q|e|i|i|kk|kk i|kk e i|]; cbn [FullProofs.prel] in Pr.
    + destruct Pr as (_ & _ & <- & _). now left.
    + destruct Pr as (_ & [[_ X]|[(? & _ & X)|[_ X]]]); discriminate X.
    + destruct Pr as (_ & ? & ? & _ & X); discriminate X.
    + destruct Pr as (_ & ? & ? & _ & X); discriminate X.
    + destruct Pr as (_ & [[_ X]|[(? & ? & _ & X)|[_ X]]]); try discriminate X. unfold FullProofs.after_none in X. destruct (c_kind (cf id)); discriminate X.
    + destruct Pr as (_ & ? & ? & _ & X); discriminate X.
    + destruct Pr as (_ & ? & _ & X). unfold FullProofs.after_sub in X. destruct (c_kind (cf id)); discriminate X.
    + destruct Pr as (_ & [[_ X]|(m & X & _)]); [discriminate X|]. right. split; [reflexivity|]. pose proof (CircProofs.inv_phase (FullProofs.r_inv R) 0) as Ph. rewrite X in Ph.
      unfold rpc, spot. cbn [snd]. unfold CircProofs.PC in Ph. destruct (CircModel.t_pc (CircModel.thr (FullModel.ring (sleaf s id)) 0)); cbn [CircProofs.phase_ok] in Ph; try discriminate Ph; eauto;
        repeat match type of Ph with ex _ => destruct Ph as [? Ph] end; try discriminate Ph; destruct Ph; discriminate.
  - exfalso. destruct HJ as [[L _] _]. destruct (L id) as [g R]. apply nth_error_None in Hf. rewrite (FullProofs.r_len R) in Hf. apply nth_error_None in Hf. congruence.
Qed.
Lemma f3_step s p m s' p' id k : cstep s p m s' p' -> id < K -> KI id k DJoin s p ->
  KI id k DJoin s' p' /\ f3 id s' <= f3 id s /\ (0 < f3 id s -> splace s' (ag id 0) <> splace s (ag id 0) -> f3 id s' < f3 id s).
Proof.
  intros C Hid HK. pose proof (KI_step _ _ _ _ _ _ _ _ Hid C HK) as HK'. split; [exact HK'|].
  pose proof (done_at _ _ _ (j_from _ _ _ _ _ (proj1 C)) (join_done _ _ _ _ (j_from _ _ _ _ _ (proj1 C)) Hid HK)) as D.
  pose proof (done_at _ _ _ (j_to _ _ _ _ _ (proj1 C)) (join_done _ _ _ _ (j_to _ _ _ _ _ (proj1 C)) Hid HK')) as D'.
  destruct (j_step _ _ _ _ _ (proj1 C)) as (l & S). unfold f3.
  assert (B : busy s id 0).
  { unfold busy, free_in, FullModel.outside. cbn [thr]. rewrite nth_error_map. destruct D as [->|[-> _]]; reflexivity. }
  destruct D as [D|[D (q & r & Q)]]; rewrite D.
  - split; [|lia]. destruct (busy_kept _ _ _ _ id 0 S (j_on _ _ _ _ _ (proj1 C)) Hid B) as [(c & ls & _ & _ & F)|Z].
    + cbn [FullModel.fstep] in F. rewrite D in F. cbn [FullModel.fstep_thread] in F. destruct (step_thread _ _ 0 c WDone) as [a l0]. injection F as F _. rewrite <- F.
      cbn [FullModel.pcs]. rewrite FullProofs.fupd_at by exact (FullProofs.some_lt _ _ D). lia.
    + apply (f_equal fst) in Z. unfold spot in Z. change (nth_error (FullModel.pcs (sleaf s' id)) 0 = nth_error (FullModel.pcs (sleaf s id)) 0) in Z. rewrite Z, D. lia.
  - split; [destruct D' as [->|[-> _]]; lia|]. intros _ P.
    destruct (busy_kept _ _ _ _ id 0 S (j_on _ _ _ _ _ (proj1 C)) Hid B) as [(c & ls & _ & _ & F)|Z].
    + cbn [FullModel.fstep] in F. rewrite D in F. cbn [FullModel.fstep_thread] in F. unfold rpc, spot in Q. cbn [snd] in Q. unfold CircModel.step in F. rewrite Q in F. injection F as F _. rewrite <- F.
      cbn [FullModel.pcs]. rewrite FullProofs.fupd_at by exact (FullProofs.some_lt _ _ D). lia.
    + exfalso. apply P. unfold ag. cbn [Nat.eqb StackFairSpec.splace]. now rewrite Z.
Qed.
Lemma join_out s p id k ms s' p' X : id < K -> srounds K cf n 1 s ms -> J s p -> crun X s p ms s' p' -> KI id k DJoin s p -> f3 id s' = 0.
Proof.
  intros Hid HR HJ R HK.
  assert (Z : KI id k DJoin s' p' /\ f3 id s' <= f3 id s - 1).
  { refine (rounds_get X (ag id 0) (KI id k DJoin) (fun s0 _ => f3 id s0) (ag_in id 0 Hid (Nat.le_0_l _)) _ _ 1 s ms HR p s' p' HJ HK R).
    - intros s0 p0 m s1 p1 _ _ C K0. exact (f3_step _ _ _ _ _ _ _ C Hid K0).
    - intros s0 p0 HJ0 K0 H0. unfold f3 in H0. destruct (nth_error (FullModel.pcs (sleaf s0 id)) 0) as [f|] eqn:Hf; [|lia]. apply (inside_not_now _ _ _ f Hf); [destruct f; try lia; reflexivity|exact Hid]. }
  destruct Z as [_ Z]. assert (f3 id s <= 1); [|lia]. unfold f3. destruct (nth_error _ 0) as [f|]; [destruct f; lia|lia].
Qed.

(** Then it can go on, and does. *)
Lemma key_goes s p id k pa ms s' p' : id < K -> srounds K cf n 1 s ms -> J s p -> NH id s -> crun (NH id) s p ms s' p' -> KI id k pa s p -> w2 (spot s id k) = 0 ->
  (pa = DJoin -> f3 id s = 0) -> False.
Proof.
  intros Hid HR HJ HN R HK Hw H3.
  pose (P := fun (s0 : spool E) (p0 : pstate E) => KI id k pa s0 p0 /\ w2 (spot s0 id k) = 0 /\ NH id s0 /\ (pa = DJoin -> f3 id s0 = 0)).
  assert (HP : P s p) by (split; [exact HK|split; [exact Hw|split; [exact HN|exact H3]]]).
  assert (Le : k <= n) by exact (KI_le _ _ _ _ _ HJ Hid HK).
  inversion HR as [|k0 s0 ms0 ms1 s1 l [G T] X0 HR0]; subst. inversion HR0; subst. rewrite app_nil_r in R.
  refine (turn_gets (NH id) (ag id k) P (fun _ _ => False) _ _ _ _ s ms0 (T _ (ag_in id k Hid Le)) p s' p' HJ (or_introl HP) R).
  - intros s2 p2 m s3 p3 X2 X3 C (K2 & W2 & N2 & D2). left. destruct (w2_step _ _ _ _ _ _ _ _ C Hid X2 K2) as (K3 & W3 & _). split; [exact K3|]. split; [lia|]. split; [exact X3|].
    intros ->. destruct (f3_step _ _ _ _ _ _ _ C Hid K2) as (_ & Z & _). specialize (D2 eq_refl). lia.
  - intros s2 p2 m s3 p3 X2 X3 C (K2 & W2 & N2 & D2) N. destruct (w2_step _ _ _ _ _ _ _ _ C Hid X2 K2) as (_ & _ & Z). specialize (Z N). lia.
  - intros s2 p2 HJ2 (K2 & W2 & N2 & D2) [Q|[_ Q]]; [exact (busy_not_resting _ _ _ Hid (KI_busy _ _ _ _ _ HJ2 K2) Q)|]. apply Q. clear Q.
    destruct (KI_at _ _ _ _ _ HJ2 K2) as (f & g & Hf & Pr & R2).
    destruct (key_can _ _ _ _ _ HJ2 Hid K2) as (c & Hc & Hn).
    destruct (@FullProofs.sim_step E (cf id) _ _ g (MThread k c) R2) as (x & ls & a' & g' & mm & F & X & R' & [->|[-> Bt]]).
    + apply FullEnd.exec_single in X. apply (goes_scan s2 id k c x ls Hid Hc F). intros Q. rewrite Hf in Q.
      assert (Ff : f = FullModel.At pa).
      { pose proof (N2 k) as Hk. unfold hw, w2, spot in Hk, W2. cbn [fst snd] in Hk, W2. rewrite Hf in Hk, W2. destruct f as [q|e|i|i|kk|kk i|kk e i|]; try discriminate Hk;
          try (pose proof (FullEnd.rank_ge (CircModel.t_pc (CircModel.thr (FullModel.ring (sleaf s2 id)) k))); lia).
        cbn [FullProofs.prel] in Pr. destruct Pr as (_ & _ & -> & _). reflexivity. }
      subst f. rewrite X in Hn. cbn [fst] in Hn. destruct (nth_error (thr a') k) as [pa'|] eqn:A'; [|destruct (FullProofs.thr_some k R' Q A')].
      pose proof (FullProofs.r_thr R' _ Q A') as Z. cbn [FullProofs.prel] in Z. destruct Z as (_ & _ & -> & _). congruence.
    + exfalso. destruct (Bt k c eq_refl) as (f0 & Hf0 & B). rewrite Hf in Hf0. injection Hf0 as <-.
      pose proof (N2 k) as Hk. unfold hw, w2, spot in Hk, W2. cbn [fst snd] in Hk, W2. rewrite Hf in Hk, W2. destruct f as [q|e|i|i|kk|kk i|kk e i|]; try discriminate Hk;
          try (pose proof (FullEnd.rank_ge (CircModel.t_pc (CircModel.thr (FullModel.ring (sleaf s2 id)) k))); lia).
      cbn [FullProofs.prel] in Pr. destruct Pr as (_ & _ & -> & _). destruct q; cbn [FullProofs.between] in B; try discriminate B; try discriminate W2.
      specialize (D2 eq_refl). unfold f3 in D2. destruct (nth_error (FullModel.pcs (sleaf s2 id)) 0) as [f|]; [|discriminate B]. destruct f; try discriminate B. discriminate D2.
  - intros. assumption.
Qed.

(** ** Forty rounds are not calm *)
Lemma rounds_split a : forall b s ms, srounds K cf n (a + b) s ms ->
  exists ms1 ms2 s1 l, ms = ms1 ++ ms2 /\ srounds K cf n a s ms1 /\ spexec s ms1 = Some (s1, l) /\ srounds K cf n b s1 ms2.
Proof.
  induction a as [|a IH]; intros b s ms H; cbn [Nat.add] in H.
  - exists [], ms, s, []. split; [reflexivity|]. split; [constructor|]. split; [reflexivity|exact H].
  - inversion H as [|k0 s0 m0 m1 s1 l R X HR]; subst. destruct (IH b s1 m1 HR) as (n1 & n2 & s2 & l2 & -> & A & B & D).
    exists (m0 ++ n1), n2, s2, (l ++ l2). split; [apply app_assoc|]. split; [exact (sr_S K cf n _ _ _ _ _ _ R X A)|]. split; [|exact D].
    exact (StackEnd.spexec_app K cf n _ _ _ _ _ _ _ X B).
Qed.
Lemma run_split X a b s ms p s' p' : srounds K cf n (a + b) s ms -> crun X s p ms s' p' ->
  exists ms1 ms2 s1 p1, srounds K cf n a s ms1 /\ crun X s p ms1 s1 p1 /\ srounds K cf n b s1 ms2 /\ crun X s1 p1 ms2 s' p'.
Proof.
  intros H R. destruct (rounds_split _ _ _ _ H) as (m1 & m2 & s1 & l & -> & A & B & D). destruct (crun_app _ _ _ _ _ _ _ R) as (s2 & p2 & R1 & R2).
  pose proof (crun_exec _ _ _ _ _ _ _ _ R1 B) as ->. exists m1, m2, s2, p2. auto.
Qed.

Lemma next_not s p t ms s' p' : srounds K cf n 1 s ms -> J s p -> crun (fun _ => True) s p ms s' p' -> 1 <= t <= n -> why p (Client t) -> todo p t <> [] ->
  (forall id, id < K -> free_in (leaf p id) t = true) -> False.
Proof.
  intros HR HJ R Ht HW HT HF.
  pose (P := fun (s0 : spool E) (p0 : pstate E) => why p0 (Client t) /\ todo p0 t <> [] /\ forall id, id < K -> free_in (leaf p0 id) t = true).
  assert (HP : P s p) by (repeat split; assumption).
  assert (Hs : forall s0 p0, J s0 p0 -> P s0 p0 -> sfree K s0 t = true).
  { intros s0 p0 HJ0 (_ & _ & F0). unfold sfree. apply forallb_forall. intros id Hid. apply in_seq in Hid. rewrite (free_eq s0 p0 id t HJ0). apply F0. lia. }
  assert (Htd : forall s0 p0, J s0 p0 -> stodo s0 t = todo p0 t) by (intros s0 p0 [L _]; exact (l_todo _ _ _ L t)).
  assert (St : forall s0 p0 m s1 p1, cstep s0 p0 m s1 p1 -> P s0 p0 -> P s1 p1 /\ todo p1 t = todo p0 t).
  { intros s0 p0 m s1 p1 C (W0 & T0 & F0). destruct (calm_why _ _ _ _ _ _ C W0) as [W1 Pl]. assert (Z := f_equal fst Pl). cbn [PoolSpec.place fst] in Z. split; [|exact Z].
    split; [exact W1|]. split; [now rewrite Z|]. intros id Hid. specialize (F0 id Hid). pose proof (place_client_leaf K _ _ _ id Hid Pl) as Y. unfold free_in in *. rewrite Y. exact F0. }
  assert (Nx : forall s0 s1 l, sfree K s0 t = true -> stodo s0 t <> [] -> spstep s0 (XNext t) = Some (s1, l) -> stodo s1 t <> stodo s0 t).
  { intros s0 s1 l F0 T0 S Q. cbn [StackModel.spstep] in S. destruct (stodo s0 t) as [|c cs] eqn:Td; [congruence|]. rewrite F0 in S.
    assert (Z : stodo s1 t = cs).
    { destruct (Nat.ltb (target c) K); [|injection S as <- _; cbn [set_stodo stodo]; now rewrite Nat.eqb_refl]. unfold sin_leaf in S.
      destruct (FullModel.fstep _ _ _) as [[x ls]|]; [|discriminate]. injection S as <- _. cbn [set_sleaf set_stodo stodo]. now rewrite Nat.eqb_refl. }
    rewrite Z in Q. apply (f_equal (@length _)) in Q. cbn in Q. lia. }
  inversion HR as [|k0 s0 ms0 ms1 s1 l [G T] X0 HR0]; subst. inversion HR0; subst. rewrite app_nil_r in R.
  assert (Hin : In (Client t) (agents K n)) by (unfold agents; apply in_or_app; left; apply in_map, in_seq; lia).
  refine (turn_gets (fun _ => True) (Client t) P (fun _ _ => False) _ _ _ _ s ms0 (T _ Hin) p s' p' HJ (or_introl HP) R).
  - intros s2 p2 m s3 p3 _ _ C P2. left. exact (proj1 (St _ _ _ _ _ C P2)).
  - intros s2 p2 m s3 p3 _ _ C P2 N. destruct (St _ _ _ _ _ C P2) as [P3 T3]. pose proof (j_from _ _ _ _ _ (proj1 C)) as J2. pose proof (j_to _ _ _ _ _ (proj1 C)) as J3.
    destruct (j_step _ _ _ _ _ (proj1 C)) as (l3 & S3). pose proof (j_on _ _ _ _ _ (proj1 C)) as G3.
    assert (TT : stodo s3 t = stodo s2 t) by (rewrite (Htd _ _ J2), (Htd _ _ J3); exact T3).
    assert (NX : m <> XNext t).
    { intros ->. apply (Nx s2 s3 l3 (Hs _ _ J2 P2)); [|exact S3|exact TT]. rewrite (Htd _ _ J2). exact (proj1 (proj2 P2)). }
    apply N. cbn [StackFairSpec.splace]. rewrite TT. f_equal. apply map_ext_in. intros j Hj. apply in_seq in Hj.
    destruct (spot_step _ _ _ _ j t S3 G3) as [(c & ls & -> & Hc & F)|[[-> _]|Zj]]; [|congruence|exact Zj].
    assert (Fj : free_in (FullModel.outside (sleaf s2 j)) t = true) by (rewrite (free_eq _ _ j t J2); apply (proj2 (proj2 P2)); lia).
    destruct (idle_step _ _ _ _ _ _ Fj Hc F) as [F1 F2]. unfold spot. now rewrite F1, F2.
  - intros s2 p2 HJ2 P2 [(u & Eu & T2 & _)|[_ Q]].
    + injection Eu as <-. rewrite (Htd _ _ HJ2) in T2. exact (proj1 (proj2 P2) T2).
    + apply Q. destruct (j_exists s2 p2 (XNext t) HJ2 I) as (s3 & p3 & S3). destruct (j_step _ _ _ _ _ S3) as (l3 & E3).
      exists (XNext t), s3, l3. split; [exact I|]. split; [exact E3|]. intros Z. apply (f_equal fst) in Z. cbn [StackFairSpec.splace fst] in Z.
      apply (Nx s2 s3 l3 (Hs _ _ HJ2 P2)); [|exact E3|exact Z]. rewrite (Htd _ _ HJ2). exact (proj1 (proj2 P2)).
  - intros. assumption.
Qed.

Lemma not_calm s p a ms s' p' : J s p -> why p a -> srounds K cf n 40 s ms -> crun (fun _ => True) s p ms s' p' -> False.
Proof.
  intros HJ HW HR R. destruct HW as [k id Hid HK|t Ht T1 Hf].
  - change 40 with (33 + 7) in HR. destruct (run_split _ 33 7 _ _ _ _ _ HR R) as (m1 & m2 & s1 & p1 & A1 & R1 & A2 & R2).
    pose proof (crun_J _ _ _ _ _ _ R1 HJ) as J1.
    inversion A2 as [|k0 s0 ms0 ms1 s2 l RD X0 HR0]; subst. destruct (crun_app _ _ _ _ _ _ _ R2) as (s3 & p3 & R3 & _).
    destruct (crun_NT _ _ _ _ _ _ _ _ _ id Hid HJ R1 RD R3) as [C1 _].
    assert (KI0 : exists pa, KI id k pa s p).
    { destruct HJ as [_ (tr & V)]. destruct (keyx_moves K cf op n cap_pos sz dest id k _ _ Hid (V_leaf _ _ _ _ p tr V id Hid) HK) as (_ & Le & Fr).
      pose proof (len_reach n (cf id) _ _ _ (V_leaf _ _ _ _ p tr V id Hid)) as L.
      destruct (nth_error (thr (leaf p id)) k) as [pa|] eqn:Hp; [|apply nth_error_None in Hp; lia]. exists pa. split; [exact (y_key K cf n p k id Hid HK)|]. auto. }
    destruct KI0 as [pa K0].
    assert (KR : forall X s0 p0 ms0 s1 p1, crun X s0 p0 ms0 s1 p1 -> KI id k pa s0 p0 -> KI id k pa s1 p1).
    { induction 1 as [|x px m x1 px1 mx x2 px2 X1 X2 S Rx IH]; intros Hi; [exact Hi|]. apply IH. exact (KI_step _ _ _ _ _ _ _ _ Hid S Hi). }
    change 33 with (7 + 26) in A1. destruct (run_split _ 7 26 _ _ _ _ _ A1 C1) as (n1 & n2 & t1 & q1 & B1 & D1 & B2 & D2).
    pose proof (holders_leave id _ _ _ _ _ Hid B1 HJ D1) as N1. pose proof (crun_J _ _ _ _ _ _ D1 HJ) as H1. pose proof (KR _ _ _ _ _ _ D1 K0) as K1.
    destruct (crun_NH id _ _ _ _ _ Hid D2 N1) as [D2' _].
    change 26 with (24 + 2) in B2. destruct (run_split _ 24 2 _ _ _ _ _ B2 D2') as (n3 & n4 & t2 & q2 & B3 & D3 & B4 & D4).
    destruct (key_out _ _ id k pa _ _ _ Hid B3 H1 N1 D3 K1) as [K2 W2]. pose proof (crun_J _ _ _ _ _ _ D3 H1) as H2.
    assert (NR : forall s0 p0 ms0 s1 p1, crun (NH id) s0 p0 ms0 s1 p1 -> NH id s0 -> NH id s1).
    { induction 1 as [|x px m x1 px1 mx x2 px2 X1 X2 S Rx IH]; auto. }
    assert (WR : forall s0 p0 ms0 s1 p1, crun (NH id) s0 p0 ms0 s1 p1 -> KI id k pa s0 p0 -> w2 (spot s0 id k) = 0 -> w2 (spot s1 id k) = 0).
    { induction 1 as [|x px m x1 px1 mx x2 px2 X1 X2 S Rx IH]; intros Hi H0; [exact H0|]. destruct (w2_step _ _ _ _ _ _ _ _ S Hid X1 Hi) as (Y1 & Y2 & _). apply IH; [exact Y1|lia]. }
    pose proof (NR _ _ _ _ _ D3 N1) as N2.
    change 2 with (1 + 1) in B4. destruct (run_split _ 1 1 _ _ _ _ _ B4 D4) as (n5 & n6 & t3 & q3 & B5 & D5 & B6 & D6).
    apply (key_goes t3 q3 id k pa n6 s1 p1 Hid B6 (crun_J _ _ _ _ _ _ D5 H2) (NR _ _ _ _ _ D5 N2) D6 (KR _ _ _ _ _ _ D5 K2) (WR _ _ _ _ _ D5 K2 W2)).
    intros ->. exact (join_out _ _ id k _ _ _ _ Hid B5 H2 D5 K2).
  - change 40 with (1 + 39) in HR. destruct (run_split _ 1 39 _ _ _ _ _ HR R) as (m1 & m2 & s1 & p1 & A1 & R1 & _ & _).
    apply (next_not s p t m1 s1 p1 A1 HJ R1 T1); [exact (y_next K cf n p t Ht T1 Hf)|exact Ht|]. intros id Hid. apply Hf; assumption.
Qed.

(** ** All calls return *)
Inductive jrun : spool E -> pstate E -> list (pmove E) -> spool E -> pstate E -> Prop :=
| jr_nil s p : jrun s p [] s p
| jr_cons s p m s1 p1 ms s2 p2 : jstep s p m s1 p1 -> jrun s1 p1 ms s2 p2 -> jrun s p (m :: ms) s2 p2.
Lemma jrun_exists ms : Forall goes_on ms -> forall s p, J s p -> exists s' p', jrun s p ms s' p'.
Proof.
  induction 1 as [|m ms G Gs IH]; intros s p HJ; [exists s, p; constructor|]. destruct (j_exists s p m HJ G) as (s1 & p1 & S).
  destruct (IH s1 p1 (j_to _ _ _ _ _ S)) as (s2 & p2 & R). exists s2, p2. econstructor; eassumption.
Qed.
Lemma jrun_exec s p ms s' p' s1 l : jrun s p ms s' p' -> spexec s ms = Some (s1, l) -> s1 = s'.
Proof.
  intros R. revert s1 l. induction R as [|s p m s2 p2 ms s3 p3 S R IH]; intros s1 l H; cbn [StackModel.spexec] in H; [injection H as <- _; reflexivity|].
  destruct (j_step _ _ _ _ _ S) as (l' & S'). rewrite S' in H. destruct (spexec s2 ms) as [[s4 l4]|] eqn:Q; [|discriminate]. injection H as <- _. exact (IH _ _ eq_refl).
Qed.
Lemma jrun_app ms ms' : forall s p s' p', jrun s p (ms ++ ms') s' p' -> exists s1 p1, jrun s p ms s1 p1 /\ jrun s1 p1 ms' s' p'.
Proof.
  induction ms as [|m ms IH]; intros s p s' p' H; cbn [List.app] in H; [exists s, p; split; [constructor|exact H]|].
  inversion H as [|? ? ? s2 p2 ? ? ? C R']; subst. destruct (IH _ _ _ _ R') as (s1 & p1 & A & B). exists s1, p1. split; [econstructor; eassumption|exact B].
Qed.
Lemma jrun_J s p ms s' p' : jrun s p ms s' p' -> J s p -> J s' p'.
Proof. induction 1 as [|s p m s1 p1 ms s2 p2 S R IH]; intros HJ; [exact HJ|]. apply IH. exact (j_to _ _ _ _ _ S). Qed.
Lemma jstep_ME s p m s' p' : jstep s p m s' p' -> ME p' <= ME p + (if weak m then 100 else 0).
Proof.
  intros S. destruct (j_abs _ _ _ _ _ S) as [->| ->]; [lia|]. destruct (j_from _ _ _ _ _ S) as [_ (tr & V)].
  destruct (step_ME K cf op n cap_pos sz dest p tr m V (j_on _ _ _ _ _ S)) as [D|[[D _]|[W [_ D]]]]; [lia|lia|rewrite W; lia].
Qed.
Lemma jrun_ME s p ms s' p' : jrun s p ms s' p' -> ME p' <= ME p + 100 * weaks ms /\ (weaks ms = 0 -> ME p' = ME p -> crun (fun _ => True) s p ms s' p').
Proof.
  induction 1 as [|s p m s1 p1 ms s2 p2 S R IH]; [split; [cbn; lia|constructor]|]. destruct IH as [I1 I2]. pose proof (jstep_ME _ _ _ _ _ S) as M. rewrite weaks_cons.
  split; [destruct (weak m); lia|]. intros W0 Eq. destruct (weak m) eqn:W; [lia|]. cbn [Nat.add] in W0. rewrite W0 in I1.
  assert (CS : cstep s p m s1 p1) by (split; [exact S|split; [exact W|lia]]).
  apply (cr_cons (fun _ => True) _ _ _ _ _ _ _ _ I I CS). apply I2; lia.
Qed.
Lemma jrun_rest s p ms s' p' : jrun s p ms s' p' -> all_rest K n p -> all_rest K n p'.
Proof.
  induction 1 as [|s p m s1 p1 ms s2 p2 S R IH]; intros H; [exact H|]. apply IH. destruct (j_abs _ _ _ _ _ S) as [->| ->]; [exact H|]. destruct (j_from _ _ _ _ _ S) as [_ (tr & V)].
  exact (rest_step K cf n p m H (j_on _ _ _ _ _ S) (V_who _ _ _ _ p tr V)).
Qed.
Lemma srounds_on k s ms : srounds K cf n k s ms -> Forall goes_on ms.
Proof. induction 1 as [|k s ms ms' s' l [G _] X R IH]; [constructor|]. apply Forall_app. auto. Qed.

Lemma blocks b : forall s p ms s' p', srounds K cf n (40 * b) s ms -> J s p -> jrun s p ms s' p' -> all_rest K n p' \/ ME p' + b <= ME p + 101 * weaks ms.
Proof.
  induction b as [|b IH]; intros s p ms s' p' HR HJ R.
  - rewrite Nat.mul_0_r in HR. inversion HR; subst. inversion R; subst. right. cbn. lia.
  - replace (40 * S b) with (40 + 40 * b) in HR by lia. destruct (rounds_split _ _ _ _ HR) as (m1 & m2 & s1 & l & -> & A & X & B).
    destruct (jrun_app _ _ _ _ _ _ R) as (s2 & p1 & R1 & R2). pose proof (jrun_exec _ _ _ _ _ _ _ R1 X) as <-.
    pose proof (jrun_J _ _ _ _ _ R1 HJ) as J1. destruct (IH _ _ _ _ _ B J1 R2) as [IH1|IH1]; [left; exact IH1|]. rewrite weaks_app.
    assert (RW : all_rest K n p \/ exists a, why p a) by (destruct HJ as [_ (tr & V)]; exact (why_or_rest K cf op n cap_pos sz dest p tr V)).
    destruct RW as [RR|(a & Ha)].
    + left. exact (jrun_rest _ _ _ _ _ R RR).
    + right. destruct (jrun_ME _ _ _ _ _ R1) as [M1 M2]. destruct (Nat.eq_dec (weaks m1) 0) as [W|W]; [|lia].
      destruct (Nat.eq_dec (ME p1) (ME p)) as [Q|Q]; [|lia]. exfalso. exact (not_calm s p a m1 s1 p1 HJ Ha A (M2 W Q)).
Qed.

Lemma rest_is s p t : J s p -> resting K p t -> sresting K s t.
Proof.
  intros HJ [R1 R2]. split; [destruct HJ as [L _]; rewrite (l_todo _ _ _ L t); exact R1|]. intros id Hid. apply free_spot. rewrite (free_eq s p id t HJ). exact (R2 id Hid).
Qed.
Lemma senough_eq s p : J s p -> senough K cf n s = enough K cf n p.
Proof.
  intros [L _]. unfold senough, enough, scalls_left, calls_left. f_equal. f_equal. f_equal. apply map_ext. intros t. rewrite (l_todo _ _ _ L t). reflexivity.
Qed.
Lemma reach_J s tr : spreach K cf op n s tr -> exists p, J s p.
Proof.
  intros (ms & X).
  assert (G : forall ms s0 p0 s1 l, like s0 p0 -> (exists tr, PInv p0 tr) -> spexec s0 ms = Some (s1, l) -> exists p, J s1 p).
  { clear. induction ms as [|m ms IH]; intros s0 p0 s1 l L [tr V] X; cbn [StackModel.spexec] in X; [injection X as <- _; exists p0; split; eauto|].
    destruct (like_step K cf n s0 p0 m L) as (s2 & ls & S & D). rewrite S in X. destruct (spexec s2 ms) as [[s3 l3]|] eqn:Y; [|discriminate]. injection X as <- _.
    destruct D as [(p' & P & L')|(_ & L' & _)]; [|apply (IH _ _ _ _ L' (ex_intro _ tr V) Y)].
    pose proof (step_pinv K cf op n p0 tr m V) as V'. rewrite P in V'. cbn [fst snd] in V'. exact (IH _ _ _ _ L' (ex_intro _ _ V') Y). }
  apply (G ms (spinit cf op n) (pinit cf op n) s tr); [apply like_init; exact caps| |exact X].
  exists []. exact (reach_pinv K cf op n _ _ (ex_intro _ [] eq_refl)).
Qed.

Theorem calls_return_J s p k ms s' l : J s p -> srounds K cf n k s ms -> 40 * (senough K cf n s + 101 * length (filter weak ms)) <= k ->
  spexec s ms = Some (s', l) -> forall t, 1 <= t <= n -> sresting K s' t.
Proof.
  intros HJ HR Hk X t Ht.
  set (b := senough K cf n s + 101 * length (filter weak ms)) in *.
  replace k with (40 * b + (k - 40 * b)) in HR by lia. destruct (rounds_split _ _ _ _ HR) as (m1 & m2 & s1 & l1 & Em & A & X1 & B). subst ms.
  destruct (jrun_exists _ (srounds_on _ _ _ HR) s p HJ) as (s2 & p' & R). pose proof (jrun_exec _ _ _ _ _ _ _ R X) as <-.
  apply (rest_is s' p' t (jrun_J _ _ _ _ _ R HJ)).
  destruct (jrun_app _ _ _ _ _ _ R) as (s3 & p3 & R1 & R2). pose proof (jrun_exec _ _ _ _ _ _ _ R1 X1) as <-.
  apply (jrun_rest _ _ _ _ _ R2); [|exact Ht]. destruct (blocks b _ _ _ _ _ A HJ R1) as [Q|Q]; [exact Q|]. exfalso.
  pose proof (senough_eq s p HJ) as Se. destruct HJ as [_ (tr' & V)]. pose proof (ME_bound K cf op n cap_pos sz dest p tr' V) as MB.
  unfold b in Q. fold (weaks (m1 ++ m2)) in Q. rewrite weaks_app in Q. lia.
Qed.
Theorem calls_return s tr k ms s' l : spreach K cf op n s tr -> srounds K cf n k s ms -> 40 * (senough K cf n s + 101 * length (filter weak ms)) <= k ->
  spexec s ms = Some (s', l) -> forall t, 1 <= t <= n -> sresting K s' t.
Proof. intros Hr HR Hk X. destruct (reach_J s tr Hr) as (p & HJ). exact (calls_return_J s p k ms s' l HJ HR Hk X). Qed.

(** ** Rounds exist *)
Notation quiet := (StackEnd.quiet K).
Notation mild := (@StackEnd.mild E).
Lemma quiet_exists s p : J s p -> exists ms s' l p', Forall mild ms /\ spexec s ms = Some (s', l) /\ J s' p' /\ quiet s'.
Proof.
  intros [L (tr & V)]. destruct (StackEnd.pool_quieten K cf n s p L) as (ms & s' & ls & ms' & p' & G1 & X & G2 & Y & L' & Q).
  exists ms, s', ls, p'. split; [exact G1|]. split; [exact X|]. split; [|exact Q]. split; [exact L'|].
  pose proof (exec_pinv K cf op n ms' p tr V) as V'. rewrite Y in V'. eauto.
Qed.

(* without a spurious failure *)
Lemma go_false (C : cfg E) (s : state E) t p : nth_error (thr s) t = Some p ->
  nth_error (thr (fst (step C s (MThread t (CGo true))))) t <> nth_error (thr s) t -> nth_error (thr (fst (step C s (MThread t (CGo false))))) t <> nth_error (thr s) t.
Proof.
  intros Hp. assert (Lt : t < length (thr s)) by (apply nth_error_Some; congruence). cbn [step]. rewrite !Hp. intros N.
  assert (D : step_thread C s t (CGo true) p = step_thread C s t (CGo false) p \/ exists p', nth_error (thr (fst (step_thread C s t (CGo false) p))) t = Some p' /\ p' <> p).
  { destruct p; try (left; reflexivity); right; cbn [step_thread].
    - destruct (ntf s); cbn [fst s_thr s_flags thr]; rewrite nth_error_upd by exact Lt; (eexists; split; [reflexivity|]); [discriminate|destruct (c_kind C); discriminate].
    - destruct (ntr s); cbn [fst s_thr s_flags thr]; rewrite nth_error_upd by exact Lt; (eexists; split; [reflexivity|]); discriminate.
    - cbn [fst s_thr thr]. rewrite nth_error_upd by exact Lt. eexists. split; [reflexivity|]. destruct (fin s); discriminate. }
  destruct D as [<-|(p' & -> & Np)]; [exact N|congruence].
Qed.
Lemma mild_or_not (C : cfg E) (s : state E) t p : nth_error (thr s) t = Some p -> p <> Idle ->
  (exists c, calls c = false /\ spurious (MThread t c) = false /\ nth_error (thr (fst (step C s (MThread t c)))) t <> nth_error (thr s) t) \/ ~ can_move C t s.
Proof.
  intros Hp Hn. destruct (move_or_not C s t p Hp Hn) as [(c & H1 & H2)|N]; [left|now right].
  destruct (spurious (@MThread E t c)) eqn:Sp; [|exists c; auto]. destruct c as [| | | | |[|]| | |]; try discriminate Sp.
  exists (CGo false). split; [reflexivity|]. split; [reflexivity|]. exact (go_false C s t p Hp H2).
Qed.
Lemma out_move (C : cfg E) (x : FullModel.fstate E) u q : nth_error (FullModel.pcs x) u = Some (FullModel.At q) -> q <> Idle -> FullEnd.RPC x u = CircModel.Idle ->
  (exists c x' ls, calls c = false /\ spurious (MThread u c) = false /\ FullModel.fstep C x (MThread u c) = Some (x', ls) /\ nth_error (FullModel.pcs x') u <> nth_error (FullModel.pcs x) u) \/
  (forall c x' ls, FullModel.fstep C x (MThread u c) = Some (x', ls) -> ~ nth_error (FullModel.pcs x') u <> nth_error (FullModel.pcs x) u /\ FullEnd.RPC x' u = FullEnd.RPC x u).
Proof.
  intros Hp Hq Hr. pose proof (FullProofs.some_lt _ _ Hp) as Lt.
  assert (Sh : nth_error (thr (FullModel.outside x)) u = Some q) by (unfold FullModel.outside; cbn [thr]; rewrite nth_error_map, Hp; reflexivity).
  assert (Plain : (forall c, FullModel.fstep C x (MThread u c) = let '(a, ls) := step_thread C (FullModel.outside x) u c q in
      Some (FullModel.mkF (FullModel.ring x) (FullModel.strip a) (FullModel.fupd (FullModel.pcs x) u (FullModel.At (nth u (thr a) Idle))), ls)) ->
    (exists c x' ls, calls c = false /\ spurious (MThread u c) = false /\ FullModel.fstep C x (MThread u c) = Some (x', ls) /\ nth_error (FullModel.pcs x') u <> nth_error (FullModel.pcs x) u) \/
    (forall c x' ls, FullModel.fstep C x (MThread u c) = Some (x', ls) -> ~ nth_error (FullModel.pcs x') u <> nth_error (FullModel.pcs x) u /\ FullEnd.RPC x' u = FullEnd.RPC x u)).
  { intros HF. destruct (mild_or_not C (FullModel.outside x) u q Sh Hq) as [(c & Hc & Hs & N)|N].
    - left. exists c. rewrite HF. cbn [step] in N. rewrite Sh in N. destruct (step_thread C (FullModel.outside x) u c q) as [a ls]. cbn [fst] in N.
      eexists _, _. split; [exact Hc|]. split; [exact Hs|]. split; [reflexivity|]. cbn [FullModel.pcs]. rewrite FullProofs.fupd_at by exact Lt. rewrite Hp. intros Q. injection Q as Q. apply N.
      destruct (nth_error (thr a) u) as [y|] eqn:Ya; [|].
      + rewrite (nth_error_nth _ _ _ Ya) in Q. now subst y.
      + exfalso. apply nth_error_None in Ya. rewrite nth_overflow in Q by exact Ya. congruence.
    - right. intros c x' ls F. rewrite HF in F. destruct (step_thread C (FullModel.outside x) u c q) as [a l0] eqn:S. injection F as <- _. cbn [FullModel.pcs FullModel.ring].
      split; [|reflexivity]. rewrite FullProofs.fupd_at by exact Lt. rewrite Hp. intros Q. apply N. exists c. cbn [step]. rewrite Sh, S. cbn [fst]. intros Z. apply Q.
      rewrite (nth_error_nth _ _ _ Z). reflexivity. }
  destruct q; try (apply Plain; intros c; cbn [FullModel.fstep]; rewrite Hp; reflexivity).
  all: left; exists (CGo false); cbn [FullModel.fstep]; rewrite Hp; cbn [FullModel.fstep_thread]; unfold FullModel.call, CircModel.step;
    fold (FullEnd.RPC x u); rewrite Hr; eexists _, _; (split; [reflexivity|]); (split; [reflexivity|]); (split; [reflexivity|]); cbn [FullModel.pcs]; rewrite FullProofs.fupd_at by exact Lt; discriminate.
Qed.

Lemma turn_at s p id u : J s p -> quiet s -> id < K -> u <= n -> busy s id u ->
  exists ms s' l, Forall mild ms /\ spexec s ms = Some (s', l) /\ sturn (ag id u) s ms.
Proof.
  intros HJ Q Hid Hu B.
  destruct (nth_error (FullModel.pcs (sleaf s id)) u) as [f|] eqn:Hf.
  2:{ exfalso. destruct HJ as [[L _] (tr & V)]. destruct (L id) as [g R]. apply nth_error_None in Hf. rewrite (FullProofs.r_len R), (len_reach n (cf id) _ _ _ (V_leaf _ _ _ _ p tr V id Hid)) in Hf. lia. }
  pose proof (Q id Hid u f Hf) as If. destruct f as [q| | | | | | |]; try discriminate If.
  assert (Hq : q <> Idle) by (intros ->; unfold busy, free_in, FullModel.outside in B; cbn [thr] in B; rewrite nth_error_map, Hf in B; discriminate).
  assert (Hr : FullEnd.RPC (sleaf s id) u = CircModel.Idle).
  { destruct HJ as [[L _] _]. destruct (L id) as [g R]. apply (@FullEnd.out_idle E (cf id) _ _ _ u R). intros f' Hf'. rewrite Hf in Hf'. injection Hf' as <-. reflexivity. }
  destruct (out_move (cf id) (sleaf s id) u q Hf Hq Hr) as [(c & x & ls & Hc & Hs & F & N)|N].
  - assert (S : spstep s (XLeaf id (MThread u c)) = Some (set_sleaf s id x, map (PLeaf id) ls)).
    { cbn [StackModel.spstep]. apply Nat.ltb_lt in Hid. rewrite Hid, begins_calls, Hc. cbn [negb andb]. unfold sin_leaf. rewrite F. reflexivity. }
    eexists [XLeaf id (MThread u c)], _, _. split; [constructor; [split; [exact I|exact Hs]|constructor]|]. split; [cbn [StackModel.spexec]; rewrite S; reflexivity|].
    apply (st_move K cf n _ _ _ _ _ _ S). apply place_diff; [exact Hid|]. cbn [set_sleaf sleaf]. rewrite Nat.eqb_refl. exact N.
  - exists [], s, []. split; [constructor|]. split; [reflexivity|]. apply st_now. right. split.
    + assert (NB : forall i v, i < K -> ~ busy_in s i v) by (intros i v Hi (f & F1 & F2); specialize (Q i Hi v f F1); destruct f; try discriminate Q; discriminate F2).
      unfold ag. destruct (Nat.eqb u 0); cbn [sbusy]; [apply NB; exact Hid|]. intros (i & Hi & Z). exact (NB i u Hi Z).
    + intros (m & s' & l & G & S & P). destruct (j_exists s p m HJ G) as (s2 & p2 & S2). destruct (j_step _ _ _ _ _ S2) as (l2 & E2). rewrite S in E2. injection E2 as <- _.
      destruct (place_own _ _ _ _ _ id u S2 Hid Hu B) as [(c & ls & -> & Hc & F)|Z]; [|contradiction].
      destruct (N c _ _ F) as [N1 N2]. apply N1. intros Z. apply P. apply (place_spot _ _ _ _ _ id u S2 Hid Hu B). unfold spot. rewrite Z. f_equal. exact N2.
Qed.

Lemma turn_exists s p a : J s p -> In a (agents K n) -> exists ms s' l, Forall mild ms /\ spexec s ms = Some (s', l) /\ sturn a s ms.
Proof.
  intros HJ Ha.
  destruct (quiet_exists s p HJ) as (m1 & s1 & l1 & p1 & G1 & X1 & J1 & Q1).
  assert (Z : exists ms s' l, Forall mild ms /\ spexec s1 ms = Some (s', l) /\ sturn a s1 ms).
  { unfold agents in Ha. apply in_app_iff in Ha. destruct Ha as [Ha|Ha]; apply in_map_iff in Ha; destruct Ha as (t & <- & Ht); apply in_seq in Ht.
    - destruct (list_dec (fun id => free_in (FullModel.outside (sleaf s1 id)) t) (seq 0 K)) as [F|(id & I1 & I2)].
      + destruct (stodo s1 t) as [|c cs] eqn:Td.
        * exists [], s1, []. split; [constructor|]. split; [reflexivity|]. apply st_now. left. exists t. split; [reflexivity|]. split; [exact Td|].
          intros id Hid. apply free_spot. apply F. apply in_seq. lia.
        * destruct (j_exists s1 p1 (XNext t) J1 I) as (s2 & p2 & S2). destruct (j_step _ _ _ _ _ S2) as (l2 & E2). exists [XNext t], s2, (l2 ++ []).
          split; [constructor; [split; [exact I|reflexivity]|constructor]|]. split; [cbn [StackModel.spexec]; rewrite E2; reflexivity|]. apply (st_move K cf n _ _ _ _ _ _ E2).
          intros Z. apply (f_equal fst) in Z. cbn [StackFairSpec.splace fst] in Z. cbn [StackModel.spstep] in E2. rewrite Td in E2.
          assert (Fr : sfree K s1 t = true) by (unfold sfree; apply forallb_forall; exact F). rewrite Fr in E2.
          assert (Y : stodo s2 t = cs).
          { destruct (Nat.ltb (target c) K); [|injection E2 as <- _; cbn [set_stodo stodo]; now rewrite Nat.eqb_refl]. unfold sin_leaf in E2.
            destruct (FullModel.fstep _ _ _) as [[x ls]|]; [|discriminate]. injection E2 as <- _. cbn [set_sleaf set_stodo stodo]. now rewrite Nat.eqb_refl. }
          rewrite Y, Td in Z. apply (f_equal (@length _)) in Z. cbn in Z. lia.
      + apply in_seq in I1. assert (Ea : Client t = ag id t) by (unfold ag; destruct (Nat.eqb_spec t 0); [lia|reflexivity]). rewrite Ea.
        apply (turn_at s1 p1 id t J1 Q1); [lia|lia|exact I2].
    - change (Worker t) with (ag t 0). apply (turn_at s1 p1 t 0 J1 Q1); [lia|lia|]. unfold busy. rewrite (free_eq s1 p1 t 0 J1). destruct J1 as [_ (tr & V)].
      destruct (reach_life _ _ _ _ _ (V_leaf _ _ _ _ p1 tr V t ltac:(lia))) as (w & cs & Et & Hw & _). unfold free_in. rewrite Et. cbn [nth_error]. destruct w; try discriminate Hw; reflexivity. }
  destruct Z as (m2 & s2 & l2 & G2 & X2 & T2). exists (m1 ++ m2), s2, (l1 ++ l2). split; [apply Forall_app; auto|]. split; [exact (StackEnd.spexec_app K cf n _ _ _ _ _ _ _ X1 X2)|].
  clear - X1 T2. revert s l1 X1. induction m1 as [|m m1 IH]; intros s l1 X1; cbn [StackModel.spexec List.app] in *; [injection X1 as <- _; exact T2|].
  destruct (spstep s m) as [[s3 l3]|] eqn:S; [|discriminate]. destruct (spexec s3 m1) as [[s4 l4]|] eqn:Y; [|discriminate]. injection X1 as -> _.
  exact (st_later K cf n _ _ _ _ _ _ S (IH _ _ Y)).
Qed.
Lemma exec_J ms : Forall goes_on ms -> forall s p s' l, J s p -> spexec s ms = Some (s', l) -> exists p', J s' p'.
Proof. intros G s p s' l HJ X. destruct (jrun_exists ms G s p HJ) as (s2 & p2 & R). rewrite (jrun_exec _ _ _ _ _ _ _ R X). exists p2. exact (jrun_J _ _ _ _ _ R HJ). Qed.
Lemma turn_more a s ms ms' : sturn a s ms -> sturn a s (ms ++ ms').
Proof. induction 1 as [s ms H|s m ms s1 l S N|s m ms s1 l S T IH]; [now apply st_now|exact (st_move K cf n _ _ _ _ _ _ S N)|exact (st_later K cf n _ _ _ _ _ _ S IH)]. Qed.
Lemma turn_then a ms ms' : forall s s' l, spexec s ms = Some (s', l) -> sturn a s' ms' -> sturn a s (ms ++ ms').
Proof.
  induction ms as [|m ms IH]; intros s s' l X T; cbn [StackModel.spexec List.app] in *; [injection X as <- _; exact T|].
  destruct (spstep s m) as [[s3 l3]|] eqn:S; [|discriminate]. destruct (spexec s3 ms) as [[s4 l4]|] eqn:Y; [|discriminate]. injection X as -> _.
  exact (st_later K cf n _ _ _ _ _ _ S (IH _ _ _ Y T)).
Qed.
Lemma round_exists s p : J s p -> exists ms s' l, sround K cf n s ms /\ Forall mild ms /\ spexec s ms = Some (s', l).
Proof.
  intros HJ. assert (G : forall l, incl l (agents K n) -> exists ms s' ls, Forall mild ms /\ spexec s ms = Some (s', ls) /\ forall a, In a l -> sturn a s ms).
  { induction l as [|b l IH]; intros Hl; [exists [], s, []; split; [constructor|]; split; [reflexivity|intros a []]|].
    destruct IH as (ms & s1 & l1 & M1 & X1 & M2); [intros x Hx; apply Hl; right; exact Hx|]. destruct (exec_J ms (StackEnd.mild_on _ M1) s p s1 l1 HJ X1) as (p1 & J1).
    destruct (turn_exists s1 p1 b J1) as (ms' & s2 & l2 & M3 & X2 & M4); [apply Hl; left; reflexivity|].
    exists (ms ++ ms'), s2, (l1 ++ l2). split; [apply Forall_app; auto|]. split; [exact (StackEnd.spexec_app K cf n _ _ _ _ _ _ _ X1 X2)|].
    intros a [<-|Hin]; [exact (turn_then _ _ _ _ _ _ X1 M4)|exact (turn_more _ _ _ _ (M2 a Hin))]. }
  destruct (G (agents K n) (incl_refl _)) as (ms & s' & l & A & B & D). exists ms, s', l. split; [split; [exact (StackEnd.mild_on _ A)|exact D]|]. split; [exact A|exact B].
Qed.
Lemma rounds_J k : forall s p, J s p -> exists ms s' l, srounds K cf n k s ms /\ filter weak ms = [] /\ spexec s ms = Some (s', l).
Proof.
  assert (W : forall ms, Forall mild ms -> filter weak ms = []) by (induction 1 as [|m ms [_ M] H IH]; [reflexivity|]; cbn [filter]; rewrite M; exact IH).
  induction k as [|k IH]; intros s p HJ; [exists [], s, []; split; [constructor|split; reflexivity]|]. destruct (round_exists s p HJ) as (m1 & s1 & l1 & R & M & X).
  destruct (exec_J m1 (proj1 R) s p s1 l1 HJ X) as (p1 & J1). destruct (IH s1 p1 J1) as (m2 & s2 & l2 & R2 & W2 & X2). exists (m1 ++ m2), s2, (l1 ++ l2).
  split; [exact (sr_S K cf n _ _ _ _ _ _ R X R2)|]. split; [rewrite filter_app, (W _ M), W2; reflexivity|exact (StackEnd.spexec_app K cf n _ _ _ _ _ _ _ X X2)].
Qed.
Theorem rounds_exist k s tr : spreach K cf op n s tr -> exists ms s' l, srounds K cf n k s ms /\ filter weak ms = [] /\ spexec s ms = Some (s', l).
Proof. intros Hr. destruct (reach_J s tr Hr) as (p & HJ). exact (rounds_J k s p HJ). Qed.
End Fair.
