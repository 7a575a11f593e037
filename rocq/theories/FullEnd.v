(** * From any moment on, the threads in the buffer of a sink can leave it; and from then on a sink
      over its buffer can do what a sink over an ideal queue can do (C122) *)
From Coq Require Import List Arith NArith Bool Lia.
From Verif Require CircSpec CircModel CircProofs.
From Verif Require Import Base LevelModel SinkModel SinkSpec FullModel FullProofs.
From Verif Require SinkLabels.
Import ListNotations.
Set Implicit Arguments.

Section End.
Context {E : Type}.
Variable C : cfg E.
Notation sstate := (CircSpec.sstate E).

Definition inside (p : fpc E) : bool := match p with At _ => false | _ => true end.
Definition all_out (s : fstate E) : Prop := forall t p, nth_error (pcs s) t = Some p -> inside p = false.
Definition others_out (t : nat) (s : fstate E) : Prop := forall u p, u <> t -> nth_error (pcs s) u = Some p -> inside p = false.
Definition is_go (m : move E) : Prop := exists t, m = MThread t (CGo false).

Definition RPC (s : fstate E) (t : nat) : CircModel.pc E := CircModel.t_pc (CircModel.thr (ring s) t).
Definition rank (rp : CircModel.pc E) : nat :=
  match rp with
  | CircModel.PBusyClear _ | CircModel.GBusyClear => 23
  | CircModel.PSpin _ | CircModel.GSpin | CircModel.QSpin _ => 22
  | CircModel.PCheck _ | CircModel.GCheck | CircModel.QRead _ => 21
  | CircModel.PTake _ | CircModel.GTake | CircModel.QClear _ _ => 20
  | CircModel.PAdv _ _ | CircModel.GAdv _ => 19
  | CircModel.PInc _ _ | CircModel.GDec _ => 18
  | CircModel.PUnlock _ _ | CircModel.GUnlock _ | CircModel.PFullClear | CircModel.GEmptyClear => 17
  | CircModel.PBuild _ _ => 16
  | CircModel.PBuilt _ _ => 15
  | CircModel.Idle => 14
  end.
Definition mu (p : fpc E) (rp : CircModel.pc E) : nat :=
  match p with
  | At _ => 0
  | InPut _ | InGet _ | InSize => rank rp
  | Add _ | Sub _ _ => 5
  | Rel _ | Free _ _ _ => 4
  end.
Definition weight (s : fstate E) (t : nat) : nat :=
  match nth_error (pcs s) t with Some p => mu p (RPC s t) | None => 0 end.
Definition total (s : fstate E) : nat := list_sum (map (weight s) (seq 0 (length (pcs s)))).

(** The step of a thread leaves the others where they are. *)
Lemma circ_frame cap (r : CircModel.state E) t c r' tr u : CircModel.step cap r t c = CircModel.Ok r' tr -> u <> t -> CircModel.thr r' u = CircModel.thr r u.
Proof.
  unfold CircModel.step. intros H N. apply Nat.eqb_neq in N.
  repeat match type of H with context [match ?x with _ => _ end] => destruct x end; inversion H; subst; try reflexivity;
    cbn; unfold CircModel.upd; rewrite N; reflexivity.
Qed.
Lemma fstep_frame s t c s' ls : fstep C s (MThread t c) = Some (s', ls) ->
  length (pcs s') = length (pcs s) /\ forall u, u <> t -> nth_error (pcs s') u = nth_error (pcs s) u /\ RPC s' u = RPC s u.
Proof.
  cbn [fstep]. destruct (nth_error (pcs s) t) as [p|] eqn:Hp; [|intros H; injection H as <- <-; auto].
  assert (Q : forall r y p' ls', (r = ring s \/ exists cc tr, CircModel.step (c_cap C) (ring s) t cc = CircModel.Ok r tr) ->
    Some (mkF r y (fupd (pcs s) t p'), ls') = Some (s', ls) ->
    length (pcs s') = length (pcs s) /\ forall u, u <> t -> nth_error (pcs s') u = nth_error (pcs s) u /\ RPC s' u = RPC s u).
  { intros r y p' ls' Hr H. injection H as <- <-. cbn [pcs]. split; [apply fupd_length|]. intros u N. split; [now apply fupd_other|].
    unfold RPC. cbn [ring]. destruct Hr as [->|(cc & tr & S)]; [reflexivity|]. now rewrite (@circ_frame _ _ _ _ _ _ u S N). }
  assert (Q2 : forall r y ls', (exists cc tr, CircModel.step (c_cap C) (ring s) t cc = CircModel.Ok r tr) ->
    Some (mkF r y (pcs s), ls') = Some (s', ls) ->
    length (pcs s') = length (pcs s) /\ forall u, u <> t -> nth_error (pcs s') u = nth_error (pcs s) u /\ RPC s' u = RPC s u).
  { intros r y ls' (cc & tr & S) H. injection H as <- <-. cbn [pcs]. split; [reflexivity|]. intros u N. split; [reflexivity|].
    unfold RPC. cbn [ring]. now rewrite (@circ_frame _ _ _ _ _ _ u S N). }
  assert (QC : forall cc p', call C s t cc p' = Some (s', ls) ->
    length (pcs s') = length (pcs s) /\ forall u, u <> t -> nth_error (pcs s') u = nth_error (pcs s) u /\ RPC s' u = RPC s u).
  { intros cc p'. unfold call. destruct (CircModel.step (c_cap C) (ring s) t cc) as [r tr|] eqn:S; [|discriminate]. apply Q. right. eauto. }
  assert (QA : forall p0, (let '(a, ls0) := step_thread C (outside s) t c p0 in
      Some (mkF (ring s) (strip a) (fupd (pcs s) t (At (nth t (thr a) Idle))), ls0)) = Some (s', ls) ->
    length (pcs s') = length (pcs s) /\ forall u, u <> t -> nth_error (pcs s') u = nth_error (pcs s) u /\ RPC s' u = RPC s u).
  { intros p0. destruct (step_thread C (outside s) t c p0) as [a l0]. apply Q. now left. }
  destruct p as [p|e|i|i|k|k i|k e i|]; cbn [fstep_thread].
  - destruct p; try (apply QA); apply QC.
  - destruct (CircModel.step (c_cap C) (ring s) t _) as [r tr|] eqn:S; [|discriminate].
    assert (SS : exists cc tr, CircModel.step (c_cap C) (ring s) t cc = CircModel.Ok r tr) by eauto.
    destruct tr as [|l [|]]; try (apply Q2; exact SS). destruct l as [| |? v| |]; try (apply Q2; exact SS).
    + unfold taken. destruct (CircModel.t_pc _); (apply Q2; exact SS).
    + destruct v; apply Q; right; exact SS.
    + destruct l as [| |? v| |]; try (apply Q2; exact SS). destruct v; apply Q2; exact SS.
  - destruct (CircModel.step (c_cap C) (ring s) t _) as [r tr|] eqn:S; [|discriminate].
    destruct tr as [|l [|]]; try discriminate; destruct l; try discriminate. apply Q. right. eauto.
  - destruct (CircModel.step (c_cap C) (ring s) t _) as [r tr|] eqn:S; [|discriminate]. apply Q. right. eauto.
  - destruct (CircModel.step (c_cap C) (ring s) t _) as [r tr|] eqn:S; [|discriminate].
    assert (SS : exists cc tr, CircModel.step (c_cap C) (ring s) t cc = CircModel.Ok r tr) by eauto.
    destruct tr as [|l [|]]; try (apply Q2; exact SS). destruct l as [| |? v| |]; try (apply Q2; exact SS).
    + destruct v; apply Q; right; exact SS.
    + destruct l as [| |? v| |]; try (apply Q2; exact SS). destruct v; apply Q2; exact SS.
  - destruct (CircModel.step (c_cap C) (ring s) t _) as [r tr|] eqn:S; [|discriminate].
    destruct tr as [|l [|]]; try discriminate; destruct l; try discriminate. destruct (c_kind C); apply Q; right; eauto.
  - destruct (CircModel.step (c_cap C) (ring s) t _) as [r tr|] eqn:S; [|discriminate]. apply Q. right. eauto.
  - destruct (CircModel.step (c_cap C) (ring s) t _) as [r tr|] eqn:S; [|discriminate].
    assert (SS : exists cc tr, CircModel.step (c_cap C) (ring s) t cc = CircModel.Ok r tr) by eauto.
    destruct tr as [|l [|]]; try (apply Q2; exact SS). destruct l as [| |? v| |]; try (apply Q2; exact SS).
    + destruct v; try (apply Q; right; exact SS); apply Q2; exact SS.
    + destruct l as [| |? v| |]; try (apply Q2; exact SS). destruct v; apply Q2; exact SS.
Qed.

(** A thread in the buffer that does not have to wait comes nearer to leaving it. *)
Definition need_not_wait (s : fstate E) (t : nat) : Prop :=
  match RPC s t with
  | CircModel.PSpin _ | CircModel.GSpin | CircModel.QSpin _ => CircModel.g_busy (ring s) = false
  | CircModel.PTake _ => CircModel.n_busy (CircModel.nodes (ring s) (CircModel.g_push (ring s))) = false
  | CircModel.GTake => CircModel.n_busy (CircModel.nodes (ring s) (CircModel.g_pop (ring s))) = false
  | _ => True
  end.

Lemma weight_at (s : fstate E) t p : nth_error (pcs s) t = Some p -> weight s t = mu p (RPC s t).
Proof. intros H. unfold weight. now rewrite H. Qed.
Lemma rank_ge (rp : CircModel.pc E) : 14 <= rank rp.
Proof. destruct rp; cbn; lia. Qed.

(** Where the step of a thread in the buffer leads. *)
Definition leads (p p' : fpc E) : Prop :=
  match p with
  | At _ => True
  | InPut e => p' = InPut e \/ (exists i, p' = Add i) \/ p' = At (FTas (KRetry e))
  | InGet k => p' = InGet k \/ (exists i, p' = Sub k i) \/ p' = At (after_none C k)
  | InSize => p' = InSize \/ exists i, p' = At (after_size i)
  | Add i => p' = Rel i
  | Rel i => p' = At PDecide
  | Sub k i => exists e, p' = Free k e i
  | Free k e i => p' = At (after_sub C k e)
  end.

Lemma phase_rpc s a g t p : rel C s a g -> nth_error (pcs s) t = Some p ->
  match p with
  | InPut e => (CircProofs.phase_ok (ring s) (RPC s t) (CircSpec.PhCalled (CircSpec.OPut e)) \/
                (exists n, CircProofs.phase_ok (ring s) (RPC s t) (CircSpec.PhPut n e)) \/
                CircProofs.phase_ok (ring s) (RPC s t) CircSpec.PhRefused)
  | InGet k => (CircProofs.phase_ok (ring s) (RPC s t) (CircSpec.PhCalled CircSpec.OGet) \/
                (exists n e, CircProofs.phase_ok (ring s) (RPC s t) (CircSpec.PhGot n e)) \/
                CircProofs.phase_ok (ring s) (RPC s t) CircSpec.PhRefused)
  | InSize => (CircProofs.phase_ok (ring s) (RPC s t) (CircSpec.PhCalled (CircSpec.OQuery CircSpec.QSize)) \/
                exists n, CircProofs.phase_ok (ring s) (RPC s t) (CircSpec.PhNum n))
  | _ => RPC s t = CircModel.Idle
  end.
Proof.
  intros R Hp. pose proof (thr_some _ R Hp) as N. destruct (nth_error (thr a) t) as [pa|] eqn:Ha; [|congruence].
  pose proof (r_thr R _ Hp Ha) as Pr. pose proof (CircProofs.inv_phase (r_inv R) t) as Ph. fold (RPC s t) in Ph. unfold CircProofs.PC in Ph. fold (RPC s t) in Ph.
  assert (Id : CircSpec.s_phase g t = CircSpec.PhNone -> RPC s t = CircModel.Idle).
  { intros Z. exact (@idle_pc E C (c_cap C) (ring s) g t (r_inv R) Z). }
  destruct p; cbn [prel] in Pr.
  - apply Id. tauto.
  - destruct Pr as (_ & [[X _]|[(n & X & _)|[X _]]]); rewrite X in Ph; eauto.
  - apply Id. tauto.
  - apply Id. tauto.
  - destruct Pr as (_ & [[X _]|[(n & e & X & _)|[X _]]]); rewrite X in Ph; eauto.
  - apply Id. tauto.
  - apply Id. tauto.
  - destruct Pr as (_ & [[X _]|(n & X & _)]); rewrite X in Ph; eauto.
Qed.

Lemma step_down s a g t p c s' ls : rel C s a g -> nth_error (pcs s) t = Some p -> inside p = true ->
  fstep C s (MThread t c) = Some (s', ls) ->
  exists p', nth_error (pcs s') t = Some p' /\ leads p p' /\ (need_not_wait s t -> weight s' t < weight s t).
Proof.
  intros R Hp Hi F. pose proof (phase_rpc t R Hp) as Ph. pose proof (some_lt _ _ Hp) as Lt.
  rewrite (weight_at _ _ Hp). cbn [fstep] in F. rewrite Hp in F.
  assert (Fin : forall r y p' ls', Some (mkF r y (fupd (pcs s) t p'), ls') = Some (s', ls) -> leads p p' ->
     (need_not_wait s t -> mu p' (CircModel.t_pc (CircModel.thr r t)) < mu p (RPC s t)) ->
     exists p', nth_error (pcs s') t = Some p' /\ leads p p' /\ (need_not_wait s t -> weight s' t < mu p (RPC s t))).
  { intros r y p' ls' H L D. injection H as <- <-. exists p'. assert (H : nth_error (pcs (mkF r y (fupd (pcs s) t p'))) t = Some p') by (cbn [pcs]; now apply fupd_at).
    split; [exact H|]. split; [exact L|]. intros W. rewrite (weight_at _ _ H). exact (D W). }
  assert (Stay : forall r y ls', Some (mkF r y (pcs s), ls') = Some (s', ls) -> leads p p ->
     (need_not_wait s t -> mu p (CircModel.t_pc (CircModel.thr r t)) < mu p (RPC s t)) ->
     exists p', nth_error (pcs s') t = Some p' /\ leads p p' /\ (need_not_wait s t -> weight s' t < mu p (RPC s t))).
  { intros r y ls' H. rewrite (stay_pcs s t Hp) in H. exact (Fin r y p ls' H). }
  unfold need_not_wait in *. destruct p as [p|e|i|i|k|k i|k e i|]; cbn [fstep_thread] in F; try discriminate Hi.
  - unfold CircModel.step in F. fold (RPC s t) in F.
    destruct (RPC s t) eqn:RP; cbn [CircProofs.phase_ok] in Ph;
      try (exfalso; destruct Ph as [Ph|[[? Ph]|Ph]]; repeat match type of Ph with ex _ => destruct Ph as [? Ph] end; try discriminate Ph; destruct Ph; discriminate);
      repeat match type of F with context [if ?b then _ else _] => destruct b eqn:?B end; try discriminate F; cbv beta iota zeta in F;
      try (match type of F with context [taken ?a ?b ?c ?d] => destruct (taken a b c d) as [y l0] end);
      first [eapply Stay; [exact F|left; reflexivity|] | eapply Fin; [exact F|cbn; eauto|]];
      cbn [mu CircModel.thr CircModel.set_pc CircModel.set_thr CircModel.set_lock CircModel.set_node CircModel.set_idx];
      unfold CircModel.upd; rewrite ?Nat.eqb_refl; cbn [CircModel.t_pc rank]; try lia; try (intros W; congruence).
    all: fold (RPC s t); rewrite RP; cbn [rank]; congruence.
  - destruct (CircModel.step (c_cap C) (ring s) t _) as [r tr|] eqn:S; [|discriminate F].
    destruct tr as [|l [|]]; try discriminate F; destruct l; try discriminate F. eapply Fin; [exact F|reflexivity|cbn; lia].
  - destruct (CircModel.step (c_cap C) (ring s) t _) as [r tr|] eqn:S; [|discriminate F]. eapply Fin; [exact F|reflexivity|cbn; lia].
  - unfold CircModel.step in F. fold (RPC s t) in F.
    destruct (RPC s t) eqn:RP; cbn [CircProofs.phase_ok] in Ph;
      try (exfalso; destruct Ph as [Ph|[(? & ? & Ph)|Ph]]; repeat match type of Ph with ex _ => destruct Ph as [? Ph] end; try discriminate Ph; destruct Ph; discriminate);
      repeat match type of F with context [if ?b then _ else _] => destruct b eqn:?B end; try discriminate F; cbv beta iota zeta in F;
      first [eapply Stay; [exact F|left; reflexivity|] | eapply Fin; [exact F|cbn; unfold after_none; eauto|]];
      cbn [mu CircModel.thr CircModel.set_pc CircModel.set_thr CircModel.set_lock CircModel.set_node CircModel.set_idx];
      unfold CircModel.upd; rewrite ?Nat.eqb_refl; cbn [CircModel.t_pc rank]; try lia; try (intros W; congruence).
    all: fold (RPC s t); rewrite RP; cbn [rank]; congruence.
  - destruct (CircModel.step (c_cap C) (ring s) t _) as [r tr|] eqn:S; [|discriminate F].
    destruct tr as [|l [|]]; try discriminate F; destruct l; try discriminate F.
    destruct (c_kind C); (eapply Fin; [exact F|cbn; eauto|cbn; lia]).
  - destruct (CircModel.step (c_cap C) (ring s) t _) as [r tr|] eqn:S; [|discriminate F]. eapply Fin; [exact F|reflexivity|cbn; lia].
  - unfold CircModel.step in F. fold (RPC s t) in F.
    destruct (RPC s t) eqn:RP; cbn [CircProofs.phase_ok] in Ph;
      try (exfalso; destruct Ph as [Ph|[? Ph]]; repeat match type of Ph with ex _ => destruct Ph as [? Ph] end; try discriminate Ph; destruct Ph; discriminate);
      repeat match type of F with context [if ?b then _ else _] => destruct b eqn:?B end; try discriminate F; cbv beta iota zeta in F;
      first [eapply Stay; [exact F|left; reflexivity|] | eapply Fin; [exact F|first [left; reflexivity | right; match goal with B0 : Nat.eqb ?x 0 = _ |- _ => exists x; unfold after_size; rewrite B0; reflexivity end]|]];
      cbn [mu CircModel.thr CircModel.set_pc CircModel.set_thr CircModel.set_lock CircModel.set_node CircModel.set_idx];
      unfold CircModel.upd; rewrite ?Nat.eqb_refl; cbn [CircModel.t_pc rank]; try lia; try (intros W; congruence).
Qed.

Definition no_ref (p : fpc E) : bool := match p with At _ | InPut _ | InGet _ | InSize => true | _ => false end.

Lemma no_refs s a g u : rel C s a g -> (forall p, nth_error (pcs s) u = Some p -> no_ref p = true) -> CircProofs.REFS (ring s) u = [].
Proof.
  intros R H. assert (Z : refs_of g u = []).
  { destruct (nth_error (pcs s) u) as [p|] eqn:Hp; [|apply nth_error_None in Hp; exact (proj2 (r_out R Hp))].
    specialize (H p eq_refl). pose proof (thr_some _ R Hp) as N. destruct (nth_error (thr a) u) as [pa|] eqn:Ha; [|congruence].
    pose proof (r_thr R _ Hp Ha) as Pr. destruct p; cbn [prel] in Pr; try discriminate H; tauto. }
  destruct (CircProofs.REFS (ring s) u) as [|i l] eqn:Q; [reflexivity|]. exfalso.
  destruct (CircProofs.iv_refs (CircProofs.inv_live (r_inv R)) u i) as (n & e & L & _); [rewrite Q; now left|].
  assert (In (CircSpec.mkRef u i n e) (refs_of g u)) as Y; [|rewrite Z in Y; exact Y].
  unfold refs_of. apply filter_In. split; [exact L|]. cbn. apply Nat.eqb_refl.
Qed.
Lemma out_idle s a g u : rel C s a g -> (forall p, nth_error (pcs s) u = Some p -> inside p = false) -> RPC s u = CircModel.Idle.
Proof.
  intros R H. destruct (nth_error (pcs s) u) as [p|] eqn:Hp.
  - specialize (H p eq_refl). pose proof (phase_rpc u R Hp) as Z. destruct p; try discriminate H. exact Z.
  - apply nth_error_None in Hp. exact (@idle_pc E C (c_cap C) (ring s) g u (r_inv R) (proj1 (r_out R Hp))).
Qed.

(** A slot is busy only if somebody works on it. *)
Lemma slot_free s a g i : rel C s a g -> (forall u p, nth_error (pcs s) u = Some p -> no_ref p = true) ->
  (forall u, CircProofs.pcslot (RPC s u) = None) -> CircModel.n_busy (CircModel.nodes (ring s) i) = false.
Proof.
  intros R H1 H2. destruct (CircModel.n_busy (CircModel.nodes (ring s) i)) eqn:B; [|reflexivity]. exfalso.
  destruct (CircProofs.ih_held (CircProofs.inv_hold (r_inv R)) i B) as (u & [Hu|Hu]).
  - unfold CircProofs.PC in Hu. fold (RPC s u) in Hu. rewrite H2 in Hu. discriminate.
  - rewrite (no_refs u R) in Hu; [exact Hu|]. intros p Hp. exact (H1 u p Hp).
Qed.
Lemma lock_free s a g : rel C s a g -> (forall u, CircProofs.inCS (RPC s u) = false) -> CircModel.g_busy (ring s) = false.
Proof.
  intros R H. destruct (CircModel.g_busy (ring s)) eqn:B; [|reflexivity]. exfalso.
  destruct (CircProofs.il_ex (CircProofs.inv_lock (r_inv R)) B) as (u & Hu). unfold CircProofs.PC in Hu. fold (RPC s u) in Hu. rewrite H in Hu. discriminate.
Qed.

Lemma ref_rpc s a g t p : rel C s a g -> nth_error (pcs s) t = Some p -> RPC s t <> CircModel.Idle -> no_ref p = true.
Proof. intros R Hp N. pose proof (phase_rpc t R Hp) as Z. destruct p; try reflexivity; contradiction. Qed.

Lemma alone_need s a g t p : rel C s a g -> others_out t s -> nth_error (pcs s) t = Some p -> need_not_wait s t.
Proof.
  intros R O Hp. unfold need_not_wait.
  assert (Idl : forall u, u <> t -> RPC s u = CircModel.Idle) by (intros u N; apply (out_idle u R); intros q Hq; exact (O u q N Hq)).
  assert (S : forall i, CircProofs.pcslot (RPC s t) = None -> RPC s t <> CircModel.Idle -> CircModel.n_busy (CircModel.nodes (ring s) i) = false).
  { intros i Z N. apply (slot_free i R).
    - intros u q Hq. destruct (Nat.eq_dec u t) as [->|Hn]; [rewrite Hp in Hq; injection Hq as <-; exact (ref_rpc t R Hp N)|]. specialize (O u q Hn Hq). destruct q; try discriminate O; reflexivity.
    - intros u. destruct (Nat.eq_dec u t) as [->|Hn]; [exact Z|]. now rewrite (Idl u Hn). }
  assert (L : CircProofs.inCS (RPC s t) = false -> CircModel.g_busy (ring s) = false).
  { intros Z. apply (lock_free R). intros u. destruct (Nat.eq_dec u t) as [->|Hn]; [exact Z|]. now rewrite (Idl u Hn). }
  destruct (RPC s t) eqn:Q; try exact I; try (apply L; reflexivity); apply S; try reflexivity; discriminate.
Qed.

(** Somebody in the buffer can always go on. *)
Lemma somebody s a g : rel C s a g -> (exists t p, nth_error (pcs s) t = Some p /\ inside p = true) ->
  exists t p, nth_error (pcs s) t = Some p /\ inside p = true /\ need_not_wait s t.
Proof.
  intros R (t0 & p0 & Hp0 & Hi0).
  pose (first t := match nth_error (pcs s) t with
    | Some p => inside p && (negb (no_ref p) || match RPC s t with CircModel.PBuild _ _ | CircModel.PBuilt _ _ => true | _ => false end)
    | None => false end).
  assert (B : forall t, match nth_error (pcs s) t with Some p => inside p | None => false end = false -> RPC s t = CircModel.Idle).
  { intros t H. apply (out_idle t R). intros p Hp. rewrite Hp in H. exact H. }
  destruct (existsb first (seq 0 (length (pcs s)))) eqn:X1.
  { apply existsb_exists in X1. destruct X1 as (t & _ & F). unfold first in F. destruct (nth_error (pcs s) t) as [p|] eqn:Hp; [|discriminate F].
    apply andb_prop in F. destruct F as [F1 F2]. exists t, p. split; [exact Hp|]. split; [exact F1|]. unfold need_not_wait.
    apply orb_prop in F2. destruct F2 as [F2|F2]; [|destruct (RPC s t); try discriminate F2; exact I].
    pose proof (phase_rpc t R Hp) as Z. destruct p; try discriminate F2; try discriminate F1; rewrite Z; exact I. }
  assert (N1 : forall t, first t = false).
  { intros t. destruct (first t) eqn:F; [|reflexivity]. assert (existsb first (seq 0 (length (pcs s))) = true); [|congruence].
    apply existsb_exists. exists t. split; [|exact F]. apply in_seq. unfold first in F. destruct (nth_error (pcs s) t) eqn:Hp; [|discriminate F]. apply some_lt in Hp. lia. }
  assert (NR : forall u p, nth_error (pcs s) u = Some p -> no_ref p = true).
  { intros u p Hp. specialize (N1 u). unfold first in N1. rewrite Hp in N1. destruct p; try reflexivity; discriminate N1. }
  assert (NB : forall u, match RPC s u with CircModel.PBuild _ _ | CircModel.PBuilt _ _ => False | _ => True end).
  { intros u. specialize (N1 u). specialize (B u). unfold first in N1. destruct (nth_error (pcs s) u) as [p|].
    - destruct (inside p); [|rewrite (B eq_refl); exact I]. cbn [andb] in N1. apply orb_false_elim in N1. destruct N1 as [_ N1]. destruct (RPC s u); try exact I; discriminate N1.
    - rewrite (B eq_refl). exact I. }
  destruct (existsb (fun t => CircProofs.inCS (RPC s t)) (seq 0 (length (pcs s)))) eqn:X2.
  { apply existsb_exists in X2. destruct X2 as (t & Ht & F). apply in_seq in Ht. destruct (nth_error (pcs s) t) as [p|] eqn:Hp; [|apply nth_error_None in Hp; lia].
    exists t, p. split; [exact Hp|]. split; [destruct (inside p) eqn:Ip; [reflexivity|]; exfalso; rewrite (B t) in F; [discriminate F|now rewrite Hp]|].
    assert (S : forall i, CircProofs.pcslot (RPC s t) = None -> CircModel.n_busy (CircModel.nodes (ring s) i) = false).
    { intros i Z. apply (slot_free i R NR). intros u. destruct (Nat.eq_dec u t) as [->|Hn]; [exact Z|]. specialize (NB u).
      assert (NC : CircProofs.inCS (RPC s u) = false).
      { destruct (CircProofs.inCS (RPC s u)) eqn:CU; [|reflexivity]. exfalso. apply Hn. exact (CircProofs.il_uniq (CircProofs.inv_lock (r_inv R)) u t CU F). }
      destruct (RPC s u); try reflexivity; try discriminate NC; contradiction. }
    unfold need_not_wait. destruct (RPC s t) eqn:Q; try exact I; try discriminate F; apply S; reflexivity. }
  exists t0, p0. split; [exact Hp0|]. split; [exact Hi0|].
  assert (NC : forall u, CircProofs.inCS (RPC s u) = false).
  { intros u. destruct (nth_error (pcs s) u) as [p|] eqn:Hp; [|rewrite (B u); [reflexivity|now rewrite Hp]].
    destruct (CircProofs.inCS (RPC s u)) eqn:CU; [|reflexivity]. assert (existsb (fun t => CircProofs.inCS (RPC s t)) (seq 0 (length (pcs s))) = true); [|congruence].
    apply existsb_exists. exists u. split; [|exact CU]. apply in_seq. apply some_lt in Hp. lia. }
  pose proof (lock_free R NC) as LF. specialize (NC t0). unfold need_not_wait. destruct (RPC s t0); try exact I; try exact LF; discriminate NC.
Qed.

Lemma sum_lt (f f' : nat -> nat) t l : NoDup l -> In t l -> f' t < f t -> (forall u, u <> t -> f' u = f u) -> list_sum (map f' l) < list_sum (map f l).
Proof.
  intros ND IN H1 H2. induction ND as [|x l Nx ND IH]; [destruct IN|]. cbn [map list_sum fold_right]. unfold list_sum in *.
  destruct IN as [->|IN].
  - assert (Z : map f' l = map f l) by (apply map_ext_in; intros u Hu; apply H2; intros ->; contradiction). rewrite Z. lia.
  - assert (x <> t) by (intros ->; contradiction). rewrite (H2 x) by assumption. specialize (IH IN). lia.
Qed.

Lemma total_step s a g t p c s' ls : rel C s a g -> nth_error (pcs s) t = Some p -> inside p = true -> need_not_wait s t ->
  fstep C s (MThread t c) = Some (s', ls) -> total s' < total s.
Proof.
  intros R Hp Hi Hn F. destruct (step_down t c R Hp Hi F) as (p' & _ & _ & W). destruct (fstep_frame _ _ _ F) as [Le Fr].
  unfold total. rewrite Le. apply (@sum_lt _ _ t); [apply seq_NoDup|apply in_seq; apply some_lt in Hp; lia|exact (W Hn)|].
  intros u N. destruct (Fr u N) as [F1 F2]. unfold weight. now rewrite F1, F2.
Qed.

(** Those in the buffer leave it. *)
Lemma quieten N : forall s a g, rel C s a g -> total s <= N ->
  exists ms s' ls a' g' ms', Forall is_go ms /\ fexec C s ms = Some (s', ls) /\ Forall is_go ms' /\ exec C a ms' = (a', ls) /\ rel C s' a' g' /\ all_out s'.
Proof.
  assert (D : forall s : fstate E, all_out s \/ exists t p, nth_error (pcs s) t = Some p /\ inside p = true).
  { intros s. destruct (existsb inside (pcs s)) eqn:X.
    - right. apply existsb_exists in X. destruct X as (p & Hp & Hi). apply In_nth_error in Hp. destruct Hp as [t Hp]. eauto.
    - left. intros t p Hp. destruct (inside p) eqn:Hi; [|reflexivity]. assert (existsb inside (pcs s) = true); [|congruence].
      apply existsb_exists. exists p. split; [exact (nth_error_In _ _ Hp)|exact Hi]. }
  induction N as [|N IH]; intros s a g R HN; (destruct (D s) as [O|H]; [exists [], s, [], a, g, []; split; [constructor|]; split; [reflexivity|]; split; [constructor|]; split; [reflexivity|]; split; [exact R|exact O]|]);
    destruct (somebody R H) as (t & p & Hp & Hi & Hn); destruct (sim_step (MThread t (CGo false)) R) as (s1 & l1 & a1 & g1 & m1 & F1 & E1 & R1 & M1);
    pose proof (total_step t _ R Hp Hi Hn F1) as T; [lia|].
  destruct (IH s1 a1 g1 R1 ltac:(lia)) as (ms & s' & ls & a' & g' & ms' & G1 & F2 & G2 & E2 & R2 & O).
  exists (MThread t (CGo false) :: ms), s', (l1 ++ ls), a', g', (m1 ++ ms'). split; [constructor; [eexists; reflexivity|exact G1]|].
  split; [cbn [fexec]; rewrite F1, F2; reflexivity|]. split.
  - apply Forall_app. split; [|exact G2]. destruct M1 as [->|[-> _]]; repeat constructor. eexists; reflexivity.
  - split; [rewrite SinkLabels.exec_app, E1, E2; reflexivity|]. auto.
Qed.

Unset Implicit Arguments.
(** ** A thread alone in the buffer does what the other model does *)
Definition matched (s : fstate E) (a : state E) (m : move E) : Prop :=
  exists k s' ls g', fexec C s (repeat m (S k)) = Some (s', ls) /\ rel C s' (fst (step C a m)) g' /\ snd (step C a m) = ls /\
    (forall t c, m = MThread t c -> others_out t s -> others_out t s').

Lemma exec_single a m a' ls : exec C a [m] = (a', ls) -> step C a m = (a', ls).
Proof. cbn [exec]. destruct (step C a m) as [x l]. rewrite app_nil_r. auto. Qed.
Lemma out_step s t c s' ls : others_out t s -> fstep C s (MThread t c) = Some (s', ls) -> others_out t s'.
Proof. intros O F u p N Hp. destruct (fstep_frame _ _ _ F) as [_ Fr]. destruct (Fr u N) as [F1 _]. rewrite F1 in Hp. exact (O u p N Hp). Qed.

Lemma match_now s a g m s' ls a' g' : rel C s a g -> fstep C s m = Some (s', ls) -> exec C a [m] = (a', ls) -> rel C s' a' g' -> matched s a m.
Proof.
  intros R F X R'. apply exec_single in X. exists 0, s', ls, g'. cbn [repeat fexec]. rewrite F, app_nil_r. split; [reflexivity|]. rewrite X. split; [exact R'|].
  split; [reflexivity|]. intros t c -> O. exact (@out_step _ _ _ _ _ O F).
Qed.
Lemma match_later s m s' a : fstep C s m = Some (s', []) -> matched s' a m -> matched s a m.
Proof.
  intros F (k & s2 & ls & g' & X & R & L & O). exists (S k), s2, ls, g'. change (repeat m (S (S k))) with (m :: repeat m (S k)). cbn [fexec]. rewrite F.
  cbn [repeat fexec] in X |- *. rewrite X. split; [reflexivity|]. split; [exact R|]. split; [exact L|]. intros t c E0 O1. apply (O t c E0). subst m. exact (@out_step _ _ _ _ _ O1 F).
Qed.

Lemma match_plain s a g t c p : rel C s a g -> nth_error (pcs s) t = Some p -> between s p = false -> matched s a (MThread t c).
Proof.
  intros R Hp B. destruct (sim_step (MThread t c) R) as (s' & ls & a' & g' & ms & F & X & R' & [-> |[-> NI]]).
  - exact (match_now _ _ _ _ _ _ _ _ R F X R').
  - exfalso. destruct (NI t c eq_refl) as (q & Q1 & Q2). rewrite Hp in Q1. injection Q1 as <-. congruence.
Qed.
Lemma not_in_size s t p : others_out t s -> nth_error (pcs s) t = Some (At p) -> between s (At p) = match p with PPut _ | FGet _ | WSize => true | _ => false end.
Proof.
  intros O Hp. destruct p; try reflexivity. cbn [between]. destruct (nth_error (pcs s) 0) as [q|] eqn:Q; [|reflexivity].
  destruct q; try reflexivity. exfalso. destruct t as [|t]; [congruence|]. specialize (O 0 InSize ltac:(discriminate) Q). discriminate O.
Qed.

Lemma match_in N : forall s a g t c p, rel C s a g -> others_out t s -> nth_error (pcs s) t = Some p ->
  match p with InPut _ | InGet _ | InSize => True | _ => False end -> weight s t <= N -> matched s a (MThread t c).
Proof.
  induction N as [|N IH]; intros s a g t c p R O Hp Sh HN.
  - exfalso. rewrite (weight_at s t Hp) in HN. pose proof (rank_ge (RPC s t)). destruct p; try contradiction; cbn [mu] in HN; lia.
  - destruct (sim_step (MThread t c) R) as (s' & ls & a' & g' & ms & F & X & R' & [-> |[-> _]]); [exact (match_now _ _ _ _ _ _ _ _ R F X R')|].
    cbn [exec] in X. injection X as <- <-. assert (Hi : inside p = true) by (destruct p; try contradiction; reflexivity).
    destruct (step_down t c R Hp Hi F) as (p' & Hp' & Ld & W). specialize (W (alone_need R O Hp)). apply (match_later _ _ _ _ F).
    pose proof (@out_step _ _ _ _ _ O F) as O'.
    assert (G : match p' with InPut _ | InGet _ | InSize => True | _ => False end \/ between s' p' = false).
    { destruct p as [ |e| | |k| | |]; try contradiction; cbn [leads] in Ld.
      - destruct Ld as [->|[[i ->]| ->]]; [left; exact I|right; reflexivity|right; reflexivity].
      - destruct Ld as [->|[[i ->]| ->]]; [left; exact I|right; reflexivity|right]. rewrite (not_in_size _ _ _ O' Hp'). unfold after_none. destruct (c_kind C); reflexivity.
      - destruct Ld as [->|[i ->]]; [left; exact I|right]. rewrite (not_in_size _ _ _ O' Hp'). unfold after_size. destruct (Nat.eqb i 0); reflexivity. }
    destruct G as [G|G].
    + apply (IH s' a g' t c p' R' O' Hp' G). lia.
    + exact (match_plain _ _ _ _ _ _ R' Hp' G).
Qed.

Lemma match_call s a g t c p : rel C s a g -> others_out t s -> nth_error (pcs s) t = Some (At p) -> matched s a (MThread t c).
Proof.
  intros R O Hp. destruct (between s (At p)) eqn:B; [|exact (match_plain _ _ _ _ _ _ R Hp B)].
  destruct (sim_step (MThread t c) R) as (s' & ls & a' & g' & ms & F & X & R' & [-> |[-> _]]); [exact (match_now _ _ _ _ _ _ _ _ R F X R')|].
  cbn [exec] in X. injection X as <- <-. apply (match_later _ _ _ _ F). pose proof (@out_step _ _ _ _ _ O F) as O'. rewrite (not_in_size _ _ _ O Hp) in B.
  assert (G : exists p', nth_error (pcs s') t = Some p' /\ match p' with InPut _ | InGet _ | InSize => True | _ => False end).
  { cbn [fstep] in F. rewrite Hp in F. destruct p; try discriminate B; cbn [fstep_thread] in F; unfold call in F;
      (destruct (CircModel.step (c_cap C) (ring s) t _) as [r tr|]; [|discriminate F]); injection F as <-; eexists; cbn [pcs];
      (split; [apply fupd_at; exact (some_lt _ _ Hp)|exact I]). }
  destruct G as (p' & Hp' & G). exact (match_in _ s' _ _ t c _ R' O' Hp' G (le_n _)).
Qed.

Lemma match_alone s a g t c : rel C s a g -> others_out t s -> matched s a (MThread t c).
Proof.
  intros R O. destruct (nth_error (pcs s) t) as [p|] eqn:Hp.
  - destruct p as [p|e|i|i|k|k i|k e i|].
    + exact (match_call _ _ _ _ c _ R O Hp).
    + exact (match_in _ s _ _ t c _ R O Hp I (le_n _)).
    + exact (match_plain _ _ _ _ _ _ R Hp eq_refl).
    + exact (match_plain _ _ _ _ _ _ R Hp eq_refl).
    + exact (match_in _ s _ _ t c _ R O Hp I (le_n _)).
    + exact (match_plain _ _ _ _ _ _ R Hp eq_refl).
    + destruct (sim_step (MThread t c) R) as (s' & ls & a' & g' & ms & F & X & R' & [-> |[-> _]]); [exact (match_now _ _ _ _ _ _ _ _ R F X R')|].
      cbn [exec] in X. injection X as <- <-. apply (match_later _ _ _ _ F). destruct (step_down t c R Hp eq_refl F) as (p' & Hp' & Ld & _). cbn [leads] in Ld. subst p'.
      exact (match_call _ _ _ _ c _ R' (@out_step _ _ _ _ _ O F) Hp').
    + exact (match_in _ s _ _ t c _ R O Hp I (le_n _)).
  - destruct (sim_step (MThread t c) R) as (s' & ls & a' & g' & ms & F & X & R' & [-> |[-> NI]]); [exact (match_now _ _ _ _ _ _ _ _ R F X R')|].
    exfalso. destruct (NI t c eq_refl) as (q & Q1 & Q2). congruence.
Qed.

(** From a moment with nobody in the buffer: any move of the other model, and after some more of
    the same thread nobody is in the buffer. *)
Theorem move_matched s a g m : rel C s a g -> all_out s ->
  exists ms s' ls a' g' more, Forall (fun x => x = m \/ is_go x) ms /\ fexec C s ms = Some (s', ls) /\
    Forall is_go more /\ exec C a (m :: more) = (a', ls) /\ rel C s' a' g' /\ all_out s'.
Proof.
  intros R O. destruct m as [t c|n].
  - assert (O1 : others_out t s) by (intros u p _ Hp; exact (O u p Hp)).
    destruct (match_alone _ _ _ t c R O1) as (k & s1 & l1 & g1 & X1 & R1 & L1 & _).
    destruct (quieten R1 (le_n _)) as (ms & s' & ls & a' & g' & more & G1 & F2 & G2 & E2 & R2 & O2).
    exists (repeat (MThread t c) (S k) ++ ms), s', (l1 ++ ls), a', g', more. split.
    { apply Forall_app. split; [apply Forall_forall; intros x Hx; apply repeat_spec in Hx; now left|]. eapply Forall_impl; [|exact G1]. auto. }
    split.
    { clear - X1 F2. revert s l1 X1. generalize (repeat (MThread t c) (S k)) as l. induction l as [|x l IH]; intros s l1 X1.
      - cbn [fexec] in X1. injection X1 as <- <-. exact F2.
      - cbn [List.app fexec] in *. destruct (fstep C s x) as [[s2 l2]|]; [|discriminate X1]. destruct (fexec C s2 l) as [[s3 l3]|] eqn:Y; [|discriminate X1].
        injection X1 as -> <-. rewrite (IH s2 l3 Y), app_assoc. reflexivity. }
    split; [exact G2|]. split; [|auto]. cbn [exec]. destruct (step C a (MThread t c)) as [b lb]. cbn [fst snd] in *. subst lb. now rewrite E2.
  - destruct (sim_step (MDrain n) R) as (s' & ls & a' & g' & ms & F & X & R' & _). cbn [fstep] in F. injection F as <- <-.
    exists [MDrain n], (mkF (ring s) (strip (fst (step C (rest s) (@MDrain E n)))) (pcs s)), [], (fst (step C a (MDrain n))), g, [].
    split; [repeat constructor|]. split; [reflexivity|]. split; [constructor|]. split; [reflexivity|]. split; [|exact O].
    assert (Z : rel C (mkF (ring s) (strip (fst (step C (rest s) (@MDrain E n)))) (pcs s)) (fst (step C a (MDrain n))) g); [|].
    { destruct R as [R1 R2 R3 R4 R5 R6 R7 R8]. split; auto. cbn [rest]. rewrite R2. reflexivity. }
    exact Z.
Qed.
End End.
