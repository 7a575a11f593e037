From Coq Require Import List Arith NArith Bool Lia.
From Verif Require Import Base LevelModel SinkModel SinkSpec ClockModel ClockSpec TimeClockSpec.
From Verif Require TimeModel TimeSpec TimeProofs.
Import ListNotations.

Section Sim.
Context {E : Type}.
Variable c : TimeModel.cfg E.
Variable T : tcfg E.
Notation C := (t_sink T).
Hypothesis SS : same_sink c T.
Hypothesis CT : countable c.

Lemma crun_app x h y tr h' z tr' : crun T x h y tr -> crun T y h' z tr' -> crun T x (h ++ h') z (tr ++ tr').
Proof.
  intros A B. induction B as [|h1 s tr1 ev s' ls B IH N]; [rewrite !app_nil_r; exact A|].
  rewrite !app_assoc. exact (R_snoc IH N).
Qed.
Lemma go1 x m y ls h z tr : may x m = true -> cstep T x m = (y, ls) -> crun T y h z tr ->
  crun T x ((x, Move m) :: h) z (map (fun l => (now x, l)) ls ++ tr).
Proof. intros A B. apply (crun_app x [(x, Move m)] y (map (fun l => (now x, l)) ls)). exact (R_snoc (R_start T x) (N_move T x m A B)). Qed.
Lemma read1 x h z tr : at_pc (base x) 0 = Some WWait -> until x = None ->
  crun T (mkC (base x) (now x) (next x) (Some (next x))) h z tr -> crun T x ((x, Read) :: h) z tr.
Proof. intros A B. apply (crun_app x [(x, Read)] _ []). exact (R_snoc (R_start T x) (N_read T x A B)). Qed.

Lemma cgo (x : cstate E) t ch (p : pc E) : nth_error (thr (base x)) t = Some p -> cstep T x (MThread t ch) =
  let '(b, ls) := step_thread C (base x) t ch p in
  (mkC b (now x) (match p with FWrite _ (Some _) => now x + t_lat T
                  | FWrite _ None => if t_tiny T || Nat.leb (next x) (now x) then now x + t_lat T else next x
                  | _ => next x end) (match p with WWait => None | _ => until x end), ls).
Proof. intros H. unfold cstep, step, next_after, until_after, at_pc. rewrite H. reflexivity. Qed.
Lemma may_go (x : cstate E) t ch (p : pc E) : nth_error (thr (base x)) t = Some p -> match p with WWait => false | _ => true end = true -> may x (MThread t ch) = true.
Proof. intros H N. unfold may, at_pc. rewrite H. destruct p; try reflexivity. discriminate. Qed.

Lemma upd_at (l : list (pc E)) t p : t < length l -> nth_error (upd l t p) t = Some p.
Proof. revert t; induction l as [|a l IH]; intros [|t] H; cbn in *; try lia; [reflexivity|apply IH; lia]. Qed.
Lemma upd_upd (l : list (pc E)) t a b : upd (upd l t a) t b = upd l t b.
Proof. revert t; induction l as [|x l IH]; intros [|t]; cbn; try reflexivity. now rewrite IH. Qed.
Lemma upd_len (l : list (pc E)) t a : length (upd l t a) = length l.
Proof. revert t; induction l as [|x l IH]; intros [|t]; cbn; auto. Qed.

(** The states met. *)
Definition B (lk : bool) (qs : list (entry E)) (sz : N) (nf fi : bool) (cu ob : bytes) (th : list (pc E)) (ac : list (nat * E)) (hc : list E) : state E :=
  mkSt qs sz lk nf false fi true [] cu ob th ac [] hc [].

(** Nothing but steps of threads, nothing spurious. *)
Definition tame (h : list (cstate E * event E)) : Prop :=
  Forall (fun x => match snd x with Move m => spurious m = false | Read => True | Tick _ => False end) h.
Definition obs (h : list (cstate E * event E)) (tr : list (nat * label E)) (w : nat) (a r : list (nat * E)) : Prop :=
  tame h /\ wakes h = w /\ accepted_at tr = a /\ written_at tr = r.

Lemma obs_nil : obs [] [] 0 [] [].
Proof. repeat split. constructor. Qed.
Lemma obs_go x m h tr w a r ls : spurious m = false -> wakes_now (x, Move m) = false -> obs h tr w a r ->
  obs ((x, Move m) :: h) (map (fun l => (now x, l)) ls ++ tr) w (accepted_at (map (fun l => (now x, l)) ls) ++ a) (written_at (map (fun l => (now x, l)) ls) ++ r).
Proof.
  intros S W (A & A2 & A3 & A4). split; [constructor; [exact S|exact A]|]. split; [unfold wakes; cbn [filter]; rewrite W; exact A2|].
  unfold accepted_at, written_at in *. rewrite !flat_map_app, A3, A4. split; reflexivity.
Qed.
Lemma obs_read x h tr w a r : obs h tr w a r -> obs ((x, Read) :: h) tr w a r.
Proof.
  intros (A & A2 & A3 & A4). split; [constructor; [exact I|exact A]|]. split; [|split; assumption].
  unfold wakes, wakes_now in *. cbn [filter snd]. destruct (nth_error (thr (base (fst (x, Read)))) 0) as [[]|]; exact A2.
Qed.

Definition reaches (x y : cstate E) (w : nat) (a r : list (nat * E)) : Prop := exists h tr, crun T x h y tr /\ obs h tr w a r.

Lemma reaches_nil x : reaches x x 0 [] [].
Proof. exists [], []. split; [constructor|exact obs_nil]. Qed.
Lemma reaches_go x t ch p b ls z w a r nx un : nth_error (thr (base x)) t = Some p -> p <> WWait ->
  match ch with CGo true => False | _ => True end ->
  step_thread C (base x) t ch p = (b, ls) ->
  nx = (match p with FWrite _ (Some _) => now x + t_lat T
                  | FWrite _ None => if t_tiny T || Nat.leb (next x) (now x) then now x + t_lat T else next x
                  | _ => next x end) -> un = until x ->
  reaches (mkC b (now x) nx un) z w a r ->
  reaches x z w (accepted_at (map (fun l => (now x, l)) ls) ++ a) (written_at (map (fun l => (now x, l)) ls) ++ r).
Proof.
  intros Hp Np Hc S Hx Hu (h & tr & R & O). exists ((x, Move (MThread t ch)) :: h), (map (fun l => (now x, l)) ls ++ tr). split.
  - apply (go1 _ _ (mkC b (now x) nx un) ls).
    + apply (may_go x t ch p Hp). destruct p; congruence.
    + rewrite (cgo x t ch p Hp), S, Hx, Hu. destruct p; try reflexivity; contradiction.
    + exact R.
  - apply obs_go; [|unfold wakes_now; cbn [fst snd]|exact O].
    + unfold spurious. destruct ch as [| | | | |[|]| | |]; try reflexivity. contradiction.
    + destruct t as [|t]; [rewrite Hp; destruct p; try reflexivity; congruence|]. destruct (nth_error (thr (base x)) 0) as [[]|]; destruct ch as [| | | | | | |[]|]; reflexivity.
Qed.
Lemma reaches_trans x y z w a r w' a' r' : reaches x y w a r -> reaches y z w' a' r' -> reaches x z (w + w') (a ++ a') (r ++ r').
Proof.
  intros (h & tr & R & A1 & A2 & A3 & A4) (h' & tr' & R' & B1 & B2 & B3 & B4). exists (h ++ h'), (tr ++ tr'). split; [exact (crun_app _ _ _ _ _ _ _ R R')|].
  split; [apply Forall_app; auto|]. split; [unfold wakes in *; rewrite filter_app, app_length; lia|].
  unfold accepted_at, written_at in *. rewrite !flat_map_app. split; congruence.
Qed.

Lemma reaches_eq x y y' w w' a a' r r' : reaches x y w a r -> y = y' -> w = w' -> a = a' -> r = r' -> reaches x y' w' a' r'.
Proof. intros; subst; assumption. Qed.

Ltac pc_here := cbn [base B thr s_thr s_q s_flags s_out s_acc]; first [eassumption | apply upd_at; rewrite ?upd_len; assumption].
Ltac flat := unfold B, s_thr, s_q, s_flags, s_out, s_acc; cbn [base q size fip ntf ntr fin opened closed cur obuf thr acc h_closed h_cur h_drop now next until]; rewrite ?upd_upd.
Ltac go t ch := flat; eapply (reaches_go _ t ch); [pc_here | discriminate | exact I | | reflexivity | reflexivity | ].
Ltac done := cbn [step_thread B fip q q_stage opened ntf ntr fin base s_thr s_q s_flags s_out s_acc thr size]; repeat match goal with K : c_kind _ = _ |- _ => rewrite K; clear K end; reflexivity.

Definition published (l : list (entry E)) : Prop := Forall (fun x => q_stage x = Published) l.

Lemma flush_one t k x qs sz nf fi cu ob th ac hc nw nx u : nth_error th t = Some (FTas k) -> q_stage x = Published ->
  reaches (mkC (B false (x :: qs) sz nf fi cu ob th ac hc) nw nx u)
    (mkC (B false qs ((sz + (M64 - c_msize C (q_ev x))) mod M64)%N false fi (if nf then cu ++ ob ++ c_render C (q_ev x) else cu) (if nf then [] else ob ++ c_render C (q_ev x))
       (upd th t (after_flush k)) ac (hc ++ [q_ev x])) nw (nw + t_lat T) u) 0 [] [(nw, q_ev x)].
Proof.
  intros H P. assert (Lt : t < length th) by (apply nth_error_Some; congruence). pose proof (k_sink _ _ SS) as NS.
  assert (R0 : forall k, accepted_at (map (fun l => (nw, l)) (@ret_label E t k)) = [] /\ written_at (map (fun l => (nw, l)) (@ret_label E t k)) = []) by (intros []; split; reflexivity).
  destruct nf; (destruct (c_kind C) eqn:K; [| |congruence]); (eapply reaches_eq;
    [go t (@CGo E false); [done|];
     go t (@CGo E false); [cbn [step_thread B q q_stage base]; rewrite P; reflexivity|];
     go t (@CGo E false); [done|]; go t (@CGo E false); [done|]; go t (@CGo E false); [done|]; go t (@CGo E false); [done|];
     first [go t (@CGo E false); [done|]; go t (@CGo E false); [done|]; flat; apply reaches_nil | go t (@CGo E false); [done|]; flat; apply reaches_nil | flat; apply reaches_nil]
    |unfold B; reflexivity|reflexivity| | ]).
  all: cbn [map List.app accepted_at written_at flat_map snd fst].
  all: try (rewrite ?app_nil_r; apply (R0 k)).
  all: try (f_equal; rewrite ?app_nil_r; apply (R0 k)).
Qed.

Lemma flush_none t k sz nf fi cu ob th ac hc nw nx u : nth_error th t = Some (FTas k) ->
  reaches (mkC (B false [] sz nf fi cu ob th ac hc) nw nx u)
    (mkC (B false [] sz nf fi cu ob (upd th t (after_flush k)) ac hc) nw (if t_tiny T || Nat.leb nx nw then nw + t_lat T else nx) u) 0 [] [].
Proof.
  intros H. assert (Lt : t < length th) by (apply nth_error_Some; congruence). pose proof (k_sink _ _ SS) as NS.
  assert (R0 : forall k, accepted_at (map (fun l => (nw, l)) (@ret_label E t k)) = [] /\ written_at (map (fun l => (nw, l)) (@ret_label E t k)) = []) by (intros []; split; reflexivity).
  (destruct (c_kind C) eqn:K; [| |congruence]); (eapply reaches_eq; [
     go t (@CGo E false); [done|]; go t (@CGo E false); [done|]; go t (@CGo E false); [done|]; go t (@CGo E false); [done|];
     first [go t (@CGo E false); [done|]; flat; apply reaches_nil | flat; apply reaches_nil]
    |unfold B; reflexivity|reflexivity| | ]).
  all: cbn [map List.app accepted_at written_at flat_map snd fst].
  all: try (rewrite ?app_nil_r; apply (R0 k)).
Qed.

Lemma stage_other n st l : Forall (fun x : entry E => q_no x < n) l -> set_stage n st l = l.
Proof.
  induction 1 as [|x l H F IH]; [reflexivity|]. unfold set_stage in *. cbn [map]. rewrite IH. destruct (Nat.eqb_spec (q_no x) n); [lia|reflexivity].
Qed.
Lemma stage_last n st st' e l : Forall (fun x : entry E => q_no x < n) l -> set_stage n st (l ++ [mkEntry n e st']) = l ++ [mkEntry n e st].
Proof. intros F. unfold set_stage. rewrite map_app. fold (set_stage n st l). rewrite (stage_other n st l F). cbn [map q_no q_ev]. now rewrite Nat.eqb_refl. Qed.

Lemma put_one e qs sz nf fi cu ob w ac hc nw nx u : length qs < c_cap C -> Forall (fun x => q_no x < length ac) qs ->
  let sz' := ((sz + c_msize C e) mod M64)%N in
  reaches (mkC (B false qs sz nf fi cu ob [w; PPut e] ac hc) nw nx u)
    (mkC (B false (qs ++ [mkEntry (length ac) e Published]) sz' (if N.leb (c_threshold C) sz' then true else nf) fi cu ob [w; Idle] (ac ++ [(1, e)]) hc) nw nx u)
    0 [(nw, e)] [].
Proof.
  intros Hl F sz'. assert (Lt : 1 < length [w; PPut e]) by (cbn; lia). assert (H : nth_error [w; PPut e] 1 = Some (PPut e)) by reflexivity.
  pose proof (k_lat0 _ _ SS) as L0. apply Nat.ltb_lt in Hl.
  destruct (N.leb (c_threshold C) sz') eqn:Th; (eapply reaches_eq; [
    go 1 (@CGo E false); [cbn [step_thread B q base]; rewrite Hl; reflexivity|];
    go 1 (@CGo E false); [done|]; go 1 (@CGo E false); [done|];
    go 1 (@CGo E false); [cbn [step_thread B s_thr s_q s_acc size base acc]; rewrite L0; fold sz'; rewrite Th; reflexivity|]; apply reaches_nil|..]).
  all: try reflexivity.
  all: unfold B, s_thr, s_q, s_flags, s_out, s_acc; cbn [base q size fip ntf ntr fin opened closed cur obuf thr acc h_closed h_cur h_drop upd now next until]; rewrite !(stage_last _ _ _ _ _ F); reflexivity.
Qed.

(** What the operating system has, and what the stream still holds. *)
Notation text := (flat_map (fun i : TimeModel.item E * nat => c_render C (TimeModel.i_event (fst i)))).
Definition file (s : TimeModel.state E) : bytes := text (firstn (TimeModel.durable s) (TimeModel.written s)).
Definition stream (s : TimeModel.state E) : bytes := text (skipn (TimeModel.durable s) (TimeModel.written s)).

Definition worker_at (k : TimeModel.worker) (w : pc E) (u : option nat) : Prop :=
  match k with
  | TimeModel.Waiting _ v => w = WWait /\ u = Some v
  | TimeModel.Running => w = FTas KWorker /\ u = None
  | TimeModel.Stopped => w = WDone
  end.

Definition core (th : list (pc E)) (u : option nat) (s : TimeModel.state E) (x : cstate E) : Prop :=
  exists qs ac hc,
    x = mkC (B false qs (N.of_nat (TimeModel.pending c (TimeModel.queue s))) (TimeModel.must_flush s) (TimeModel.finalize s) (file s) (stream s) th ac hc)
            (TimeModel.now s) (TimeModel.next s) u /\
    published qs /\ Forall (fun x => q_no x < length ac) qs /\ map (@q_ev E) qs = map (@TimeModel.i_event E) (TimeModel.queue s) /\
    TimeModel.durable s <= length (TimeModel.written s) /\ length (TimeModel.queue s) <= TimeModel.c_capacity c.

Definition wr (x : TimeModel.item E * nat) : nat * E := (snd x, TimeModel.i_event (fst x)).
Definition ac (i : TimeModel.item E) : nat * E := (TimeModel.i_at i, TimeModel.i_event i).
Definition all (s : TimeModel.state E) : list (TimeModel.item E) := map fst (TimeModel.written s) ++ TimeModel.queue s.

Lemma pending_fits (l : list (TimeModel.item E)) : length l <= TimeModel.c_capacity c -> (N.of_nat (TimeModel.pending c l) < M64)%N.
Proof.
  intros H. unfold M64.
  assert (M : forall l : list (TimeModel.item E), l = [] \/ exists i, TimeModel.pending c l <= length l * TimeModel.c_size c (TimeModel.i_event i)).
  { clear. assert (G : forall l : list (TimeModel.item E), l = [] \/ exists i, forall j, In j l -> TimeModel.c_size c (TimeModel.i_event j) <= TimeModel.c_size c (TimeModel.i_event i)).
    { induction l as [|i l IH]; [now left|right]. destruct IH as [->|(m & Hm)]; [exists i; intros j [<-|[]]; apply le_n|].
      destruct (Nat.le_ge_cases (TimeModel.c_size c (TimeModel.i_event i)) (TimeModel.c_size c (TimeModel.i_event m))) as [Q|Q].
      - exists m. intros j [<-|Hj]; auto.
      - exists i. intros j [<-|Hj]; [apply le_n|]. specialize (Hm j Hj). lia. }
    intros l. destruct (G l) as [->|(m & Hm)]; [now left|right]. exists m. revert Hm. generalize (TimeModel.c_size c (TimeModel.i_event m)). intros b.
    unfold TimeModel.pending. induction l as [|i l IH]; intros Hm; [apply le_n|]. cbn [map length Nat.mul]. unfold list_sum in *. cbn [fold_right].
    pose proof (Hm i (or_introl eq_refl)). specialize (IH (fun j Hj => Hm j (or_intror Hj))). lia. }
  destruct (M l) as [->|(i & Hi)]; [reflexivity|]. specialize (CT (TimeModel.i_event i)).
  assert (length l * TimeModel.c_size c (TimeModel.i_event i) <= TimeModel.c_capacity c * TimeModel.c_size c (TimeModel.i_event i)) by (apply Nat.mul_le_mono_r; exact H). lia.
Qed.

Lemma flush_core th t k u s x : core th u s x -> nth_error th t = Some (FTas k) ->
  exists x' r, reaches x x' 0 [] r /\ core (upd th t (after_flush k)) u (TimeModel.flush c s) x' /\
    map wr (TimeModel.written (TimeModel.flush c s)) = map wr (TimeModel.written s) ++ r /\ all (TimeModel.flush c s) = all s /\
    TimeModel.now (TimeModel.flush c s) = TimeModel.now s /\ TimeModel.work (TimeModel.flush c s) = TimeModel.work s /\
    TimeModel.finalize (TimeModel.flush c s) = TimeModel.finalize s /\ length (TimeModel.queue (TimeModel.flush c s)) = length (TimeModel.queue s) - 1.
Proof.
  intros (qs & ac0 & hc & -> & P & F & Ev & D & Ln) Ht. unfold TimeModel.flush. rewrite (k_time _ _ SS). unfold TimeModel.flush_buffered.
  destruct (TimeModel.queue s) as [|i q'] eqn:Q.
  - destruct qs; [|discriminate Ev]. eexists _, []. split; [apply (flush_none t k); exact Ht|].
    split; [|cbn [TimeModel.written TimeModel.now TimeModel.work TimeModel.finalize TimeModel.queue]; rewrite app_nil_r; unfold all; cbn [TimeModel.written TimeModel.queue]; rewrite Q; auto 10].
    exists [], ac0, hc. unfold file, stream.
    cbn [TimeModel.queue TimeModel.must_flush TimeModel.finalize TimeModel.now TimeModel.next TimeModel.written TimeModel.durable].
    split; [rewrite (k_tiny _ _ SS), (k_lat _ _ SS); reflexivity|]. repeat split; auto; constructor.
  - destruct qs as [|y qs]; [discriminate Ev|]. cbn [map] in Ev. injection Ev as E1 E2. inversion P as [|? ? P1 P2]; subst. inversion F as [|? ? F1 F2]; subst.
    eexists _, _. split; [apply (flush_one t k); [exact Ht|exact P1]|].
    split.
    + exists qs, ac0, (hc ++ [q_ev y]). unfold file, stream.
      cbn [TimeModel.queue TimeModel.must_flush TimeModel.finalize TimeModel.now TimeModel.next TimeModel.written TimeModel.durable].
      rewrite E1, (k_size _ _ SS), (k_lat _ _ SS).
      assert (Pd : ((N.of_nat (TimeModel.pending c (i :: q')) + (M64 - N.of_nat (TimeModel.c_size c (TimeModel.i_event i)))) mod M64)%N = N.of_nat (TimeModel.pending c q')).
      { pose proof (pending_fits (i :: q') Ln) as P0. change (TimeModel.pending c (i :: q')) with (TimeModel.c_size c (TimeModel.i_event i) + TimeModel.pending c q') in *.
        replace (N.of_nat (TimeModel.c_size c (TimeModel.i_event i) + TimeModel.pending c q') + (M64 - N.of_nat (TimeModel.c_size c (TimeModel.i_event i))))%N
          with (N.of_nat (TimeModel.pending c q') + 1 * M64)%N by lia. rewrite N.mod_add by discriminate. apply N.mod_small. lia. }
      rewrite Pd. cbn [length] in Ln.
      assert (Ap : text (firstn (TimeModel.durable s) (TimeModel.written s)) ++ text (skipn (TimeModel.durable s) (TimeModel.written s)) = text (TimeModel.written s)) by (rewrite <- flat_map_app, firstn_skipn; reflexivity).
      destruct (TimeModel.must_flush s).
      * rewrite firstn_all, skipn_all, flat_map_app. cbn [flat_map]. rewrite app_nil_r, app_assoc, Ap. cbn [fst].
        repeat split; auto. lia.
      * rewrite firstn_app, skipn_app. replace (TimeModel.durable s - length (TimeModel.written s)) with 0 by lia. cbn [firstn skipn]. rewrite app_nil_r, flat_map_app.
        cbn [flat_map fst]. rewrite app_nil_r. repeat split; auto; [rewrite app_length; lia|lia].
    + cbn [TimeModel.written TimeModel.now TimeModel.work TimeModel.finalize TimeModel.queue]. rewrite map_app. cbn [map]. unfold wr at 2. cbn [fst snd]. rewrite E1.
      split; [reflexivity|]. split; [unfold all; cbn [TimeModel.written TimeModel.queue]; rewrite map_app, Q; cbn [map fst]; rewrite <- app_assoc; reflexivity|]. cbn [length]. repeat split. lia.
Qed.

Lemma put_core w u s x e : core [w; PPut e] u s x -> length (TimeModel.queue s) < TimeModel.c_capacity c ->
  exists x', reaches x x' 0 [(TimeModel.now s, e)] [] /\ core [w; Idle] u (TimeModel.put c e s) x' /\
    TimeModel.written (TimeModel.put c e s) = TimeModel.written s /\ all (TimeModel.put c e s) = all s ++ [TimeModel.mkItem e (TimeModel.now s) (length (TimeModel.queue s))] /\
    TimeModel.finalize (TimeModel.put c e s) = TimeModel.finalize s /\ (forall v, worker_at (TimeModel.work s) w v -> worker_at (TimeModel.work (TimeModel.put c e s)) w v).
Proof.
  intros (qs & ac0 & hc & -> & P & F & Ev & D & Ln) Hl.
  assert (Lq : length qs = length (TimeModel.queue s)) by (rewrite <- (map_length (@q_ev E)), Ev, map_length; reflexivity).
  eexists. split; [apply put_one; [rewrite (k_cap _ _ SS); lia|exact F]|].
  set (i := TimeModel.mkItem e (TimeModel.now s) (length (TimeModel.queue s))).
  assert (Pd : ((N.of_nat (TimeModel.pending c (TimeModel.queue s)) + c_msize C e) mod M64)%N = N.of_nat (TimeModel.pending c (TimeModel.queue s ++ [i]))).
  { rewrite (k_size _ _ SS). assert (Q : TimeModel.pending c (TimeModel.queue s ++ [i]) = TimeModel.pending c (TimeModel.queue s) + TimeModel.c_size c e).
    { unfold TimeModel.pending. rewrite map_app, list_sum_app. cbn [map list_sum fold_right TimeModel.i_event i]. unfold list_sum. cbn [fold_right]. lia. }
    rewrite Q, Nnat.Nat2N.inj_add. apply N.mod_small. rewrite <- Nnat.Nat2N.inj_add, <- Q. apply pending_fits. rewrite app_length. cbn [length]. lia. }
  rewrite Pd, (k_threshold _ _ SS).
  assert (Th : N.leb (N.of_nat (TimeModel.c_threshold c)) (N.of_nat (TimeModel.pending c (TimeModel.queue s ++ [i]))) = Nat.leb (TimeModel.c_threshold c) (TimeModel.pending c (TimeModel.queue s ++ [i]))).
  { destruct (Nat.leb_spec (TimeModel.c_threshold c) (TimeModel.pending c (TimeModel.queue s ++ [i]))); [apply N.leb_le|apply N.leb_gt]; lia. }
  rewrite Th. unfold TimeModel.put. fold i. cbn [TimeModel.queue].
  assert (Fs : Forall (fun x => q_no x < length (ac0 ++ [(1, e)])) (qs ++ [mkEntry (length ac0) e Published])).
  { apply Forall_app. rewrite app_length. cbn [length]. split; [eapply Forall_impl; [|exact F]; cbn; intros; lia|constructor; [cbn; lia|constructor]]. }
  assert (Ps : published (qs ++ [mkEntry (length ac0) e Published])) by (apply Forall_app; split; [exact P|constructor; [reflexivity|constructor]]).
  assert (Es : map (@q_ev E) (qs ++ [mkEntry (length ac0) e Published]) = map (@TimeModel.i_event E) (TimeModel.queue s ++ [i])) by (rewrite !map_app, Ev; reflexivity).
  assert (Ls : length (TimeModel.queue s ++ [i]) <= TimeModel.c_capacity c) by (rewrite app_length; cbn [length]; lia).
  destruct (Nat.leb (TimeModel.c_threshold c) (TimeModel.pending c (TimeModel.queue s ++ [i]))).
  - split; [|cbn; unfold all, TimeModel.async_flush; cbn; repeat split; [rewrite app_assoc; reflexivity|intros v; destruct (TimeModel.work s); exact (fun h => h)]].
    exists (qs ++ [mkEntry (length ac0) e Published]), (ac0 ++ [(1, e)]), hc. split; [reflexivity|]. auto.
  - split; [|cbn; unfold all; cbn; repeat split; [rewrite app_assoc; reflexivity|exact (fun v h => h)]].
    exists (qs ++ [mkEntry (length ac0) e Published]), (ac0 ++ [(1, e)]), hc. split; [reflexivity|]. auto.
Qed.

Definition sim (s : TimeModel.state E) (x : cstate E) : Prop :=
  exists w u, core [w; if TimeModel.finalize s then DJoin else Idle] u s x /\ worker_at (TimeModel.work s) w u.

Definition woke (l : TimeModel.label E) : nat := match l with TimeModel.Wake => 1 | _ => 0 end.

(** One thing that happens in the model in time is an execution of the other model. *)
Definition follows (s : TimeModel.state E) (l : TimeModel.label E) (s' : TimeModel.state E) (x : cstate E) : Prop :=
  exists h tr x', crun T x h x' tr /\ sim s' x' /\ steady h /\ (TimeSpec.fast (s, l) -> quick h) /\ wakes h = woke l /\
    map ac (all s') = map ac (all s) ++ accepted_at tr /\ map wr (TimeModel.written s') = map wr (TimeModel.written s) ++ written_at tr.

Lemma by_steps s l s' x x' a r : reaches x x' (woke l) a r -> sim s' x' -> map ac (all s') = map ac (all s) ++ a ->
  map wr (TimeModel.written s') = map wr (TimeModel.written s) ++ r -> follows s l s' x.
Proof.
  intros (h & tr & R & A1 & A2 & A3 & A4) S Ha Hr. exists h, tr, x'. split; [exact R|]. split; [exact S|].
  split; [eapply Forall_impl; [|exact A1]; intros [y ev]; cbn [snd]; destruct ev; tauto|].
  split; [intros _; eapply Forall_impl; [|exact A1]; intros [y ev] Z; unfold calm; cbn [snd] in *; destruct ev; tauto|].
  split; [exact A2|]. rewrite A3, A4. auto.
Qed.

Lemma follow_push s x e : sim s x -> TimeModel.finalize s = false -> follows s (TimeModel.Push e) (TimeModel.push c e s) x.
Proof.
  intros (w & u & Co & Wk) Fi. rewrite Fi in Co. destruct (k_level _ _ SS) as (lv & Lv). pose proof (k_place _ _ SS) as Pl.
  destruct Co as (qs & ac0 & hc & -> & P & F & Ev & D & Ln).
  assert (Co1 : core [w; PPut e] u s (mkC (B false qs (N.of_nat (TimeModel.pending c (TimeModel.queue s))) (TimeModel.must_flush s) (TimeModel.finalize s) (file s) (stream s) [w; PPut e] ac0 hc)
            (TimeModel.now s) (TimeModel.next s) u)) by (exists qs, ac0, hc; auto 10).
  assert (St : forall z n a r, reaches (mkC (B false qs (N.of_nat (TimeModel.pending c (TimeModel.queue s))) (TimeModel.must_flush s) (TimeModel.finalize s) (file s) (stream s) [w; PPut e] ac0 hc)
            (TimeModel.now s) (TimeModel.next s) u) z n a r ->
     reaches (mkC (B false qs (N.of_nat (TimeModel.pending c (TimeModel.queue s))) (TimeModel.must_flush s) (TimeModel.finalize s) (file s) (stream s) [w; Idle] ac0 hc)
            (TimeModel.now s) (TimeModel.next s) u) z n a r).
  { intros z n a r R. eapply reaches_eq; [|reflexivity|reflexivity| |].
    - eapply (reaches_go _ 1 (CPush lv e)); [reflexivity|discriminate|exact I|cbn [step_thread alive base B thr tl forallb destroying negb andb Nat.eqb]; rewrite Lv; reflexivity|reflexivity|reflexivity|exact R].
    - reflexivity.
    - reflexivity. }
  unfold TimeModel.push. destruct (Nat.ltb_spec (length (TimeModel.queue s)) (TimeModel.c_capacity c)) as [Hl|Hl].
  - destruct (put_core w u s _ e Co1 Hl) as (x' & R & Co2 & H1 & H2 & H3 & H4).
    apply (by_steps s (TimeModel.Push e) _ _ x' _ _ (St _ _ _ _ R)).
    + exists w, u. rewrite H3, Fi. split; [exact Co2|]. apply H4, Wk.
    + rewrite H2, map_app. reflexivity.
    + rewrite H1, app_nil_r. reflexivity.
  - assert (Lq : length qs = length (TimeModel.queue s)) by (rewrite <- (map_length (@q_ev E)), Ev, map_length; reflexivity).
    assert (Co3 : core [w; FTas (KRetry e)] u s (mkC (B false qs (N.of_nat (TimeModel.pending c (TimeModel.queue s))) (TimeModel.must_flush s) (TimeModel.finalize s) (file s) (stream s) [w; FTas (KRetry e)] ac0 hc)
            (TimeModel.now s) (TimeModel.next s) u)) by (exists qs, ac0, hc; auto 10).
    destruct (flush_core _ 1 (KRetry e) u s _ Co3 eq_refl) as (x1 & r1 & R1 & Co4 & G1 & G2 & G3 & G4 & G5 & G6). cbn [upd after_flush] in Co4.
    destruct (put_core w u _ x1 e Co4) as (x' & R & Co2 & H1 & H2 & H3 & H4); [rewrite G6; lia|].
    eapply by_steps.
    + cbn [woke]. apply St. eapply reaches_eq; [eapply (reaches_go _ 1 (CGo false)); [reflexivity|discriminate|exact I| |reflexivity|reflexivity|]|reflexivity| | |].
      * cbn [step_thread base B q]. rewrite (proj2 (Nat.ltb_ge (length qs) (c_cap C))) by (rewrite (k_cap _ _ SS); lia). reflexivity.
      * cbn [s_thr B base q size fip ntf ntr fin opened closed cur obuf thr acc h_closed h_cur h_drop upd now next until]. exact (reaches_trans _ _ _ _ _ _ _ _ _ R1 R).
      * reflexivity.
      * reflexivity.
      * reflexivity.
    + exists w, u. rewrite H3, G5, Fi. split; [exact Co2|]. apply H4. rewrite G4. exact Wk.
    + rewrite H2, G2, map_app, G3. reflexivity.
    + rewrite H1, G1, app_nil_r. reflexivity.
Qed.

Ltac step1 t ch := flat; eapply (reaches_go _ t ch); [reflexivity|discriminate|exact I| |reflexivity|reflexivity|cbn [upd]].
Ltac plain := flat; cbn [upd].

Lemma follow_flush s x : sim s x -> TimeModel.finalize s = false -> follows s TimeModel.Flush (TimeModel.flush c s) x.
Proof.
  intros (w & u & Co & Wk) Fi. rewrite Fi in Co. destruct Co as (qs & ac0 & hc & -> & P & F & Ev & D & Ln).
  assert (Co1 : core [w; FTas KReturn] u s (mkC (B false qs (N.of_nat (TimeModel.pending c (TimeModel.queue s))) (TimeModel.must_flush s) (TimeModel.finalize s) (file s) (stream s) [w; FTas KReturn] ac0 hc)
            (TimeModel.now s) (TimeModel.next s) u)) by (exists qs, ac0, hc; auto 10).
  destruct (flush_core _ 1 KReturn u s _ Co1 eq_refl) as (x1 & r1 & R1 & Co4 & G1 & G2 & G3 & G4 & G5 & G6). cbn [upd after_flush] in Co4.
  eapply by_steps.
  - eapply reaches_eq; [step1 1 (@CFlush E); [reflexivity|plain; exact R1]|reflexivity..].
  - exists w, u. rewrite G5, Fi, G4. auto.
  - rewrite G2. cbn. rewrite app_nil_r. reflexivity.
  - exact G1.
Qed.

Lemma notify_at k w u : worker_at k w u -> worker_at (TimeModel.notify k) w u.
Proof. destruct k; exact (fun h => h). Qed.

Lemma follow_async s x : sim s x -> TimeModel.finalize s = false -> follows s TimeModel.AsyncFlush (TimeModel.async_flush s) x.
Proof.
  intros (w & u & Co & Wk) Fi. rewrite Fi in Co. destruct Co as (qs & ac0 & hc & -> & P & F & Ev & D & Ln). pose proof (k_lat0 _ _ SS) as L0.
  eapply by_steps.
  - eapply reaches_eq; [step1 1 (@CAsync E); [reflexivity|step1 1 (@CGo E false); [cbn [step_thread base]; rewrite L0; reflexivity|plain; apply reaches_nil]]|reflexivity..].
  - exists w, u. cbn [TimeModel.async_flush TimeModel.finalize TimeModel.work]. rewrite Fi. split; [|apply notify_at, Wk].
    exists qs, ac0, hc. cbn [TimeModel.async_flush TimeModel.finalize TimeModel.queue TimeModel.must_flush TimeModel.now TimeModel.next]. rewrite ?Fi. split; [reflexivity|]. auto.
  - cbn. rewrite app_nil_r. reflexivity.
  - cbn. rewrite app_nil_r. reflexivity.
Qed.

Lemma follow_destroy s x : sim s x -> TimeModel.finalize s = false ->
  follows s TimeModel.Destroy (TimeModel.async_flush (TimeModel.mkState (TimeModel.now s) (TimeModel.next s) (TimeModel.queue s) (TimeModel.written s) (TimeModel.durable s)
                                         (TimeModel.must_flush s) true (TimeModel.work s))) x.
Proof.
  intros (w & u & Co & Wk) Fi. rewrite Fi in Co. destruct Co as (qs & ac0 & hc & -> & P & F & Ev & D & Ln). pose proof (k_lat0 _ _ SS) as L0.
  eapply by_steps.
  - eapply reaches_eq; [step1 1 (@CDestroy E); [cbn [step_thread base clients_idle thr tl forallb is_idle andb Nat.eqb negb]; rewrite L0; reflexivity|
      step1 1 (@CGo E false); [reflexivity|step1 1 (@CGo E false); [reflexivity|plain; apply reaches_nil]]]|reflexivity..].
  - exists w, u. cbn [TimeModel.async_flush TimeModel.finalize TimeModel.work]. split; [|apply notify_at, Wk].
    exists qs, ac0, hc. split; [reflexivity|]. auto.
  - cbn. rewrite app_nil_r. reflexivity.
  - cbn. rewrite app_nil_r. reflexivity.
Qed.

Lemma follow_tick s x d : sim s x -> follows s (TimeModel.Tick d) (TimeModel.mkState (TimeModel.now s + d) (TimeModel.next s) (TimeModel.queue s) (TimeModel.written s) (TimeModel.durable s)
                                        (TimeModel.must_flush s) (TimeModel.finalize s) (TimeModel.work s)) x.
Proof.
  intros (w & u & (qs & ac0 & hc & -> & P & F & Ev & D & Ln) & Wk). eexists [(_, Tick d)], [], _.
  split; [exact (R_snoc (R_start T _) (N_tick T _ d))|]. split; [exists w, u; split; [exists qs, ac0, hc; split; [reflexivity|auto]|exact Wk]|].
  split; [constructor; [exact I|constructor]|]. split.
  - intros Ff. constructor; [|constructor]. unfold calm, TimeSpec.fast in *. cbn [fst snd base B thr nth_error fip until now] in *.
    destruct (TimeModel.work s) as [[|] v| |]; cbn [worker_at] in Wk; [left; exact Ff| |left; exact Ff|].
    + destruct Wk as [-> ->]. right. auto.
    + subst w. right. auto.
  - split; [cbn; destruct w; reflexivity|]. cbn. rewrite !app_nil_r. auto.
Qed.

Lemma reaches_wake s qs nf fi cu ob p ac0 hc nw nx u v (b : bool) z n a r :
  (b = true -> v <= nw) -> u = Some v ->
  reaches (mkC (B false qs s nf fi cu ob [(if b then FTas KWorker else if nf || fi then FTas KWorker else WWait); p] ac0 hc) nw nx None) z n a r ->
  reaches (mkC (B false qs s nf fi cu ob [WWait; p] ac0 hc) nw nx u) z ((if b then 1 else 0) + n) a r.
Proof.
  intros Hb -> (h & tr & R & A1 & A2 & A3 & A4).
  eexists ((_, Move (MThread 0 (CWake b))) :: h), tr. split.
  - refine (go1 _ (MThread 0 (CWake b)) _ [] _ _ _ _ _ R); [unfold may, at_pc; cbn [base B thr nth_error until now]; destruct b; [apply Nat.leb_le; auto|reflexivity]|].
    rewrite (cgo _ 0 _ WWait) by reflexivity. cbn [step_thread]. destruct b; [reflexivity|]. cbn [base B ntf fin]. destruct (nf || fi); reflexivity.
  - split; [constructor; [destruct b; reflexivity|exact A1]|]. split; [unfold wakes in *; cbn [filter]; destruct b; cbn; lia|]. auto.
Qed.
Lemma reaches_read s qs nf fi cu ob p ac0 hc nw nx z n a r :
  reaches (mkC (B false qs s nf fi cu ob [WWait; p] ac0 hc) nw nx (Some nx)) z n a r ->
  reaches (mkC (B false qs s nf fi cu ob [WWait; p] ac0 hc) nw nx None) z n a r.
Proof. intros (h & tr & R & O). eexists _, tr. split; [apply read1; [reflexivity|reflexivity|exact R]|apply obs_read; exact O]. Qed.

Lemma follow_wake s x b u : sim s x -> TimeModel.work s = TimeModel.Waiting b u -> u <= TimeModel.now s -> follows s TimeModel.Wake (TimeModel.set_work s TimeModel.Running) x.
Proof.
  intros (w & v & (qs & ac0 & hc & -> & P & F & Ev & D & Ln) & Wk) W Hu. rewrite W in Wk. destruct Wk as [-> ->].
  eapply by_steps.
  - eapply reaches_eq; [apply (reaches_wake _ _ _ _ _ _ _ _ _ _ _ _ u true); [auto|reflexivity|apply reaches_nil]|reflexivity..].
  - exists (FTas KWorker), None. split; [exists qs, ac0, hc; split; [reflexivity|auto]|split; reflexivity].
  - cbn. rewrite app_nil_r. reflexivity.
  - cbn. rewrite app_nil_r. reflexivity.
Qed.

Lemma follow_woken s x l b u : sim s x -> TimeModel.work s = TimeModel.Waiting b u -> woke l = 0 -> follows s l (TimeModel.woken s) x.
Proof.
  intros (w & v & (qs & ac0 & hc & -> & P & F & Ev & D & Ln) & Wk) W Hl. rewrite W in Wk. destruct Wk as [-> ->].
  destruct (TimeModel.must_flush s || TimeModel.finalize s) eqn:Q.
  - eapply by_steps.
    + rewrite Hl. eapply reaches_eq; [apply (reaches_wake _ _ _ _ _ _ _ _ _ _ _ _ u false); [discriminate|reflexivity|rewrite Q; apply reaches_nil]|reflexivity..].
    + exists (FTas KWorker), None. unfold TimeModel.woken. rewrite Q. split; [exists qs, ac0, hc; split; [reflexivity|auto]|split; reflexivity].
    + cbn. rewrite app_nil_r. reflexivity.
    + cbn. rewrite app_nil_r. reflexivity.
  - eapply by_steps.
    + rewrite Hl. eapply reaches_eq; [apply (reaches_wake _ _ _ _ _ _ _ _ _ _ _ _ u false); [discriminate|reflexivity|rewrite Q; apply reaches_read, reaches_nil]|reflexivity..].
    + exists WWait, (Some (TimeModel.next s)). unfold TimeModel.woken. rewrite Q. split; [exists qs, ac0, hc; split; [reflexivity|auto]|split; reflexivity].
    + cbn. rewrite app_nil_r. reflexivity.
    + cbn. rewrite app_nil_r. reflexivity.
Qed.

Lemma follow_round s x : sim s x -> TimeModel.work s = TimeModel.Running -> follows s TimeModel.Round (TimeModel.round c s) x.
Proof.
  intros (w & v & Co & Wk) W. rewrite W in Wk. destruct Wk as [-> ->].
  destruct (flush_core _ 0 KWorker None s _ Co eq_refl) as (x1 & r1 & R1 & Co4 & G1 & G2 & G3 & G4 & G5 & G6). cbn [upd after_flush] in Co4.
  unfold TimeModel.round. cbn zeta. set (s1 := TimeModel.flush c s) in *.
  destruct Co4 as (qs & ac0 & hc & -> & P & F & Ev & D & Ln).
  assert (Z : exists y, reaches (mkC (B false qs (N.of_nat (TimeModel.pending c (TimeModel.queue s1))) (TimeModel.must_flush s1) (TimeModel.finalize s1) (file s1) (stream s1)
       [WFin; if TimeModel.finalize s then DJoin else Idle] ac0 hc) (TimeModel.now s1) (TimeModel.next s1) None) y 0 [] [] /\
     sim (TimeModel.set_work s1 (if TimeModel.finalize s1 && (match TimeModel.queue s1 with [] => true | _ => false end) then TimeModel.Stopped else TimeModel.Waiting false (TimeModel.next s1))) y).
  { rewrite <- G5. destruct (TimeModel.finalize s1) eqn:Fi.
    - destruct (TimeModel.queue s1) as [|i q'] eqn:Q; cbn [andb].
      + destruct qs; [|discriminate Ev]. eexists. split.
        * eapply reaches_eq; [step1 0 (@CGo E false); [reflexivity|step1 0 (@CGo E false); [reflexivity|plain; apply reaches_nil]]|reflexivity..].
        * eexists _, _. split; [exists [], ac0, hc; cbn [TimeModel.set_work TimeModel.finalize TimeModel.queue TimeModel.must_flush TimeModel.now TimeModel.next]; rewrite Fi, Q; split; [reflexivity|repeat split; auto]|reflexivity].
      + destruct qs as [|y qs]; [discriminate Ev|]. eexists. split.
        * eapply reaches_eq; [step1 0 (@CGo E false); [reflexivity|step1 0 (@CGo E false); [reflexivity|plain; apply reaches_read, reaches_nil]]|reflexivity..].
        * eexists _, _. split; [exists (y :: qs), ac0, hc; cbn [TimeModel.set_work TimeModel.finalize TimeModel.queue TimeModel.must_flush TimeModel.now TimeModel.next]; rewrite Fi, Q; split; [reflexivity|repeat split; auto]|split; reflexivity].
    - cbn [andb]. eexists. split.
      * eapply reaches_eq; [step1 0 (@CGo E false); [reflexivity|plain; apply reaches_read, reaches_nil]|reflexivity..].
      * eexists _, _. split; [exists qs, ac0, hc; cbn [TimeModel.set_work TimeModel.finalize TimeModel.queue TimeModel.must_flush TimeModel.now TimeModel.next]; rewrite Fi; split; [reflexivity|repeat split; auto]|split; reflexivity]. }
  destruct Z as (y & R & S). eapply by_steps; [exact (reaches_trans _ _ _ _ _ _ _ _ _ R1 R)|exact S| |].
  - cbn [List.app]. rewrite app_nil_r. change (map ac (all s1) = map ac (all s)). rewrite G2. reflexivity.
  - rewrite app_nil_r. exact G1.
Qed.

Lemma follow_spill s x n : sim s x -> TimeModel.durable s <= n -> n <= length (TimeModel.written s) ->
  follows s (TimeModel.Spill n) (TimeModel.mkState (TimeModel.now s) (TimeModel.next s) (TimeModel.queue s) (TimeModel.written s) n (TimeModel.must_flush s) (TimeModel.finalize s) (TimeModel.work s)) x.
Proof.
  intros (w & v & (qs & ac0 & hc & -> & P & F & Ev & D & Ln) & Wk) H1 H2.
  set (A := firstn (n - TimeModel.durable s) (skipn (TimeModel.durable s) (TimeModel.written s))).
  assert (A1 : firstn n (TimeModel.written s) = firstn (TimeModel.durable s) (TimeModel.written s) ++ A).
  { unfold A. rewrite <- (firstn_skipn (TimeModel.durable s) (firstn n (TimeModel.written s))), firstn_firstn, Nat.min_l by exact H1.
    f_equal. rewrite skipn_firstn_comm. reflexivity. }
  assert (A2 : skipn (TimeModel.durable s) (TimeModel.written s) = A ++ skipn n (TimeModel.written s)).
  { apply (app_inv_head (firstn (TimeModel.durable s) (TimeModel.written s))). rewrite firstn_skipn, app_assoc, <- A1, firstn_skipn. reflexivity. }
  eexists [(_, Move (MDrain (length (text A))))], ([] ++ map (fun l => (_, l)) []), _. split; [apply (R_snoc (R_start T _)); apply (N_move T); [reflexivity|reflexivity]|].
  split.
  - exists w, v. split; [|exact Wk]. exists qs, ac0, hc. split; [|repeat split; auto]. unfold s_out, next_after, until_after, stream, file.
    cbn [TimeModel.queue TimeModel.must_flush TimeModel.finalize TimeModel.now TimeModel.next TimeModel.written TimeModel.durable B base q size fip ntf ntr fin opened closed cur obuf thr acc h_closed h_cur h_drop now next until].
    rewrite A1, A2, !flat_map_app, firstn_app, skipn_app, firstn_all, skipn_all, Nat.sub_diag. cbn [firstn skipn List.app]. rewrite app_nil_r. reflexivity.
  - split; [constructor; [reflexivity|constructor]|]. split; [intros _; constructor; [exact I|constructor]|]. split; [cbn; destruct w; reflexivity|]. cbn. rewrite !app_nil_r. auto.
Qed.

Theorem step_follows s l s' x : TimeModel.step c s l s' -> sim s x -> follows s l s' x.
Proof.
  intros St S. destruct St as [s e Fi|s Fi|s Fi|s Fi|s d|s b u W Hu|s u W|s b u W|s W|s n H1 H2].
  - exact (follow_push s x e S Fi).
  - exact (follow_flush s x S Fi).
  - exact (follow_async s x S Fi).
  - exact (follow_destroy s x S Fi).
  - exact (follow_tick s x d S).
  - exact (follow_wake s x b u S W Hu).
  - exact (follow_woken s x TimeModel.Notified true u S W eq_refl).
  - exact (follow_woken s x TimeModel.Spurious b u S W eq_refl).
  - exact (follow_round s x S W).
  - exact (follow_spill s x n S H1 H2).
Qed.

Lemma run_follows s hs s' : TimeModel.run c s hs s' -> forall x, sim s x ->
  exists h tr x', crun T x h x' tr /\ sim s' x' /\ steady h /\ (TimeSpec.prompt hs -> quick h) /\ wakes h = TimeSpec.wakes hs /\
    map ac (all s') = map ac (all s) ++ accepted_at tr /\ map wr (TimeModel.written s') = map wr (TimeModel.written s) ++ written_at tr.
Proof.
  induction 1 as [s|s l s1 hs s2 St R IH]; intros x S.
  - exists [], [], x. split; [constructor|]. split; [exact S|]. split; [constructor|]. split; [constructor|]. split; [reflexivity|]. cbn. rewrite !app_nil_r. auto.
  - destruct (step_follows _ _ _ _ St S) as (h1 & t1 & x1 & A1 & A2 & A3 & A4 & A5 & A6 & A7).
    destruct (IH x1 A2) as (h2 & t2 & x2 & B1 & B2 & B3 & B4 & B5 & B6 & B7).
    exists (h1 ++ h2), (t1 ++ t2), x2. split; [exact (crun_app _ _ _ _ _ _ _ A1 B1)|]. split; [exact B2|].
    split; [apply Forall_app; auto|]. split; [intros P; inversion P as [|? ? P1 P2]; apply Forall_app; split; [exact (A4 P1)|exact (B4 P2)]|].
    split; [unfold wakes in *; rewrite filter_app, app_length, A5, B5; destruct l; reflexivity|].
    unfold accepted_at, written_at in *. rewrite !flat_map_app, B6, A6, B7, A7, !app_assoc. auto.
Qed.

Lemma sim_start t : exists h x, crun T (cstart T 1 t) h x [] /\ sim (TimeModel.start t) x /\ steady h /\ quick h /\ wakes h = 0.
Proof.
  pose proof (k_lat0 _ _ SS) as L0.
  exists [(cstart T 1 t, Read)], (mkC (base (cstart T 1 t)) t t (Some t)). split; [|split].
  - apply (read1 (cstart T 1 t) []); [|reflexivity|apply R_start]. {unfold at_pc, cstart, init; cbn [base thr]; rewrite L0; reflexivity. }
  - exists WWait, (Some t). split; [|split; reflexivity]. exists [], [], []. unfold cstart, init. cbn [base]. rewrite L0. split; [reflexivity|]. split; [constructor|]. split; [constructor|]. split; [reflexivity|]. split; cbn; lia.
  - split; [constructor; [exact I|constructor]|]. split; [constructor; [exact I|constructor]|]. unfold wakes, wakes_now, cstart, init. cbn. rewrite L0. reflexivity.
Qed.

Theorem time_in_clock t hs s : TimeModel.run c (TimeModel.start t) hs s ->
  exists h x tr, crun T (cstart T 1 t) h x tr /\ same_state T s x /\ steady h /\ (TimeSpec.prompt hs -> quick h) /\ wakes h = TimeSpec.wakes hs /\
    accepted_at tr = map (fun i => (TimeModel.i_at i, TimeModel.i_event i)) (map fst (TimeModel.written s) ++ TimeModel.queue s) /\
    written_at tr = map (fun w => (snd w, TimeModel.i_event (fst w))) (TimeModel.written s).
Proof.
  intros R. destruct (sim_start t) as (h0 & x0 & R0 & S0 & T0 & Q0 & W0). destruct (run_follows _ _ _ R x0 S0) as (h & tr & x & A1 & A2 & A3 & A4 & A5 & A6 & A7).
  exists (h0 ++ h), x, tr. split; [exact (crun_app _ _ _ [] _ _ _ R0 A1)|]. split.
  - destruct A2 as (w & u & (qs & ac0 & hc & -> & P & F & Ev & D & Ln) & Wk). constructor; try reflexivity; [exact Ev|].
    cbn [base B thr nth_error until]. destruct (TimeModel.work s); [destruct Wk as [-> ->]; auto|destruct Wk as [-> _]; reflexivity|rewrite Wk; reflexivity].
  - split; [apply Forall_app; auto|]. split; [intros Z; apply Forall_app; split; [exact Q0|exact (A4 Z)]|]. split; [unfold wakes in *; rewrite filter_app, app_length; lia|].
    symmetry in A6, A7. auto.
Qed.

(** The same, cut in two. *)
Theorem time_in_clock2 t h1 s1 h2 s2 : TimeModel.run c (TimeModel.start t) h1 s1 -> TimeModel.run c s1 h2 s2 ->
  exists k1 x1 t1 k2 x2 t2, crun T (cstart T 1 t) k1 x1 t1 /\ crun T x1 k2 x2 t2 /\ same_state T s1 x1 /\ same_state T s2 x2 /\
    steady (k1 ++ k2) /\ (TimeSpec.prompt h1 -> TimeSpec.prompt h2 -> quick (k1 ++ k2)) /\
    accepted_at t1 = map ac (all s1) /\ written_at t1 = map wr (TimeModel.written s1).
Proof.
  intros R R'. destruct (sim_start t) as (h0 & x0 & R0 & S0 & T0 & Q0 & W0).
  destruct (run_follows _ _ _ R x0 S0) as (h & tr & x & A1 & A2 & A3 & A4 & A5 & A6 & A7).
  destruct (run_follows _ _ _ R' x A2) as (h' & tr' & x' & B1 & B2 & B3 & B4 & B5 & B6 & B7).
  assert (SS' : forall s x, sim s x -> same_state T s x).
  { clear. intros s x (w & u & (qs & ac0 & hc & -> & P & F & Ev & D & Ln) & Wk). constructor; try reflexivity; [exact Ev|].
    cbn [base B thr nth_error until]. destruct (TimeModel.work s); [destruct Wk as [-> ->]; auto|destruct Wk as [-> _]; reflexivity|rewrite Wk; reflexivity]. }
  exists (h0 ++ h), x, tr, h', x', tr'. split; [exact (crun_app _ _ _ [] _ _ _ R0 A1)|]. split; [exact B1|]. split; [apply SS', A2|]. split; [apply SS', B2|].
  split; [repeat (apply Forall_app; split); assumption|]. split; [intros P1 P2; repeat (apply Forall_app; split); [exact Q0|exact (A4 P1)|exact (B4 P2)]|].
  symmetry in A6, A7. auto.
Qed.
End Sim.

(** The settings of the model in time, from those of the other. *)
Definition as_time {E} (T : tcfg E) : TimeModel.cfg E :=
  TimeModel.mkCfg TimeModel.Buffered (t_lat T) (c_cap (t_sink T)) (N.to_nat (c_threshold (t_sink T))) (t_tiny T) (fun e => N.to_nat (c_msize (t_sink T) e)).
Lemma as_same {E} (T : tcfg E) : usable T -> 1 <= c_cap (t_sink T) -> same_sink (as_time T) T /\ countable (as_time T).
Proof.
  intros (A & B & C & D) P. split.
  - constructor; try reflexivity; auto; intros; cbn; rewrite Nnat.N2Nat.id; reflexivity.
  - intros e. specialize (D e). cbn [as_time TimeModel.c_capacity TimeModel.c_size]. rewrite Nnat.Nat2N.inj_mul, Nnat.N2Nat.id. exact D.
Qed.

Section Tight.
Context {E : Type}.
Variable T : tcfg E.
Hypothesis U : usable T.

Lemma of_small k e : (N.of_nat k * c_msize (t_sink T) e < c_threshold (t_sink T))%N -> k * TimeModel.c_size (as_time T) e < TimeModel.c_threshold (as_time T).
Proof. cbn [as_time TimeModel.c_size TimeModel.c_threshold]. intros H. lia. Qed.

Theorem delay_tight n e : n + 2 <= c_cap (t_sink T) -> (N.of_nat (n + 2) * c_msize (t_sink T) e < c_threshold (t_sink T))%N ->
  exists h x tr k, crun T (cstart T 1 0) h x tr /\ quick h /\ steady h /\ nth_error (accepted_at tr) k = Some (0, e) /\ length (written_at tr) <= k /\ now x = (n + 1) * t_lat T.
Proof.
  intros H1 H2. destruct (as_same T U ltac:(lia)) as [SS CT].
  destruct (@TimeProofs.burst E (as_time T) eq_refl n e) as (h & s & i & R & P & _ & Hi & Ei & Ai & Nw); [exact H1|apply of_small, H2|].
  destruct (time_in_clock (as_time T) T SS CT 0 h s R) as (h' & x & tr & X & Sm & St & Qk & _ & Ac & Wr).
  apply In_nth_error in Hi. destruct Hi as (j & Hj). exists h', x, tr, (length (TimeModel.written s) + j). split; [exact X|]. split; [exact (Qk P)|]. split; [exact St|].
  split; [|split; [rewrite Wr, map_length; lia|rewrite (s_now _ _ _ Sm), Nw; reflexivity]].
  rewrite Ac, map_app, nth_error_app2 by (rewrite !map_length; lia). rewrite !map_length, Nat.add_comm, Nat.add_sub, nth_error_map, Hj. cbn. rewrite Ai, Ei. reflexivity.
Qed.

Theorem destruction_tight n e : 1 <= n -> n <= c_cap (t_sink T) -> (N.of_nat n * c_msize (t_sink T) e < c_threshold (t_sink T))%N ->
  exists h1 x1 t1 h2 x2 t2, crun T (cstart T 1 0) h1 x1 t1 /\ crun T x1 h2 x2 t2 /\ quick (h1 ++ h2) /\ steady (h1 ++ h2) /\
    now x1 = 0 /\ nth_error (thr (base x1)) 1 = Some DJoin /\ accepted_at t1 = repeat (0, e) n /\ written_at t1 = [] /\
    nth_error (thr (base x2)) 0 = Some WDone /\ (n - 1) * t_lat T <= now x2.
Proof.
  intros H0 H1 H2. destruct (as_same T U ltac:(lia)) as [SS CT]. pose proof (of_small _ _ H2) as H2'.
  destruct (@TimeProofs.push_many E (as_time T) n (TimeModel.start 0) e) as (h & s & R & P & _ & _ & Nw & _ & W & F & Wn & l & Q & Hl & Hq); [exact H1|exact H2'|reflexivity|].
  cbn [TimeModel.start TimeModel.queue List.app TimeModel.now TimeModel.written] in Q, Nw, Wn, Hq.
  pose proof (TimeModel.S_destroy (as_time T) s F) as D. set (s1 := TimeModel.async_flush _) in D.
  destruct (@TimeProofs.ending_destroy E (as_time T) eq_refl s s1 (@TimeProofs.timed_run E (as_time T) eq_refl 0 h s R P) D) as [En T1].
  destruct (@TimeProofs.destruction_ends E (as_time T) eq_refl _ _ _ s1 (le_n _) En T1) as (h2 & s2 & R2 & P2 & O & Ws & _ & _).
  assert (Lo : (n - 1) * t_lat T <= TimeModel.now s2).
  { pose proof (@TimeProofs.destruction_slow E (as_time T) eq_refl 0 h s s1 h2 s2 R D R2) as Z. rewrite Nw, Q, Hl in Z. apply Z; [|exact Ws].
    eapply Forall_impl; [|exact O]. intros [y k] Hy. cbn [snd] in *. destruct k; try contradiction; exact I. }
  destruct (time_in_clock2 (as_time T) T SS CT 0 _ s1 h2 s2 (@TimeProofs.run_snoc E (as_time T) _ _ _ _ _ R D) R2) as (k1 & x1 & t1 & k2 & x2 & t2 & X1 & X2 & M1 & M2 & St & Qk & Ac & Wr).
  exists k1, x1, t1, k2, x2, t2. split; [exact X1|]. split; [exact X2|]. split; [apply Qk; [apply Forall_app; split; [exact P|constructor; [exact I|constructor]]|exact P2]|].
  split; [exact St|]. split; [rewrite (s_now _ _ _ M1); exact Nw|]. split; [rewrite (s_client _ _ _ M1); reflexivity|].
  split; [|split; [rewrite Wr; cbn [s1 TimeModel.async_flush TimeModel.written]; rewrite Wn; reflexivity|]].
  - rewrite Ac. unfold all. cbn [s1 TimeModel.async_flush TimeModel.written TimeModel.queue]. rewrite Wn, Q. cbn [map List.app].
    clear - Hl Hq. revert n Hl. induction l as [|i l IH]; intros n <-; [reflexivity|]. cbn [map length repeat]. rewrite (IH (fun j Hj => Hq j (or_intror Hj)) (length l) eq_refl).
    destruct (Hq i (or_introl eq_refl)) as [A B]. unfold ac. rewrite A, B. reflexivity.
  - pose proof (s_worker _ _ _ M2) as Z. rewrite Ws in Z. split; [exact Z|]. rewrite (s_now _ _ _ M2). exact Lo.
Qed.

Theorem wakes_tight n e : 1 < t_lat T -> t_tiny T = false -> 1 <= c_cap (t_sink T) -> (c_msize (t_sink T) e < c_threshold (t_sink T))%N ->
  exists h x tr, crun T (cstart T 1 0) h x tr /\ quick h /\ steady h /\ wakes h = 2 * n + 1 /\ now x = n * (t_lat T + 1).
Proof.
  intros H0 H1 H2 H3. destruct (as_same T U H2) as [SS CT].
  destruct (@TimeProofs.twice E (as_time T) eq_refl e n) as (h & s & R & P & _ & W & Nw); [exact H0|exact H1|exact H2| |].
  { pose proof (of_small 1 e) as Z. rewrite !Nat.mul_1_l in Z. apply Z. rewrite N.mul_1_l. exact H3. }
  destruct (time_in_clock (as_time T) T SS CT 0 h s R) as (h' & x & tr & X & Sm & St & Qk & Wk & _ & _).
  exists h', x, tr. rewrite Wk, (s_now _ _ _ Sm), Nw. auto.
Qed.
End Tight.
