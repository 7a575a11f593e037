(** * How often the worker wakes, in every schedule *)

From Coq Require Import List Arith NArith Bool Lia.
From Verif Require Import Base LevelModel SinkModel SinkSpec SinkProofs SinkLabels SinkLife SinkReturn ClockModel ClockSpec ClockProofs ClockRotate.
Import ListNotations.

Section Sleep.
Context {E : Type}.
Variable T : tcfg E.
Notation C := (t_sink T).
Notation L := (t_lat T).
Notation pc := (pc E).
Hypothesis Hk : c_kind C <> KSyslog.

(** [w] wakes so far, [d] times turned away, started at [t]. *)
Definition credit (t w d x : nat) : Prop := w * L <= 2 * (x - t) + 2 * L + d * L.

Definition before (p : pc) : bool :=
  match p with FTas KWorker | FGet KWorker | FSub KWorker _ | FWrite KWorker _ => true | _ => false end.
Definition behind (p : pc) : bool :=
  match p with
  | FCasFlush KWorker | FStream KWorker | FCasRot KWorker | FReopen KWorker | FClear KWorker | WFin | WSize => true
  | _ => false end.

Definition wcond (t w d now next : nat) (until : option nat) (p : pc) : Prop :=
  if before p then until = None /\ credit t w d next /\ (next <= now \/ credit t (w + 1) d next)
  else if behind p then until = None /\ credit t (w + 1) d next
  else match p with
  | WWait =>
      match until with
      | Some u => t <= u /\ u <= next /\ credit t (w + 1) d u /\ (next = u \/ credit t (w + 2) d next)
      | None => credit t (w + 1) d next
      end
  | WDone => True
  | _ => False
  end.

Definition Slp (t w d : nat) (s : cstate E) : Prop :=
  t <= now s /\ t <= next s /\ next s <= now s + L /\ credit t w d (now s) /\
  exists p, nth_error (thr (base s)) 0 = Some p /\ wcond t w d (now s) (next s) (until s) p.

(** next_flush_ moves to [now + L] or stays. *)
Lemma next_cases s m : next s <= now s + L -> next_after T s m = now s + L \/ next_after T s m = next s.
Proof.
  intros _. destruct m as [t c|k]; cbn; [|auto]. destruct (at_pc (base s) t) as [p|]; [|auto].
  destruct p as [ |e|x e|x e| | | |k|k|k e|k oe|k|k|k|k|k|k| | | | | | | | | ]; auto. destruct oe; auto. destruct (_ || _); auto.
Qed.

Lemma wcond_moves t w d nw nx nx' u p : t <= nw -> t <= nx -> nx <= nw + L -> credit t w d nw ->
  (nx' = nw + L \/ nx' = nx) -> wcond t w d nw nx u p -> wcond t w d nw nx' u p.
Proof.
  unfold wcond, credit. intros A B B' D [-> | ->] H; [|exact H].
  destruct (before p); [destruct H as (H0 & H1 & H2); split; [auto|]; split; [nia|right; nia]|].
  destruct (behind p); [destruct H; split; [auto|nia]|].
  destruct p; auto. destruct u as [u|]; [|nia]. destruct H as (H1 & H2 & H3 & H4).
  split; [auto|]. split; [lia|]. split; [auto|right; nia].
Qed.

Lemma wcond_tick t w d nw k nx u p : wcond t w d nw nx u p -> wcond t w d (nw + k) nx u p.
Proof.
  unfold wcond. destruct (before p); [intros (Z & X & [Y|Y]); auto; split; [auto|]; split; [auto|left; lia]|]. destruct (behind p); auto.
Qed.

Lemma wcond_worker t w d nw nx u p : wcond t w d nw nx u p -> before p = true \/ behind p = true \/ p = WWait \/ p = WDone.
Proof. unfold wcond. destruct (before p); auto. destruct (behind p); auto. destruct p; auto; contradiction. Qed.

(** Where the worker gets to. *)
Definition goes (b : state E) (c : choice E) (p p' : pc) : Prop :=
  match p with
  | FTas _ => p' = if fip b then WFin else FGet KWorker
  | FGet _ | FSub _ _ => before p' = true
  | FWrite _ _ => behind p' = true
  | WWait => if match c with CWake true => true | _ => false end then p' = FTas KWorker else p' = WWait \/ p' = FTas KWorker
  | WDone => p' = WDone
  | _ => behind p' = true \/ p' = WWait \/ p' = WDone
  end.

Lemma worker_goes b c p cs : thr b = p :: cs -> before p = true \/ behind p = true \/ p = WWait \/ p = WDone ->
  exists p', nth_error (thr (fst (step_thread C b 0 c p))) 0 = Some p' /\ goes b c p p'.
Proof.
  intros Et H.
  assert (K : forall k, (match k with KWorker => true | _ => false end : bool) = true -> k = KWorker :> cont E) by (intros []; congruence).
  destruct p as [ |e|x e|x e| | | |k|k|k e|k oe|k|k|k|k|k|k| | | | | | | | | ];
    try (destruct H as [H|[H|[H|H]]]; discriminate);
    try (replace k with (@KWorker E) in * by (symmetry; apply K; destruct H as [H|[H|[H|H]]]; try discriminate; exact H)); clear H K;
    cbn [step_thread]; split_step; try congruence;
    cbn [fst thr s_thr s_q s_acc s_flags s_out after_flush]; rewrite ?Et; cbn [upd nth_error];
    (eexists; split; [reflexivity|]); cbn; rewrite ?Heqb0; auto.
Qed.

Lemma worker_step t w d s c p s' ls : Slp t w d s -> nth_error (thr (base s)) 0 = Some p ->
  may s (MThread 0 c) = true -> cstep T s (MThread 0 c) = (s', ls) ->
  Slp t (w + if wakes_now (s, Move (MThread 0 c)) then 1 else 0) (d + if turned_now (s, Move (MThread 0 c)) then 1 else 0) s'.
Proof.
  intros (A & B & B' & D & p0 & Hp0 & W) Hp My St. rewrite Hp0 in Hp. injection Hp as ->.
  pose proof (next_cases s (MThread 0 c) B') as Nx.
  unfold cstep in St. cbn [step] in St. rewrite Hp0 in St.
  destruct (thr (base s)) as [|p1 cs] eqn:Et; [discriminate|]. injection Hp0 as ->.
  destruct (worker_goes (base s) c p cs Et (wcond_worker _ _ _ _ _ _ _ W)) as (p' & U & G).
  destruct (step_thread C (base s) 0 c p) as [b l] eqn:Es. injection St as <- <-. cbn [fst] in U.
  unfold Slp. cbn [base now next until].
  unfold wakes_now, turned_now. cbn [fst snd base]. unfold next_after, until_after, at_pc in *. rewrite Et in *. cbn [nth_error] in *.
  unfold may, at_pc in My. rewrite Et in My. cbn [nth_error] in My. clear Es.
  pose proof (wcond_worker _ _ _ _ _ _ _ W) as Wk.
  destruct p as [ |e|x e|x e| | | |k|k|k e|k oe|k|k|k|k|k|k| | | | | | | | | ];
    try (destruct Wk as [Wk|[Wk|[Wk|Wk]]]; discriminate);
    try (destruct k; try (destruct Wk as [Wk|[Wk|[Wk|Wk]]]; discriminate)); clear Wk; cbn [goes] in G; cbn in W.
  all: unfold credit in *.
  (* FTas *)
  1: { rewrite Nat.add_0_r. split; [auto|]. split; [auto|]. split; [auto|]. destruct W as (W0 & W1 & W2).
       destruct (fip (base s)); (split; [nia|]); exists p'; (split; [exact U|]); subst p'; cbn; unfold credit; [split; [auto|nia]|].
       rewrite Nat.add_0_r. auto. }
  (* FGet, FSub *)
  1,2: (rewrite !Nat.add_0_r; split; [auto|]; split; [auto|]; split; [auto|]; split; [nia|]; exists p'; split; [exact U|];
        unfold wcond; rewrite G; unfold credit; auto).
  (* FWrite *)
  1: { rewrite !Nat.add_0_r. split; [auto|].
       assert (Bh : before p' = false) by (destruct p'; auto; discriminate).
       destruct W as (W0 & W1 & W2).
       assert (N : let n := match oe with Some _ => now s + L | None => if t_tiny T || (next s <=? now s) then now s + L else next s end in
         n = now s + L \/ (n = next s /\ now s < next s)).
       { destruct oe; cbn; auto. destruct (t_tiny T); cbn; auto. destruct (Nat.leb_spec (next s) (now s)); auto. }
       cbn zeta in N. set (n := match oe with Some _ => _ | None => _ end) in *.
       destruct N as [-> | [-> Hlt]]; (split; [lia|]); (split; [lia|]); (split; [lia|]); exists p'; (split; [exact U|]);
         unfold wcond; rewrite Bh, G; unfold credit; (split; [auto|nia]). }
  (* behind *)
  1-5,7-8: (rewrite !Nat.add_0_r; split; [auto|]; split; [auto|]; split; [auto|]; split; [exact D|]; exists p'; split; [exact U|];
       destruct W as [W0 W]; destruct G as [G|[G|G]];
       [ assert (Bh : before p' = false) by (destruct p'; auto; discriminate); unfold wcond; rewrite Bh, G; unfold credit; split; [auto|nia]
       | subst p'; cbn; rewrite W0; unfold credit; nia |subst p'; cbn; auto ]).
  (* WWait *)
  1: { destruct (until s) as [u|]; [|destruct c as [ | | | | | | |[]| ]; discriminate My].
       destruct W as (W1 & W2 & W3 & W4). rewrite Nat.add_0_r.
       destruct (match c with CWake true => true | _ => false end) eqn:Ec.
       - destruct c as [ | | | | | | |[]| ]; try discriminate Ec. clear Ec. subst p'. apply Nat.leb_le in My.
         split; [auto|]. split; [auto|]. split; [auto|]. split; [nia|]. exists (FTas KWorker). split; [exact U|].
         cbn. unfold credit. split; [auto|]. destruct W4 as [W4|W4]; (split; [nia|]); [left; lia|right; nia].
       -
         split; [auto|]. split; [auto|]. split; [auto|].
         replace (w + (if match c with CWake true => true | _ => false end then 1 else 0)) with w by (rewrite Ec; lia).
         split; [nia|]. exists p'. split; [exact U|].
         destruct G as [-> | ->]; cbn; unfold credit; [nia|]. split; [auto|]. split; [nia|right; nia]. }
  (* WDone *)
  subst p'. rewrite !Nat.add_0_r. split; [auto|]. split; [auto|]. split; [auto|]. split; [nia|]. exists WDone. split; [exact U|]. exact I.
Qed.

Lemma other_step t w d s m s' ls : Slp t w d s -> Life C true (base s) -> (forall c, m <> MThread 0 c) -> cstep T s m = (s', ls) -> Slp t w d s'.
Proof.
  intros (A & B & B' & D & p & Hp & W) Lf Nm St. pose proof (next_cases s m B') as Nx. unfold cstep in St.
  destruct (step C (base s) m) as [b l] eqn:Es. injection St as <- <-.
  assert (H0 : nth_error (thr b) 0 = Some p /\ until_after s m = until s).
  { destruct m as [u c|k]; [|cbn in Es; injection Es as <- <-; auto].
    assert (Nu : 0 <> u) by (intros <-; exact (Nm c eq_refl)). cbn [step] in Es. cbn [until_after]. unfold at_pc.
    destruct (nth_error (thr (base s)) u) as [pu|] eqn:Hu; [|injection Es as <- <-; auto].
    destruct (step_own C (base s) u c pu Hu) as [_ (p' & Et)]. rewrite Es in Et. cbn [fst] in Et.
    split; [rewrite Et, nth_error_upd_other by exact Nu; exact Hp|].
    destruct Lf as (w0 & cs & Ec & _ & F & _). rewrite Ec in Hu. destruct u as [|u]; [congruence|]. cbn in Hu.
    rewrite Forall_forall in F. pose proof (F _ (nth_error_In _ _ Hu)) as X. destruct pu; auto; discriminate. }
  destruct H0 as [H1 H2]. unfold Slp. cbn [base now next until]. rewrite H2.
  split; [auto|]. split; [lia|]. split; [lia|]. split; [auto|]. exists p. split; [exact H1|].
  eapply wcond_moves; [..|exact W]; auto.
Qed.

Lemma sleeps_inv n t h s tr : crun T (cstart T n t) h s tr -> Slp t (wakes h) (turned_away h) s.
Proof.
  intros R. induction R as [|h s tr ev s' ls R IH St].
  - unfold Slp, cstart, credit. cbn [base now next until wakes turned_away filter length].
    split; [auto|]. split; [auto|]. split; [lia|]. split; [lia|]. unfold init. cbn [thr nth_error].
    eexists. split; [reflexivity|]. destruct (c_lat0 C); cbn; auto. unfold credit. lia.
  - pose proof (reach_life C true n _ _ (crun_reach T _ _ _ _ _ R)) as Lf.
    unfold wakes, turned_away in *. rewrite !filter_app, !app_length. cbn [filter].
    inversion St as [s0 m s1 ls0 My Cs|s0 Hw Un|s0 d]; subst.
    + assert (K : (exists c, m = MThread 0 c) \/ forall c, m <> MThread 0 c).
      { destruct m as [[|u] c|k]; [left; eauto|right; discriminate|right; discriminate]. }
      destruct K as [(c & ->)|Nm].
      * destruct IH as (A & B & B' & D & p & Hp & W).
        pose proof (worker_step _ _ _ _ c p _ _ (conj A (conj B (conj B' (conj D (ex_intro _ p (conj Hp W)))))) Hp My Cs) as X.
        destruct (wakes_now _); destruct (turned_now _); exact X.
      * assert (Z : wakes_now (s, Move m) = false /\ turned_now (s, Move m) = false).
        { unfold wakes_now, turned_now. cbn [fst snd]. split.
          - destruct (nth_error (thr (base s)) 0) as [[]|]; auto. destruct m as [[|u] c|k]; auto. destruct (Nm c eq_refl).
          - destruct (nth_error (thr (base s)) 0) as [[]|]; auto. destruct k; auto. destruct m as [[|u] c|k]; auto. destruct (Nm c eq_refl). }
        destruct Z as [-> ->]. cbn [length]. rewrite !Nat.add_0_r. eapply other_step; eauto.
    + assert (Z : wakes_now (s, Read) = false /\ turned_now (s, Read) = false).
      { unfold wakes_now, turned_now. cbn [fst snd]. unfold at_pc in Hw. rewrite Hw. auto. }
      destruct Z as [-> ->]. cbn [length]. rewrite !Nat.add_0_r.
      destruct IH as (A & B & B' & D & p & Hp & W). unfold Slp. cbn [base now next until].
      split; [auto|]. split; [auto|]. split; [auto|]. split; [auto|]. exists WWait. split; [exact Hw|].
      unfold at_pc in Hw. rewrite Hp in Hw. injection Hw as ->. rewrite Un in W. cbn in *. auto.
    + assert (Z : wakes_now (s, Tick d) = false /\ turned_now (s, Tick d) = false).
      { unfold wakes_now, turned_now. cbn [fst snd]. split; destruct (nth_error (thr (base s)) 0) as [[]|]; auto. destruct k; auto. }
      destruct Z as [-> ->]. cbn [length]. rewrite !Nat.add_0_r.
      destruct IH as (A & B & B' & D & p & Hp & W). unfold Slp. cbn [base now next until].
      split; [lia|]. split; [auto|]. split; [lia|]. split; [unfold credit in *; nia|]. exists p. split; [exact Hp|].
      apply wcond_tick, W.
Qed.

Lemma sleeps_always n t h s tr : crun T (cstart T n t) h s tr ->
  wakes h * L <= 2 * (now s - t) + (2 + turned_away h) * L.
Proof. intros R. destruct (sleeps_inv _ _ _ _ _ R) as (_ & _ & _ & D & _). unfold credit in D. nia. Qed.
End Sleep.
