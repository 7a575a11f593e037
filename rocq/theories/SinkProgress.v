(** * Progress: a thread that is not disturbed finishes in bounded time *)
From Coq Require Import List Arith NArith Bool Lia.
From Verif Require Import Base LevelModel SinkModel SinkSpec SinkProofs SinkLabels SinkLife SinkProps.
Import ListNotations.

Section Progress.
Context {E : Type}.
Variable C : cfg E.
Notation state := (state E).
Notation pc := (pc E).

Definition tailk (k : cont E) (n : nat) : nat :=
  match k with
  | KReturn => 0
  | KDestroy => 1
  | KWorker => if Nat.eqb n 0 then 2 else 99 + 100 * n
  | KRetry _ => 300 + 100 * n
  end.
Definition getk (k : cont E) (n : nat) : nat :=
  match k with
  | KReturn | KDestroy => 20 + 100 * n
  | KWorker => 95 + 100 * n
  | KRetry _ => 330 + 100 * n
  end.

Definition mu (p : pc) (n : nat) : nat :=
  match p with
  | Idle | Dead | WDone => 0
  | PPut _ => if Nat.ltb n (c_cap C) then 300 + 100 * n else 400 + 100 * n
  | PAdd _ _ => 190 + 100 * n
  | PRel _ _ => 180 + 100 * n
  | PDecide => 170 + 100 * n
  | RStore => 171 + 100 * n
  | RAsync => 170 + 100 * n
  | FTas k => 1 + getk k n
  | FGet k => getk k n
  | FSub k _ => 25 + getk k n
  | FWrite k _ => 9 + tailk k n
  | FCasFlush k => 8 + tailk k n
  | FStream k => 7 + tailk k n
  | FCasRot k => 5 + tailk k n
  | FReopen k => 4 + tailk k n
  | FNtf k => 3 + tailk k n
  | FClear k => 2 + tailk k n
  | WWait => 97 + 100 * n
  | WSize => if Nat.eqb n 0 then 1 else 98 + 100 * n
  | WFin => if Nat.eqb n 0 then 2 else 99 + 100 * n
  | DStore => 4
  | DNtf => 3
  | DJoin => 2
  | DClose => 1
  end.

(** Between get() and the end of a flush started by push() there is room. *)
Definition post_retry (p : pc) : bool :=
  match p with
  | FSub (KRetry _) _ | FWrite (KRetry _) _ | FCasFlush (KRetry _) | FStream (KRetry _)
  | FNtf (KRetry _) | FCasRot (KRetry _) | FReopen (KRetry _) | FClear (KRetry _) => true
  | _ => false
  end.

Definition neutral (p : pc) : Prop := fl p = [] /\ adding p = [] /\ releasing p = [].

Definition waiting (s : state) (p : pc) : Prop :=
  match p with
  | Idle | Dead | WDone => True
  | DJoin => nth_error (thr s) 0 <> Some WDone
  | _ => False
  end.

Lemma quiet_queue s t p : Inv C s -> nth_error (thr s) t = Some p ->
  (forall u p', nth_error (thr s) u = Some p' -> u <> t -> neutral p') ->
  (adding p = [] -> releasing p = [] -> Forall (fun x => q_stage x = Published) (q s)) /\
  (fl p = [] -> fip s = false).
Proof.
  intros HI Hp Ho. destruct (thr_split _ _ _ Hp) as (l1 & l2 & E1 & E2 & _).
  assert (HN : forall x, In x l1 \/ In x l2 -> neutral x).
  { intros x [Hx|Hx]; apply In_nth_error in Hx; destruct Hx as (u & Hu).
    - assert (Hl : u < length l1) by (apply nth_error_Some; congruence).
      apply (Ho u); [rewrite E1, nth_error_app1 by exact Hl; exact Hu|lia].
    - apply (Ho (length l1 + S u)); [|lia]. rewrite E1, nth_error_app2 by lia.
      replace (length l1 + S u - length l1) with (S u) by lia. exact Hu. }
  assert (F : forall (X : Type) (f : pc -> list X), (forall x, neutral x -> f x = []) ->
     flat_map f (thr s) = f p).
  { intros X f Hf. rewrite E1, flat_map_app. cbn.
    rewrite (flat_map_nil f l1), (flat_map_nil f l2); [cbn; apply app_nil_r|auto|auto]. }
  split.
  - intros Ha Hr. apply Forall_forall. intros [n e st] Hx. destruct st; [| |reflexivity]; exfalso.
    + apply (I_add C s HI) in Hx. rewrite F in Hx by (intros x Hx'; apply Hx'). rewrite Ha in Hx. destruct Hx.
    + apply (I_rel C s HI) in Hx. rewrite F in Hx by (intros x Hx'; apply Hx'). rewrite Hr in Hx. destruct Hx.
  - intros Hf. pose proof (I_flag C s HI) as G. rewrite F in G by (intros x Hx'; apply Hx').
    rewrite Hf in G. destruct (fip s); [discriminate|reflexivity].
Qed.

Ltac split_step :=
  repeat match goal with
  | |- context [match ?x with _ => _ end] =>
      match type of x with
      | choice _ => destruct x
      | bool => destruct x eqn:?
      | list _ => destruct x eqn:?
      | option _ => destruct x eqn:?
      | stage => destruct x eqn:?
      | sink_kind => destruct x eqn:?
      | reopen => destruct x
      | SinkModel.pc _ => destruct x eqn:?
      end
  end.

Hypothesis cap_pos : 1 <= c_cap C.

Lemma tail_after k n : (match k with KRetry _ => n < c_cap C | _ => True end) ->
  mu (after_flush k) n <= tailk k n.
Proof.
  destruct k; cbn [mu tailk after_flush]; try lia. intros H. destruct (Nat.ltb_spec n (c_cap C)); lia.
Qed.

Lemma tail_get k n : tailk k n <= 15 + getk k n.
Proof. destruct k; cbn; try lia. destruct n; cbn; lia. Qed.

Lemma tail_get0 k : tailk k 0 + 10 <= getk k 0.
Proof. destruct k; cbn; lia. Qed.

Lemma get_S k n : getk k (S n) = 100 + getk k n.
Proof. destruct k; cbn; lia. Qed.

(** Every move of [t] that is not just waiting brings it nearer to the end. *)
Lemma step_mu s t c p : nth_error (thr s) t = Some p -> length (q s) <= c_cap C ->
  p <> Idle ->
  (fl p = [] -> fip s = false) ->
  (post_retry p = true -> length (q s) < c_cap C) ->
  (p = WFin -> fin s = true /\ c <> CGo true) ->
  (fst (step_thread C s t c p) = s \/
   exists p', thr (fst (step_thread C s t c p)) = upd (thr s) t p' /\
     mu p' (length (q (fst (step_thread C s t c p)))) < mu p (length (q s)) /\
     (post_retry p' = true -> length (q (fst (step_thread C s t c p))) < c_cap C) /\
     length (q (fst (step_thread C s t c p))) <= c_cap C).
Proof.
  intros Hp Hcap Hi Hf Hr Hfin.
  destruct p as [ |e|n e|n e| | | |k|k|k e|k oe|k|k|k|k|k|k| | | | | | | | | ]; cbn [step_thread].
  - congruence.
  - destruct (Nat.ltb_spec (length (q s)) (c_cap C)) as [H|H]; cbn [fst]; right; eexists; (split; [reflexivity|]);
      cbn [s_thr s_acc s_q q mu getk]; rewrite ?app_length; cbn [length].
    + destruct (Nat.ltb_spec (length (q s)) (c_cap C)); [|lia]. split; [lia|]. split; [discriminate|lia].
    + destruct (Nat.ltb_spec (length (q s)) (c_cap C)); [lia|]. split; [lia|]. split; [discriminate|lia].
  - right. eexists. split; [reflexivity|]. cbn [fst s_thr s_q q mu]. rewrite set_stage_len.
    split; [lia|]. split; [discriminate|lia].
  - right. eexists. split; [reflexivity|]. cbn [fst s_thr s_q q mu]. rewrite set_stage_len.
    split; [lia|]. split; [discriminate|lia].
  - right. destruct (c_lat0 C); [|destruct (N.leb _ _)]; eexists; (split; [reflexivity|]);
      cbn [fst s_thr s_flags q mu getk]; (split; [lia|]; split; [discriminate|lia]).
  - right. eexists. split; [reflexivity|]. cbn [fst s_thr s_flags q mu]. split; [lia|]. split; [discriminate|lia].
  - right. destruct (c_lat0 C); eexists; (split; [reflexivity|]);
      cbn [fst s_thr s_flags q mu getk]; (split; [lia|]; split; [discriminate|lia]).
  - rewrite (Hf eq_refl). right. eexists. split; [reflexivity|]. cbn [fst s_thr s_flags q mu].
    split; [lia|]. split; [discriminate|lia].
  - destruct (q s) as [|x rest] eqn:Hq.
    + right. cbn [length] in *. pose proof (tail_get0 k).
      destruct (c_kind C); cbn [fst s_thr thr]; eexists; (split; [reflexivity|]);
        cbn [s_thr q mu]; rewrite Hq; cbn [length]; (split; [lia|]; split; [lia|lia]).
    + destruct (q_stage x); cbn [fst]; auto.
      right. eexists. split; [reflexivity|]. cbn [s_thr s_q q mu]. cbn [length] in *.
      rewrite get_S. split; [lia|]. split; [lia|lia].
  - right. pose proof (tail_get k (length (q s))).
    destruct (c_kind C); cbn [fst]; eexists; (split; [reflexivity|]);
      cbn [s_thr s_q s_out q mu]; (split; [lia|]; split; [destruct k; cbn in *; auto; discriminate|lia]).
  - right. destruct oe as [e|].
    + destruct (opened s); cbn [fst]; eexists; (split; [reflexivity|]); cbn [s_thr s_out q mu];
        (split; [lia|]; split; [destruct k; cbn in *; auto; discriminate|lia]).
    + destruct (c_kind C); cbn [fst]; eexists; (split; [reflexivity|]); cbn [s_thr s_out q mu];
        (split; [lia|]; split; [destruct k; cbn in *; auto; discriminate|lia]).
  - destruct c; auto; [right; destruct spurious; [|destruct (ntf s)]; destruct (c_kind C)|destruct (ntf s); [right|auto]]; cbn [fst];
      eexists; (split; [reflexivity|]); cbn [s_thr s_flags s_out q mu];
        (split; [lia|]; split; [destruct k; cbn in *; auto; discriminate|lia]).
  - right. destruct (c_kind C); cbn [fst];
      eexists; (split; [reflexivity|]); cbn [s_thr s_flags s_out q mu];
        (split; [lia|]; split; [destruct k; cbn in *; auto; discriminate|lia]).
  - right. cbn [fst]; eexists; (split; [reflexivity|]); cbn [s_thr s_flags s_out q mu];
        (split; [lia|]; split; [destruct k; cbn in *; auto; discriminate|lia]).
  - destruct c; auto; [right; destruct spurious; [|destruct (ntr s)]|destruct (ntr s); [right|auto]]; cbn [fst];
      eexists; (split; [reflexivity|]); cbn [s_thr s_flags s_out q mu];
        (split; [lia|]; split; [destruct k; cbn in *; auto; discriminate|lia]).
  - destruct c; auto. right. destruct r; [| |destruct (opened s)]; cbn [fst];
      eexists; (split; [reflexivity|]); cbn [s_thr s_flags s_out q mu];
        (split; [lia|]; split; [destruct k; cbn in *; auto; discriminate|lia]).
  - right. cbn [fst]. eexists. split; [reflexivity|]. cbn [s_thr s_flags q].
    assert (T : mu (after_flush k) (length (q s)) <= tailk k (length (q s))).
    { apply tail_after. destruct k; auto. }
    cbn [mu]. split; [lia|]. split; [destruct k; discriminate|lia].
  - destruct c; auto. destruct timeout; [|destruct (ntf s || fin s); auto]; right; cbn [fst];
      eexists; (split; [reflexivity|]); cbn [s_thr q mu getk]; (split; [lia|]; split; [discriminate|lia]).
  - right. destruct (Hfin eq_refl) as (Hf1 & Hf2). rewrite Hf1.
    assert (Hst : (match c with CGo true => (s_thr s t WWait, []) | _ => (s_thr s t WSize, @nil (label E)) end) = (s_thr s t WSize, []))
      by (destruct c; try reflexivity; destruct spurious; [congruence|reflexivity]).
    rewrite Hst. cbn [fst]. eexists. split; [reflexivity|]. cbn [s_thr q mu].
    destruct (length (q s)) eqn:Hl; cbn [Nat.eqb]; (split; [lia|]; split; [discriminate|lia]).
  - right. destruct (q s) eqn:Hq; cbn [fst]; eexists; (split; [reflexivity|]); cbn [s_thr q mu]; rewrite Hq;
      cbn [length Nat.eqb mu] in *; (split; [lia|]; split; [discriminate|lia]).
  - auto.
  - right. eexists. split; [reflexivity|]. cbn [fst s_thr s_flags q mu]. split; [lia|]. split; [discriminate|lia].
  - right. eexists. split; [reflexivity|]. cbn [fst s_thr s_flags q mu]. split; [lia|]. split; [discriminate|lia].
  - destruct (nth_error (thr s) 0) as [[]|]; auto. right. eexists. split; [reflexivity|].
    cbn [fst s_thr s_flags q mu]. split; [lia|]. split; [discriminate|lia].
  - right. destruct (c_kind C); cbn [fst]; eexists; (split; [reflexivity|]);
      cbn [s_thr s_out q mu]; (split; [lia|]; split; [discriminate|lia]).
  - auto.
Qed.

(** It is never stuck, unless it is at the end or waits for the worker. *)
Lemma step_can s t p : nth_error (thr s) t = Some p -> ~ waiting s p ->
  (match p with FGet _ => Forall (fun x => q_stage x = Published) (q s) | _ => True end) ->
  exists c p', thr (fst (step_thread C s t c p)) = upd (thr s) t p' /\ p' <> p.
Proof.
  intros Hp Hw Hq.
  destruct p as [ |e|n e|n e| | | |k|k|k e|k oe|k|k|k|k|k|k| | | | | | | | | ]; cbn [waiting] in Hw;
    try (exfalso; apply Hw; exact I).
  - exists (CGo true). cbn [step_thread]. destruct (Nat.ltb _ _); eexists; (split; [reflexivity|discriminate]).
  - exists (CGo true). eexists. split; [reflexivity|discriminate].
  - exists (CGo true). eexists. split; [reflexivity|discriminate].
  - exists (CGo true). cbn [step_thread]. destruct (c_lat0 C); [|destruct (N.leb _ _)];
      eexists; (split; [reflexivity|discriminate]).
  - exists (CGo true). eexists. split; [reflexivity|discriminate].
  - exists (CGo true). cbn [step_thread]. destruct (c_lat0 C); eexists; (split; [reflexivity|discriminate]).
  - exists (CGo true). cbn [step_thread]. destruct (fip s); eexists; (split; [reflexivity|destruct k; discriminate]).
  - exists (CGo true). cbn [step_thread]. destruct (q s) as [|x rest].
    + eexists. split; [reflexivity|]. destruct (c_kind C); discriminate.
    + inversion Hq as [|y z Hx Hl]; subst. rewrite Hx. eexists. split; [reflexivity|discriminate].
  - exists (CGo true). cbn [step_thread]. destruct (c_kind C); eexists; (split; [reflexivity|discriminate]).
  - exists (CGo true). cbn [step_thread]. destruct oe; [destruct (opened s)|]; eexists; (split; [reflexivity|]);
      try discriminate; destruct (c_kind C); discriminate.
  - exists (CGo true). cbn [step_thread]. eexists. split; [reflexivity|]. destruct (c_kind C); discriminate.
  - exists (CGo true). cbn [step_thread]. eexists. split; [reflexivity|]. destruct (c_kind C); discriminate.
  - exists (CGo true). eexists. split; [reflexivity|discriminate].
  - exists (CGo true). cbn [step_thread]. eexists. split; [reflexivity|discriminate].
  - exists (COpen ROFail). eexists. split; [reflexivity|discriminate].
  - exists (CGo true). eexists. split; [reflexivity|destruct k; discriminate].
  - exists (CWake true). eexists. split; [reflexivity|discriminate].
  - exists (CGo true). eexists. split; [reflexivity|]. discriminate.
  - exists (CGo true). eexists. split; [reflexivity|]. destruct (q s); discriminate.
  - exists (CGo true). eexists. split; [reflexivity|discriminate].
  - exists (CGo true). eexists. split; [reflexivity|discriminate].
  - exists (CGo true). cbn [step_thread]. destruct (nth_error (thr s) 0) as [w|] eqn:E0.
    + assert (w = WDone \/ w <> WDone) as [-> |Hn].
      { destruct w; auto; right; discriminate. }
      * eexists. split; [reflexivity|discriminate].
      * exfalso. apply Hw. congruence.
    + exfalso. apply Hw. discriminate.
  - exists (CGo true). cbn [step_thread]. destruct (c_kind C); eexists; (split; [reflexivity|discriminate]).
Qed.


End Progress.
