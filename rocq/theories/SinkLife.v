(** * Life cycle: worker, clients, destructor *)
From Coq Require Import List Arith NArith Bool Lia.
From Verif Require Import Base LevelModel SinkModel SinkSpec SinkProofs SinkLabels.
Import ListNotations.

Section Life.
Context {E : Type}.
Variable C : cfg E.
Variable op : bool.
Notation state := (state E).
Notation pc := (pc E).

Definition kof (p : pc) : option (cont E) :=
  match p with
  | FTas k | FGet k | FSub k _ | FWrite k _ | FCasFlush k | FStream k | FNtf k | FCasRot k
  | FReopen k | FClear k => Some k
  | _ => None
  end.

Definition worker_pc (p : pc) : bool :=
  match p with
  | WWait | WFin | WSize | WDone => true
  | _ => match kof p with Some KWorker => true | _ => false end
  end.

Definition client_pc (p : pc) : bool :=
  match p with
  | WWait | WFin | WSize | WDone => false
  | _ => match kof p with Some KWorker => false | _ => true end
  end.

Definition hw : bool := negb (c_lat0 C) && op.

Definition dcond (p w : pc) (f : bool) (qq : list (entry E)) : Prop :=
  if c_lat0 C then f = false /\ match p with DStore | DNtf | DJoin => False | _ => True end
  else match p with
       | DStore => f = false /\ (hw = true -> w <> WDone)
       | DNtf | DJoin => f = true /\ (hw = true -> w = WDone -> qq = [])
       | DClose | Dead => f = true /\ w = WDone /\ (hw = true -> qq = [])
       | _ => False
       end.

Definition mode (w : pc) (cs : list pc) (f : bool) (qq : list (entry E)) : Prop :=
  (Forall (fun p => destroying p = false) cs /\ f = false /\ (hw = true -> w <> WDone)) \/
  (exists l1 p l2, cs = l1 ++ p :: l2 /\ Forall (eq Idle) l1 /\ Forall (eq Idle) l2 /\
     destroying p = true /\ dcond p w f qq).

Definition Life (s : state) : Prop :=
  exists w cs, thr s = w :: cs /\ worker_pc w = true /\ Forall (fun p => client_pc p = true) cs /\
    (hw = false -> w = WDone) /\ (w = WSize -> fin s = true) /\ mode w cs (fin s) (q s).

Ltac split_step :=
  repeat match goal with
  | |- context [match ?x with _ => _ end] =>
      match type of x with
      | choice _ => destruct x
      | bool => destruct x eqn:?
      | list _ => destruct x eqn:?
      | option _ => destruct x eqn:?
      | stage => destruct x eqn:?
      | sink_kind => destruct x eqn:?
      | reopen => destruct x
      | SinkModel.pc _ => destruct x eqn:?
      end
  end.

Definition shrinks (q q' : list (entry E)) : Prop := q' = q \/ exists x, q = x :: q'.

(** What one step of the worker may do. *)
Lemma worker_step s c w cs : thr s = w :: cs -> worker_pc w = true ->
  exists w', thr (fst (step_thread C s 0 c w)) = w' :: cs /\ worker_pc w' = true /\
    fin (fst (step_thread C s 0 c w)) = fin s /\
    shrinks (q s) (q (fst (step_thread C s 0 c w))) /\
    (w = WDone -> w' = WDone /\ q (fst (step_thread C s 0 c w)) = q s) /\
    (w' = WSize -> w = WSize \/ fin s = true) /\
    (w' = WDone -> w = WDone \/ (w = WSize /\ q s = [])).
Proof.
  intros Et Hw. assert (Sh : shrinks (q s) (q s)) by (left; reflexivity).
  destruct w as [ |e|n e|n e| | | |k|k|k e|k oe|k|k|k|k|k|k| | | | | | | | | ]; try discriminate Hw;
  try (destruct k; try discriminate Hw); cbn [step_thread after_flush]; split_step;
  cbn [fst snd s_thr s_q s_acc s_flags s_out thr q fin]; rewrite Et; cbn [upd];
  (eexists; split; [reflexivity|]); cbn [worker_pc kof]; (split; [reflexivity|]); (split; [congruence|]);
  (split; [first [exact Sh|left; congruence|right; eexists; congruence|right; eexists; reflexivity]|]);
  (split; [intros Hd; first [discriminate Hd|split; congruence]|]);
  (split; intros Hd; try discriminate Hd; auto; try congruence).
Qed.

Lemma client_step_alive s t c p : t <> 0 -> client_pc p = true -> destroying p = false ->
  nth_error (thr s) t = Some p ->
  exists p', thr (fst (step_thread C s t c p)) = upd (thr s) t p' /\ client_pc p' = true /\
    fin (fst (step_thread C s t c p)) = fin s /\
    (destroying p' = false \/
     (p = Idle /\ clients_idle s = true /\ q (fst (step_thread C s t c p)) = q s /\
      p' = if c_lat0 C then FTas KDestroy else DStore)).
Proof.
  intros Ht Hc Hd Hp.
  assert (Et : thr s = upd (thr s) t p).
  { destruct (thr_split _ _ _ Hp) as (l1 & l2 & E1 & _ & E2). rewrite (E2 p). exact E1. }
  destruct p as [ |e|n e|n e| | | |k|k|k e|k oe|k|k|k|k|k|k| | | | | | | | | ];
  try discriminate Hc; try discriminate Hd;
  try (destruct k; try discriminate Hc; try discriminate Hd); cbn [step_thread after_flush]; split_step;
  cbn [fst snd s_thr s_q s_acc s_flags s_out thr q fin];
  (eexists; split; [first [exact Et|reflexivity]|]); (split; [reflexivity|]); (split; [congruence|]);
  first [left; reflexivity|right; split; [reflexivity|]; split; [|split; reflexivity]];
  match goal with H : _ && _ = true |- _ => apply andb_true_iff in H; apply H end.
Qed.

Lemma client_step_dead s t c p w cs : t <> 0 -> client_pc p = true -> destroying p = true ->
  nth_error (thr s) t = Some p -> thr s = w :: cs -> dcond p w (fin s) (q s) ->
  exists p', thr (fst (step_thread C s t c p)) = upd (thr s) t p' /\ client_pc p' = true /\
    destroying p' = true /\ (fin (fst (step_thread C s t c p)) = fin s \/ fin (fst (step_thread C s t c p)) = true) /\
    dcond p' w (fin (fst (step_thread C s t c p))) (q (fst (step_thread C s t c p))).
Proof.
  intros Ht Hc Hd Hp Ew Hdc.
  assert (Et : thr s = upd (thr s) t p).
  { destruct (thr_split _ _ _ Hp) as (l1 & l2 & E1 & _ & E2). rewrite (E2 p). exact E1. }
  destruct p as [ |e|n e|n e| | | |k|k|k e|k oe|k|k|k|k|k|k| | | | | | | | | ];
  try discriminate Hc; try discriminate Hd;
  try (destruct k; try discriminate Hc; try discriminate Hd); unfold dcond in *;
  cbn [step_thread after_flush]; split_step;
  cbn [fst snd s_thr s_q s_acc s_flags s_out thr q fin];
  (eexists; split; [first [exact Et|reflexivity]|]); (split; [reflexivity|]); (split; [reflexivity|]);
  (split; [auto|]); try tauto; try (intuition congruence).
  all: try (destruct Hdc as (? & ?); split; [congruence|]; intuition congruence).
  all: rewrite Ew in *; cbn in *; try discriminate; try (intuition congruence). 
  injection Heqo as ->. destruct Hdc as [D1 D2]. auto.
Qed.

Lemma alive_false (s : state) w cs l1 p l2 : thr s = w :: cs -> cs = l1 ++ p :: l2 -> destroying p = true ->
  alive s = false /\ clients_idle s = false.
Proof.
  intros E1 E2 Hd. unfold alive, clients_idle. rewrite E1. cbn [tl]. rewrite E2, !forallb_app.
  cbn [forallb]. rewrite Hd. cbn.
  assert (Hi : is_idle p = false) by (destruct p; try reflexivity; discriminate Hd).
  rewrite Hi. cbn. rewrite !andb_false_r. auto.
Qed.

Lemma upd_app_mid (l1 l2 : list pc) p p' : upd (l1 ++ p :: l2) (length l1) p' = l1 ++ p' :: l2.
Proof. induction l1 as [|x l1 IH]; cbn; [reflexivity|]. rewrite IH. reflexivity. Qed.

Lemma upd_Forall (P : pc -> Prop) l t p' : Forall P l -> P p' -> Forall P (upd l t p').
Proof.
  intros H Hp. revert t. induction H as [|x l Hx Hl IH]; intros [|t]; cbn; constructor; auto.
Qed.

Lemma all_idle_split (l : list pc) : forall t p, nth_error l t = Some p ->
  forallb is_idle l = true -> exists l1 l2, l = l1 ++ p :: l2 /\ length l1 = t /\
    Forall (eq Idle) l1 /\ Forall (eq Idle) l2.
Proof.
  intros t p Hp Hf. destruct (thr_split _ _ _ Hp) as (l1 & l2 & E1 & E2 & _).
  exists l1, l2. split; [exact E1|]. split; [exact E2|].
  rewrite forallb_forall in Hf. rewrite E1 in Hf. split; apply Forall_forall; intros x Hx.
  - assert (H : is_idle x = true) by (apply Hf; apply in_app_iff; auto). destruct x; (reflexivity || discriminate).
  - assert (H : is_idle x = true) by (apply Hf; apply in_app_iff; right; right; auto). destruct x; (reflexivity || discriminate).
Qed.

Lemma step_life s m : Life s -> Life (fst (step C s m)).
Proof.
  intros H. destruct m as [t c|n]; cbn [step]; [|exact H].
  destruct (nth_error (thr s) t) as [p|] eqn:Hp; [|exact H].
  destruct H as (w & cs & Et & Hw & Hcs & Hhw & Hsz & Hm). destruct t as [|i].
  - rewrite Et in Hp. injection Hp as <-.
    destruct (worker_step s c w cs Et Hw) as (w' & T1 & T2 & T3 & T4 & T5 & T6 & T7).
    exists w', cs. split; [exact T1|]. split; [exact T2|]. split; [exact Hcs|].
    split; [intros Hh; apply T5; auto|]. rewrite T3.
    split; [intros Hx; destruct (T6 Hx); auto|].
    destruct Hm as [(M1 & M2 & M3)|(l1 & p & l2 & M1 & M2 & M3 & M4 & M5)].
    + left. split; [exact M1|]. split; [exact M2|]. intros Hh ->. destruct (T7 eq_refl) as [Hd|(Hd & _)].
      * apply M3; auto.
      * rewrite (Hsz Hd) in M2. discriminate.
    + right. exists l1, p, l2. split; [exact M1|]. split; [exact M2|]. split; [exact M3|]. split; [exact M4|].
      assert (K : w' = WDone -> w = WDone \/ q (fst (step_thread C s 0 c w)) = []).
      { intros Hd. destruct (T7 Hd) as [Hx|(_ & Hx)]; [auto|]. right.
        destruct T4 as [T4|(x & T4)]; congruence. }
      assert (K2 : q s = [] -> q (fst (step_thread C s 0 c w)) = []).
      { intros Hx. destruct T4 as [T4|(x & T4)]; congruence. }
      unfold dcond in *. destruct (c_lat0 C); [exact M5|].
      destruct p; try exact M5.
      * destruct M5 as [M5 M6]. split; [exact M5|]. intros Hh ->. destruct (T7 eq_refl) as [Hd|(Hd & _)].
        -- apply M6; auto.
        -- rewrite (Hsz Hd) in M5. discriminate.
      * destruct M5 as [M5 M6]. split; [exact M5|]. intros Hh Hd. destruct (K Hd); auto.
      * destruct M5 as [M5 M6]. split; [exact M5|]. intros Hh Hd. destruct (K Hd); auto.
      * destruct M5 as (M5 & M6 & M7). split; [exact M5|]. split; [apply T5; exact M6|]. auto.
      * destruct M5 as (M5 & M6 & M7). split; [exact M5|]. split; [apply T5; exact M6|]. auto.
  - pose proof Hp as Hp'. rewrite Et in Hp. cbn in Hp.
    assert (Hc : client_pc p = true).
    { eapply Forall_forall in Hcs; [exact Hcs|]. eapply nth_error_In. exact Hp. }
    destruct Hm as [(M1 & M2 & M3)|(l1 & p0 & l2 & M1 & M2 & M3 & M4 & M5)].
    + assert (Hd : destroying p = false).
      { eapply Forall_forall in M1; [exact M1|]. eapply nth_error_In. exact Hp. }
      destruct (client_step_alive s (S i) c p (Nat.neq_succ_0 i) Hc Hd Hp') as (p' & T1 & T2 & T3 & T4).
      rewrite Et in T1. cbn [upd] in T1.
      exists w, (upd cs i p'). split; [exact T1|]. split; [exact Hw|].
      split; [apply upd_Forall; assumption|]. split; [exact Hhw|]. rewrite T3. split; [exact Hsz|].
      destruct T4 as [T4|(T4 & T5 & T6 & T7)].
      * left. split; [apply upd_Forall; assumption|]. auto.
      * right. unfold clients_idle in T5. rewrite Et in T5. cbn [tl] in T5.
        destruct (all_idle_split cs i p Hp T5) as (l1 & l2 & E1 & E2 & F1 & F2).
        exists l1, p', l2. split; [rewrite E1, <- E2; apply upd_app_mid|].
        split; [exact F1|]. split; [exact F2|]. rewrite T6, T7. unfold dcond.
        destruct (c_lat0 C) eqn:Hl; (split; [reflexivity|]).
        -- auto.
        -- auto.
    + destruct (alive_false s w cs l1 p0 l2 Et M1 M4) as [A1 A2].
      destruct (Nat.eq_dec i (length l1)) as [Hi|Hi].
      * assert (p = p0).
        { rewrite M1, Hi, nth_error_app2, Nat.sub_diag in Hp by lia. injection Hp as ->. reflexivity. }
        subst p0.
        destruct (client_step_dead s (S i) c p w cs (Nat.neq_succ_0 i) Hc M4 Hp' Et M5)
          as (p' & T1 & T2 & T3 & T4 & T5).
        rewrite Et in T1. cbn [upd] in T1.
        exists w, (upd cs i p'). split; [exact T1|]. split; [exact Hw|].
        split; [apply upd_Forall; assumption|]. split; [exact Hhw|].
        split; [intros Hx; destruct T4 as [T4|T4]; [rewrite T4; auto|exact T4]|].
        right. exists l1, p', l2. split; [rewrite M1, Hi; apply upd_app_mid|]. auto.
      * assert (p = Idle).
        { rewrite M1 in Hp. destruct (Nat.lt_ge_cases i (length l1)) as [Hlt|Hge].
          - rewrite nth_error_app1 in Hp by exact Hlt. apply nth_error_In in Hp.
            eapply Forall_forall in M2; [|exact Hp]. auto.
          - rewrite nth_error_app2 in Hp by lia. destruct (i - length l1) as [|k] eqn:Hk; [lia|].
            cbn in Hp. apply nth_error_In in Hp. eapply Forall_forall in M3; [|exact Hp]. auto. }
        subst p.
        assert (Hsame : fst (step_thread C s (S i) c Idle) = s).
        { cbn [step_thread]. rewrite A1, A2. cbn. destruct c; reflexivity. }
        rewrite Hsame. exists w, cs. split; [exact Et|]. split; [exact Hw|]. split; [exact Hcs|].
        split; [exact Hhw|]. split; [exact Hsz|]. right. exists l1, p0, l2. auto.
Qed.

Lemma init_life n : Life (init C op n).
Proof.
  exists (if c_lat0 C then WDone else if op then WWait else WDone), (repeat Idle n).
  split; [reflexivity|]. split; [destruct (c_lat0 C), op; reflexivity|].
  split; [apply Forall_forall; intros x Hx; apply repeat_spec in Hx; subst; reflexivity|].
  unfold hw. split; [destruct (c_lat0 C), op; (reflexivity || discriminate)|].
  split; [destruct (c_lat0 C), op; discriminate|].
  left. split; [apply Forall_forall; intros x Hx; apply repeat_spec in Hx; subst; reflexivity|].
  split; [reflexivity|]. unfold hw. destruct (c_lat0 C), op; cbn; discriminate.
Qed.

Lemma reach_life n s ls : reach C op n s ls -> Life s.
Proof.
  revert s ls. apply (reach_ind C op n (fun s _ => Life s)); [apply init_life|].
  intros s ls m _ H. apply step_life. exact H.
Qed.

End Life.
