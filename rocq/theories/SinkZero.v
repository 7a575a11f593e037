(** * Zero latency (C23, C26) *)
From Coq Require Import List Arith NArith Bool Lia.
From Verif Require Import Base LevelModel SinkModel SinkSpec SinkProofs SinkLabels SinkLife SinkProps SinkProgress SinkReturn.
Import ListNotations.

Section Zero.
Context {E : Type}.
Variable C : cfg E.
Notation state := (state E).
Notation pc := (pc E).
Hypothesis sz : sizes_ok C.
Hypothesis lat : c_lat0 C = true.
Hypothesis cap_pos : 1 <= c_cap C.

(** ** One client *)

Definition zmax (p : pc) : nat :=
  match p with PAdd _ _ | PRel _ _ | PDecide | FTas _ | FGet _ => 1 | _ => 0 end.
Definition zok (p : pc) : bool :=
  match p with
  | WWait | WFin | WSize | WDone | DStore | DNtf | DJoin => false
  | _ => match kof p with Some (KRetry _) | Some KWorker => false | _ => true end
  end.

Lemma zero_step s c p : zok p = true -> thr s = [WDone; p] -> length (q s) <= zmax p ->
  (fl p = [] -> fip s = false) ->
  exists p', thr (fst (step_thread C s 1 c p)) = [WDone; p'] /\ zok p' = true /\
    length (q (fst (step_thread C s 1 c p))) <= zmax p'.
Proof.
  intros Hk Et Hq Hf.
  destruct p as [ |e|x e|x e| | | |k|k|k e|k oe|k|k|k|k|k|k| | | | | | | | | ]; try discriminate Hk;
  try (destruct k; try discriminate Hk); cbn [zmax] in Hq; cbn [step_thread after_flush]; rewrite ?lat;
  try rewrite (Hf eq_refl).
  all: repeat match goal with
  | |- context [match ?x with _ => _ end] =>
      match type of x with
      | choice _ => destruct x
      | bool => destruct x eqn:?
      | list _ => destruct x eqn:?
      | option _ => destruct x
      | stage => destruct x
      | sink_kind => destruct x eqn:?
      | reopen => destruct x
      end
  end; cbn [fst snd s_thr s_q s_acc s_flags s_out thr q]; rewrite ?Et; cbn [upd];
  try (exfalso; apply Nat.ltb_ge in Heqb; lia);
  (eexists; split; [reflexivity|]); (split; [reflexivity|]); cbn [zmax];
  rewrite ?set_stage_len, ?app_length; cbn [length] in *; try lia.
  all: rewrite Heql; cbn [length]; lia.
Qed.

Lemma zero_inv op s ls : has_dest C op -> reach C op 1 s ls ->
  exists p, thr s = [WDone; p] /\ zok p = true /\ length (q s) <= zmax p.
Proof.
  intros Hd. revert s ls. apply (reach_ind C op 1 (fun s _ =>
     exists p, thr s = [WDone; p] /\ zok p = true /\ length (q s) <= zmax p)).
  - exists Idle. cbn. rewrite lat. auto.
  - intros s ls m Hr (p & Et & Hk & Hq). destruct m as [t c|k]; cbn [step]; [|exists p; auto].
    destruct t as [|[|t]].
    + rewrite Et. cbn. exists p. auto.
    + assert (Hp : nth_error (thr s) 1 = Some p) by (rewrite Et; reflexivity). rewrite Hp.
      apply zero_step; auto.
      pose proof (reach_inv C op 1 s ls sz Hd Hr) as HI.
      destruct (quiet_queue C s 1 p HI Hp) as [_ Q2]; [|exact Q2].
      intros u x Hu Hne. rewrite Et in Hu. destruct u as [|[|u]]; [|congruence|destruct u; discriminate].
      injection Hu as <-. repeat split.
    + rewrite Et. cbn. destruct t; cbn; exists p; auto.
Qed.

Lemma single_client s ls p : reach C true 1 s ls -> nth_error (thr s) 1 = Some p ->
  p = Idle \/ p = Dead -> written ls = accepted ls.
Proof.
  intros Hr Hp Hi. destruct (zero_inv true s ls (or_intror eq_refl) Hr) as (p' & Et & Hk & Hq).
  rewrite (syslog_in_order C 1 s ls sz Hr). unfold pending. rewrite Et in *. cbn in Hp. injection Hp as ->.
  assert (Hz : q s = []).
  { destruct Hi as [-> | ->]; cbn in Hq; destruct (q s); (reflexivity || (cbn in Hq; lia)). }
  rewrite Hz. destruct Hi as [-> | ->]; cbn; rewrite app_nil_r; reflexivity.
Qed.

(** ** Destruction *)

Lemma others_frozen n op s ls t p u c : reach C op n s ls -> nth_error (thr s) t = Some p ->
  destroying p = true -> u <> t -> step C s (MThread u c) = (s, []).
Proof.
  intros Hr Hp Hd Hut. pose proof (reach_life C op n s ls Hr) as HL.
  destruct (life_destroyer C op s t p HL Hp Hd) as (Ht & w & cs & Et & Hw & Ho & Hdc & A1 & A2 & Hsz & Hhw).
  destruct (nth_error (thr s) u) as [x|] eqn:Hu; [|cbn; rewrite Hu; reflexivity].
  destruct (Nat.eq_dec u 0) as [->|Hu0].
  - cbn [step]. rewrite Et. cbn [nth_error]. rewrite Hhw by (unfold hw; rewrite lat; reflexivity). reflexivity.
  - rewrite (Ho u x Hu Hut Hu0) in Hu. apply idle_frozen; assumption.
Qed.

Lemma destroyer_fip n op s ls t p : has_dest C op -> reach C op n s ls -> nth_error (thr s) t = Some p ->
  destroying p = true -> fl p = [] -> fip s = false.
Proof.
  intros Hde Hr Hp Hd. pose proof (reach_life C op n s ls Hr) as HL.
  pose proof (reach_inv C op n s ls sz Hde Hr) as HI.
  destruct (life_destroyer C op s t p HL Hp Hd) as (Ht & w & cs & Et & Hw & Ho & Hdc & A1 & A2 & Hsz & Hhw).
  destruct (quiet_queue C s t p HI Hp) as [_ Q2]; [|exact Q2].
  intros u x Hu Hne. destruct (Nat.eq_dec u 0) as [->|Hu0].
  - rewrite Et in Hu. injection Hu as <-. rewrite Hhw by (unfold hw; rewrite lat; reflexivity). repeat split.
  - rewrite (Ho u x Hu Hne Hu0). repeat split.
Qed.

(** Queue length the destructor may still find. *)
Definition dmax (k : nat) (p : pc) (qq : list (entry E)) : Prop :=
  match c_kind C with
  | KSyslog => match p with FTas _ | FGet _ | FSub _ _ => True | _ => qq = [] end
  | _ => match p with FTas _ | FGet _ => length qq <= k | _ => length qq <= pred k end
  end.

Lemma dmax_step k s t c p : nth_error (thr s) t = Some p -> destroying p = true ->
  match p with DStore | DNtf | DJoin => False | _ => True end ->
  (fl p = [] -> fip s = false) -> dmax k p (q s) ->
  exists p', thr (fst (step_thread C s t c p)) = upd (thr s) t p' /\ destroying p' = true /\
    dmax k p' (q (fst (step_thread C s t c p))).
Proof.
  intros Hp Hd Hn Hf H.
  assert (Et : thr s = upd (thr s) t p).
  { destruct (thr_split _ _ _ Hp) as (l1 & l2 & E1 & _ & E2). rewrite (E2 p). exact E1. }
  unfold dmax in *.
  destruct p as [ |e|x e|x e| | | |k0|k0|k0 e|k0 oe|k0|k0|k0|k0|k0|k0| | | | | | | | | ];
  try discriminate Hd; try contradiction;
  try (destruct k0; try discriminate Hd); cbn [step_thread after_flush];
  try rewrite (Hf eq_refl);
  repeat match goal with
  | |- context [match ?x with _ => _ end] =>
      match type of x with
      | choice _ => destruct x
      | bool => destruct x
      | list _ => destruct x eqn:?
      | option _ => destruct x
      | stage => destruct x
      | sink_kind => destruct x eqn:?
      | reopen => destruct x
      end
  end; cbn [fst snd s_thr s_q s_acc s_flags s_out thr q];
  (eexists; split; [first [exact Et|reflexivity]|]); (split; [reflexivity|]); cbn [length] in *;
  repeat match goal with H : q s = _ |- _ => rewrite H in * end; cbn [length] in *; auto; try lia.
Qed.

Lemma dmax_exec k t ms : forall n op s ls p s' l', has_dest C op -> reach C op n s ls ->
  nth_error (thr s) t = Some p -> destroying p = true -> dmax k p (q s) ->
  exec C s ms = (s', l') ->
  exists p', nth_error (thr s') t = Some p' /\ destroying p' = true /\ dmax k p' (q s').
Proof.
  induction ms as [|m ms IH]; intros n op s ls p s' l' Hde Hr Hp Hd Hm He.
  - cbn in He. injection He as <- <-. eauto.
  - cbn [exec] in He. pose proof (reach_step C op n s ls m Hr) as Hr1.
    assert (G : exists p1, nth_error (thr (fst (step C s m))) t = Some p1 /\ destroying p1 = true /\
                           dmax k p1 (q (fst (step C s m)))).
    { destruct m as [u c|j]; [|cbn; eauto]. destruct (Nat.eq_dec u t) as [->|Hut].
      - cbn [step]. rewrite Hp.
        assert (Hn : match p with DStore | DNtf | DJoin => False | _ => True end).
        { destruct (life_destroyer C op s t p (reach_life C op n s ls Hr) Hp Hd)
            as (_ & w & cs & _ & _ & _ & Hdc & _). unfold dcond in Hdc. rewrite lat in Hdc. apply Hdc. }
        destruct (dmax_step k s t c p Hp Hd Hn (destroyer_fip n op s ls t p Hde Hr Hp Hd) Hm) as (p1 & T1 & T2 & T3).
        exists p1. split; [rewrite T1; apply nth_error_upd; apply nth_error_Some; congruence|]. auto.
      - rewrite (others_frozen n op s ls t p u c Hr Hp Hd Hut). cbn. eauto. }
    destruct (step C s m) as [s1 l1]. cbn [fst snd] in *. destruct (exec C s1 ms) as [s2 l2] eqn:E2.
    injection He as <- <-. destruct G as (p1 & G1 & G2 & G3).
    exact (IH n op s1 (ls ++ l1) p1 s2 l2 Hde Hr1 G1 G2 G3 E2).
Qed.

(** The destructor hands over the oldest event (file, console) or all (syslog). *)
Lemma zero_destroy n s ls t ms s' l' : reach C true n s ls -> t <> 0 ->
  nth_error (thr s) t = Some Idle -> clients_idle s = true ->
  exec C s (MThread t CDestroy :: ms) = (s', l') -> In (LDestroyed t) l' ->
  accepted (ls ++ l') = written (ls ++ l') ++ map (@q_ev E) (q s') /\
  length (q s') <= match c_kind C with KSyslog => 0 | _ => pred (length (q s)) end.
Proof.
  intros Hr Ht Hp Hci He Hin. assert (Hde : has_dest C true) by (right; reflexivity).
  assert (Hst : step C s (MThread t CDestroy) = (s_thr s t (FTas KDestroy), [])).
  { cbn [step]. rewrite Hp. cbn [step_thread]. rewrite Hci, lat.
    destruct (Nat.eqb_spec t 0); [contradiction|]. reflexivity. }
  pose proof (reach_exec C true n s ls _ s' l' Hr He) as Hr'.
  destruct (destroyed_dead C true n s' (ls ++ l') t Hr') as [D1 _].
  { apply in_app_iff. auto. }
  pose proof (reach_step C true n s ls (MThread t CDestroy) Hr) as Hr1. rewrite Hst in Hr1. cbn [fst snd] in Hr1.
  cbn [exec] in He. rewrite Hst in He. destruct (exec C (s_thr s t (FTas KDestroy)) ms) as [s2 l2] eqn:E2.
  injection He as <- <-.
  destruct (dmax_exec (length (q s)) t ms n true _ _ (FTas KDestroy) s2 l2 Hde Hr1) as (p' & G1 & G2 & G3);
    [cbn; apply nth_error_upd; apply nth_error_Some; congruence|reflexivity| |exact E2|].
  { unfold dmax. destruct (c_kind C); cbn; auto. }
  rewrite D1 in G1. injection G1 as <-.
  split.
  - rewrite (syslog_in_order C n s2 _ sz Hr'). unfold pending.
    rewrite (dead_no_hand C true s2 t (reach_life C true n _ _ Hr') D1). reflexivity.
  - unfold dmax in G3. destruct (c_kind C); auto. rewrite G3. auto.
Qed.

End Zero.
