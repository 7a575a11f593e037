(** * The trace and the history variables tell the same story *)
From Coq Require Import List Arith NArith Bool Lia.
From Verif Require Import Base LevelModel SinkModel SinkSpec SinkProofs.
Import ListNotations.

Section Labels.
Context {E : Type}.
Variable C : cfg E.
Notation state := (state E).
Notation pc := (pc E).

Lemma accepts_app (a b : list (label E)) : accepts (a ++ b) = accepts a ++ accepts b.
Proof. unfold accepts. apply flat_map_app. Qed.
Lemma written_app (a b : list (label E)) : written (a ++ b) = written a ++ written b.
Proof. unfold written. apply flat_map_app. Qed.
Lemma lost_app (a b : list (label E)) : lost (a ++ b) = lost a ++ lost b.
Proof. unfold lost. apply flat_map_app. Qed.
Lemma accepted_by_app t (a b : list (label E)) : accepted_by t (a ++ b) = accepted_by t a ++ accepted_by t b.
Proof. unfold accepted_by. rewrite accepts_app, filter_app, map_app. reflexivity. Qed.
Lemma pushes_by_app t (a b : list (label E)) : pushes_by t (a ++ b) = pushes_by t a ++ pushes_by t b.
Proof. unfold pushes_by. apply flat_map_app. Qed.
Lemma fresh_app (a b : list (label E)) : fresh_files (a ++ b) = fresh_files a + fresh_files b.
Proof. unfold fresh_files. rewrite flat_map_app, app_length. reflexivity. Qed.

(** Generic induction over executions. *)
Lemma exec_app s ms1 ms2 : exec C s (ms1 ++ ms2) =
  let '(s1, l1) := exec C s ms1 in let '(s2, l2) := exec C s1 ms2 in (s2, l1 ++ l2).
Proof.
  revert s. induction ms1 as [|m ms1 IH]; intros s; cbn [exec app].
  - destruct (exec C s ms2). reflexivity.
  - destruct (step C s m) as [s1 l1]. rewrite IH. destruct (exec C s1 ms1) as [s2 l2].
    destruct (exec C s2 ms2) as [s3 l3]. rewrite app_assoc. reflexivity.
Qed.

Lemma reach_ind op n (P : state -> list (label E) -> Prop) :
  P (init C op n) [] ->
  (forall s ls m, reach C op n s ls -> P s ls ->
     P (fst (step C s m)) (ls ++ snd (step C s m))) ->
  forall s ls, reach C op n s ls -> P s ls.
Proof.
  intros H0 HS s ls (ms & Hms). revert s ls Hms.
  induction ms as [|m ms IH] using rev_ind; intros s ls Hms.
  - cbn in Hms. injection Hms as <- <-. exact H0.
  - rewrite exec_app in Hms. destruct (exec C (init C op n) ms) as [s1 l1] eqn:E1.
    cbn [exec] in Hms. destruct (step C s1 m) as [s2 l2] eqn:E2.
    injection Hms as <- <-. rewrite app_nil_r.
    specialize (HS s1 l1 m (ex_intro _ ms E1) (IH _ _ eq_refl)). rewrite E2 in HS. exact HS.
Qed.

Lemma reach_step op n s ls m : reach C op n s ls ->
  reach C op n (fst (step C s m)) (ls ++ snd (step C s m)).
Proof.
  intros (ms & H). exists (ms ++ [m]). rewrite exec_app, H. cbn [exec].
  destruct (step C s m). rewrite app_nil_r. reflexivity.
Qed.

Lemma reach_exec op n s ls ms s' ls' : reach C op n s ls -> exec C s ms = (s', ls') ->
  reach C op n s' (ls ++ ls').
Proof.
  intros (m0 & H) H'. exists (m0 ++ ms). rewrite exec_app, H, H'. reflexivity.
Qed.

(** ** History *)

Definition hist (s : state) (l : list (label E)) : Prop :=
  acc s = accepts l /\ concat (h_closed s) ++ h_cur s = written l /\ h_drop s = lost l.

Ltac clean := cbn [fst snd s_thr s_q s_acc s_flags s_out acc h_closed h_cur h_drop thr
  accepts written lost flat_map app ret_label]; rewrite ?app_nil_r.

Lemma step_hist s m :
  acc (fst (step C s m)) = acc s ++ accepts (snd (step C s m)) /\
  concat (h_closed (fst (step C s m))) ++ h_cur (fst (step C s m)) =
    (concat (h_closed s) ++ h_cur s) ++ written (snd (step C s m)) /\
  h_drop (fst (step C s m)) = h_drop s ++ lost (snd (step C s m)).
Proof.
  assert (Triv : acc s = acc s ++ [] /\
     concat (h_closed s) ++ h_cur s = (concat (h_closed s) ++ h_cur s) ++ [] /\
     h_drop s = h_drop s ++ []) by (rewrite !app_nil_r; auto).
  destruct m as [t c|n]; cbn [step]; [|exact Triv].
  destruct (nth_error (thr s) t) as [p|]; [|exact Triv].
  assert (HR : forall k : cont E, accepts (ret_label t k) = [] /\ written (ret_label t k) = [] /\ lost (ret_label t k) = []).
  { intros k. destruct k; cbn; auto. }
  destruct p as [ |e|n e|n e| | | |k|k|k e|k oe|k|k|k|k|k|k| | | | | | | | | ]; cbn [step_thread];
  repeat match goal with
  | |- context [match ?x with _ => _ end] =>
      match type of x with
      | choice _ => destruct x
      | bool => destruct x
      | list _ => destruct x
      | option _ => destruct x
      | stage => destruct x
      | sink_kind => destruct x
      | reopen => destruct x
      | SinkModel.pc _ => destruct x
      end
  end; try exact Triv; cbn [fst snd];
  try (destruct (HR k) as (HR1 & HR2 & HR3)); clean;
  rewrite ?HR1, ?HR2, ?HR3, ?app_nil_r; rewrite <- ?app_assoc, ?concat_app; cbn [concat]; rewrite ?app_nil_r; auto.
  destruct k; cbn; rewrite ?app_nil_r; auto.
Qed.

Lemma reach_hist op n s ls : reach C op n s ls -> hist s ls.
Proof.
  revert s ls. apply reach_ind.
  - repeat split.
  - intros s ls m _ (H1 & H2 & H3). destruct (step_hist s m) as (G1 & G2 & G3).
    unfold hist. rewrite accepts_app, written_app, lost_app, G1, G2, G3, H1, H2, H3. auto.
Qed.

(** ** Each thread's pushes *)

Definition admitted_by (t : nat) (ls : list (label E)) : list E :=
  map snd (filter (fun x => admits (c_level C) (fst x)) (pushes_by t ls)).

Definition pc_of (s : state) (t : nat) : pc := nth t (thr s) Dead.

Lemma admitted_app t a b : admitted_by t (a ++ b) = admitted_by t a ++ admitted_by t b.
Proof. unfold admitted_by. rewrite pushes_by_app, filter_app, map_app. reflexivity. Qed.

Lemma nth_upd_same (l : list pc) t p' d : t < length l -> nth t (upd l t p') d = p'.
Proof.
  revert t. induction l as [|x l IH]; intros [|t] H; cbn in *; try lia; [reflexivity|]. apply IH. lia.
Qed.
Lemma nth_upd_other (l : list pc) t u p' d : u <> t -> nth u (upd l t p') d = nth u l d.
Proof.
  revert t u. induction l as [|x l IH]; intros [|t] [|u] H; cbn; try reflexivity; try lia.
  apply IH. lia.
Qed.
Lemma upd_length (l : list pc) t p' : length (upd l t p') = length l.
Proof. revert t. induction l as [|x l IH]; intros [|t]; cbn; auto. Qed.

Definition own (t : nat) (l : label E) : Prop :=
  match l with
  | LPush u _ _ | LAccept u _ | LReturn u | LLock u | LWrite u _ | LLost u _ | LRotate u
  | LReopen u _ | LUnlock u | LDestroyed u => u = t
  end.

Ltac split_step :=
  repeat match goal with
  | |- context [match ?x with _ => _ end] =>
      match type of x with
      | choice _ => destruct x
      | bool => destruct x eqn:?
      | list _ => destruct x
      | option _ => destruct x
      | stage => destruct x
      | sink_kind => destruct x
      | reopen => destruct x
      | SinkModel.pc _ => destruct x
      end
  end.

(** A step of [t] changes only the control point of [t] and emits only its labels. *)
Lemma step_own s t c p : nth_error (thr s) t = Some p ->
  Forall (own t) (snd (step_thread C s t c p)) /\
  exists p', thr (fst (step_thread C s t c p)) = upd (thr s) t p'.
Proof.
  intros Hp.
  assert (Hs : exists p', thr s = upd (thr s) t p').
  { exists p. destruct (thr_split _ _ _ Hp) as (l1 & l2 & E1 & _ & E2). rewrite (E2 p). exact E1. }
  assert (HR : forall k : cont E, Forall (own t) (ret_label t k)).
  { intros k. destruct k; cbn; repeat constructor. }
  destruct p as [ |e|n e|n e| | | |k|k|k e|k oe|k|k|k|k|k|k| | | | | | | | | ]; cbn [step_thread];
  split_step; cbn [fst snd]; (split; [repeat constructor; auto|]); try exact Hs;
  try (eexists; reflexivity).
Qed.

Lemma own_other t u l : Forall (own t) l -> u <> t -> pushes_by u l = [] /\ accepted_by u l = [].
Proof.
  intros H Hu. induction H as [|x l Hx Hl IH]; [auto|]. destruct IH as [I1 I2].
  unfold pushes_by, accepted_by, accepts in *. cbn [flat_map].
  destruct x; cbn in Hx; subst; cbn; rewrite ?I1, ?I2;
    try (destruct (Nat.eqb_spec t u); [congruence|]); cbn; rewrite ?I1, ?I2; auto.
Qed.

Lemma adm_push t l e : admitted_by t [LPush t l e] = if admits (c_level C) l then [e] else [].
Proof.
  unfold admitted_by, pushes_by. cbn. rewrite Nat.eqb_refl. cbn. destruct (admits _ _); reflexivity.
Qed.

Lemma accby_accept t e : accepted_by t [@LAccept E t e] = [e].
Proof. unfold accepted_by, accepts. cbn. rewrite Nat.eqb_refl. reflexivity. Qed.

Lemma step_trying s t c p : nth_error (thr s) t = Some p ->
  trying p ++ admitted_by t (snd (step_thread C s t c p)) =
  accepted_by t (snd (step_thread C s t c p)) ++
  trying (nth t (thr (fst (step_thread C s t c p))) Dead).
Proof.
  intros Hp. assert (Hlt : t < length (thr s)) by (apply nth_error_Some; congruence).
  assert (Hn : nth t (thr s) Dead = p) by (apply nth_error_nth; exact Hp).
  destruct p as [ |e|n e|n e| | | |k|k|k e|k oe|k|k|k|k|k|k| | | | | | | | | ]; cbn [step_thread];
  split_step; cbn [fst snd s_thr s_q s_acc s_flags s_out thr]; rewrite ?nth_upd_same by exact Hlt; rewrite ?Hn;
    try (destruct k; reflexivity); try reflexivity.
  - rewrite adm_push, Heqb0. reflexivity.
  - change [LPush t l e; LReturn t] with ([LPush t l e] ++ [@LReturn E t]).
    rewrite admitted_app, adm_push, Heqb0. reflexivity.
  - rewrite accby_accept. reflexivity.
Qed.

Lemma reach_pushes op n s ls : reach C op n s ls ->
  forall t, t < length (thr s) -> admitted_by t ls = accepted_by t ls ++ trying (pc_of s t).
Proof.
  revert s ls. apply (reach_ind op n (fun s ls => forall t, t < length (thr s) ->
     admitted_by t ls = accepted_by t ls ++ trying (pc_of s t))).
  - intros t Ht. cbn. unfold pc_of. cbn [thr init]. destruct t as [|t].
    + cbn. destruct (c_lat0 C), op; reflexivity.
    + cbn. destruct (Nat.ltb_spec t n).
      * rewrite (nth_indep _ _ Idle) by (rewrite repeat_length; exact H). rewrite nth_repeat. reflexivity.
      * rewrite nth_overflow by (rewrite repeat_length; lia). reflexivity.
  - intros s ls m _ IH u. destruct m as [t c|k]; cbn [step].
    + destruct (nth_error (thr s) t) as [p|] eqn:Hp.
      2:{ cbn [fst snd]. rewrite app_nil_r. apply IH. }
      destruct (step_own s t c p Hp) as (Ho & p' & Ep').
      pose proof (step_trying s t c p Hp) as ST. unfold pc_of. rewrite Ep' in *.
      intros Hu. rewrite upd_length in Hu. specialize (IH u Hu).
      rewrite admitted_app, accepted_by_app. destruct (Nat.eq_dec u t) as [->|Hne].
      * unfold pc_of in IH. rewrite (nth_error_nth _ _ _ Hp) in IH.
        rewrite IH, <- !app_assoc. f_equal. exact ST.
      * rewrite nth_upd_other by exact Hne. destruct (own_other t u _ Ho Hne) as [A1 A2].
        unfold admitted_by at 2. rewrite A1, A2, !app_nil_r. exact IH.
    + cbn [fst snd]. rewrite app_nil_r. apply IH.
Qed.

Lemma admits_iff lv l : admits lv l = for_sink lv l.
Proof. destruct lv, l; reflexivity. Qed.

Lemma admitted_for_sink t ls : admitted_by t ls = for_sink_by (c_level C) t ls.
Proof.
  unfold admitted_by, for_sink_by. f_equal. apply filter_ext. intros x. apply admits_iff.
Qed.

End Labels.
