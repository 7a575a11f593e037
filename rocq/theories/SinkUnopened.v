(** * A file sink whose file could not be opened at first (C99) *)
From Coq Require Import List Arith NArith Bool Lia.
From Verif Require Import Base LevelModel SinkModel SinkSpec SinkProofs SinkLabels SinkLife SinkProps SinkProgress SinkReturn.
Import ListNotations.

Section Unopened.
Context {E : Type}.
Variable C : cfg E.
Notation state := (state E).
Notation pc := (pc E).

Ltac split_all :=
  repeat match goal with
  | |- context [match ?x with _ => _ end] =>
      match type of x with
      | choice _ => destruct x
      | bool => destruct x eqn:?
      | list _ => destruct x eqn:?
      | option _ => destruct x
      | stage => destruct x
      | reopen => destruct x
      | sink_kind => destruct x eqn:?
      | cont _ => destruct x
      | SinkModel.pc _ => destruct x
      end
  end.

Definition opens (l : label E) : bool :=
  match l with LReopen _ ROFail => false | LReopen _ _ => true | _ => false end.

Lemma opened_step s m :
  opened (fst (step C s m)) = opened s || existsb opens (snd (step C s m)) /\
  (opened s = true -> lost (snd (step C s m)) = []) /\
  (opened s = false -> c_kind C <> KSyslog -> written (snd (step C s m)) = []).
Proof.
  destruct m as [t c|k]; cbn [step]; [|cbn; rewrite orb_false_r; auto].
  destruct (nth_error (thr s) t) as [p|]; [|cbn; rewrite orb_false_r; auto].
  destruct p as [ |e|x e|x e| | | |k|k|k e|k oe|k|k|k|k|k|k| | | | | | | | | ]; cbn [step_thread ret_label after_flush];
    split_all; cbn [fst snd s_thr s_q s_acc s_flags s_out opened existsb opens lost written flat_map app];
    rewrite ?orb_false_r, ?orb_true_r; try (split; [first [reflexivity|congruence]|split; intros; try reflexivity; congruence]);
    destruct k; cbn [ret_label existsb opens lost written flat_map app]; rewrite ?orb_false_r; try (split; [first [reflexivity|congruence]|split; intros; try reflexivity; congruence]).
Qed.

Lemma opened_exec ms : forall s s' l, exec C s ms = (s', l) ->
  opened s' = opened s || existsb opens l /\
  (opened s = true -> lost l = []) /\
  (opened s = false -> existsb opens l = false -> c_kind C <> KSyslog -> written l = []).
Proof.
  induction ms as [|m ms IH]; intros s s' l He; cbn [exec] in He.
  - injection He as <- <-. cbn. rewrite orb_false_r. auto.
  - destruct (step C s m) as [s1 l1] eqn:E1. destruct (exec C s1 ms) as [s2 l2] eqn:E2. injection He as <- <-.
    pose proof (opened_step s m) as (A1 & A2 & A3). rewrite E1 in A1, A2, A3. cbn [fst snd] in *.
    destruct (IH _ _ _ E2) as (B1 & B2 & B3). rewrite existsb_app, lost_app, written_app.
    split; [rewrite B1, A1, orb_assoc; reflexivity|]. split.
    + intros O. rewrite A2, B2; auto. rewrite A1, O. reflexivity.
    + intros O H K. apply orb_false_iff in H. destruct H as [H1 H2]. rewrite A3, B3; auto. rewrite A1, O, H1. reflexivity.
Qed.

(** Once it is open, nothing is lost. *)
Theorem once_open op n s ls m s1 l1 t r ms s2 l2 : reach C op n s ls -> step C s m = (s1, l1) ->
  In (LReopen t r) l1 -> r <> ROFail -> exec C s1 ms = (s2, l2) -> lost l2 = [].
Proof.
  intros _ Hs Hin Hr He. pose proof (opened_step s m) as (A & _). rewrite Hs in A. cbn [fst snd] in A.
  assert (X : existsb opens l1 = true). { apply existsb_exists. exists (LReopen t r). split; [exact Hin|]. destruct r; auto. }
  rewrite X, orb_true_r in A. destruct (opened_exec ms _ _ _ He) as (_ & B & _). auto.
Qed.

(** Before, nothing is written. *)
Theorem before_open n s ls : c_kind C = KFile -> reach C false n s ls ->
  (forall t r, In (LReopen t r) ls -> r = ROFail) -> written ls = [].
Proof.
  intros K (ms & He) H. destruct (opened_exec ms _ _ _ He) as (_ & _ & B).
  apply B; [reflexivity| |congruence]. apply not_true_iff_false. intros X. apply existsb_exists in X.
  destruct X as (x & Hx & Ho). destruct x; try discriminate. rewrite (H _ _ Hx) in Ho. discriminate.
Qed.

(** There is no worker. *)
Lemma no_worker n s ls : c_lat0 C = false -> reach C false n s ls -> nth_error (thr s) 0 = Some WDone.
Proof.
  intros L H. revert s ls H. apply reach_ind.
  - cbn. rewrite L. reflexivity.
  - intros s ls [t c|k] _ IH; [|exact IH]. cbn [step]. destruct t as [|t].
    + rewrite IH. cbn. exact IH.
    + destruct (nth_error (thr s) (S t)) as [p|] eqn:Hp; [|exact IH].
      destruct (step_own C s (S t) c p Hp) as [_ (p' & ->)]. rewrite nth_error_upd_other by discriminate. exact IH.
Qed.

Definition on_way (p : pc) : Prop := match p with DStore | DNtf | DJoin | DClose | Dead => True | _ => False end.
Definition going (t : nat) (q0 : list (entry E)) (s : state) : Prop :=
  q s = q0 /\ (exists p, nth_error (thr s) t = Some p /\ on_way p) /\
  (forall u p, u <> t -> nth_error (thr s) u = Some p -> p = Idle \/ p = WDone).

Lemma going_step t q0 s m : t <> 0 -> going t q0 s ->
  going t q0 (fst (step C s m)) /\ written (snd (step C s m)) = [] /\ lost (snd (step C s m)) = [].
Proof.
  intros T0 (Gq & (p & Hp & Wp) & Go). destruct m as [u c|k].
  2:{ cbn. repeat split; auto. exists p. auto. }
  cbn [step]. destruct (Nat.eq_dec u t) as [->|Ne].
  - rewrite Hp. assert (Hlt : t < length (thr s)) by (apply nth_error_Some; congruence).
    assert (G : forall s' p', q s' = q s -> thr s' = upd (thr s) t p' -> on_way p' -> going t q0 s').
    { intros s' p' Hq Ht Ho. split; [congruence|]. split.
      - exists p'. split; [rewrite Ht; apply nth_error_upd; exact Hlt|exact Ho].
      - intros v x Hv Hx. rewrite Ht, nth_error_upd_other in Hx by auto. eauto. }
    assert (G0 : going t q0 s). { split; [exact Gq|]. split; [exists p; auto|exact Go]. }
    destruct p; try (destruct Wp); cbn [step_thread].
    + split; [eapply G; [reflexivity|reflexivity|exact I]|split; reflexivity].
    + split; [eapply G; [reflexivity|reflexivity|exact I]|split; reflexivity].
    + destruct (nth_error (thr s) 0) as [[]|]; cbn [fst snd]; try (split; [exact G0|split; reflexivity]).
      split; [eapply G; [reflexivity|reflexivity|exact I]|split; reflexivity].
    + destruct (c_kind C); cbn [fst snd]; (split; [eapply G; [reflexivity|reflexivity|exact I]|split; reflexivity]).
    + cbn [fst snd]. split; [exact G0|split; reflexivity].
  - destruct (nth_error (thr s) u) as [x|] eqn:Hx.
    2:{ cbn. split; [|split; reflexivity]. split; [exact Gq|]. split; [exists p; auto|exact Go]. }
    assert (G0 : going t q0 s). { split; [exact Gq|]. split; [exists p; auto|exact Go]. }
    destruct (Go u x Ne Hx) as [-> | ->]; cbn [step_thread].
    + assert (A : alive s = false).
      { unfold alive. destruct (thr s) as [|w r] eqn:Er; [destruct t; discriminate|]. destruct t as [|t]; [congruence|].
        cbn in Hp. cbn [tl]. apply not_true_iff_false. intros F. rewrite forallb_forall in F.
        specialize (F p (nth_error_In _ _ Hp)). destruct p; try (destruct Wp); discriminate. }
      assert (B : clients_idle s = false).
      { unfold clients_idle. destruct (thr s) as [|w r] eqn:Er; [destruct t; discriminate|]. destruct t as [|t]; [congruence|].
        cbn in Hp. cbn [tl]. apply not_true_iff_false. intros F. rewrite forallb_forall in F.
        specialize (F p (nth_error_In _ _ Hp)). destruct p; try (destruct Wp); discriminate. }
      rewrite A, B. cbn [andb]. destruct c; cbn [fst snd]; (split; [exact G0|split; reflexivity]).
    + cbn [fst snd]. split; [exact G0|split; reflexivity].
Qed.

Lemma going_exec t q0 ms : t <> 0 -> forall s s' l, going t q0 s -> exec C s ms = (s', l) ->
  going t q0 s' /\ written l = [] /\ lost l = [].
Proof.
  intros T0. induction ms as [|m ms IH]; intros s s' l G He; cbn [exec] in He.
  - injection He as <- <-. auto.
  - destruct (step C s m) as [s1 l1] eqn:E1. destruct (exec C s1 ms) as [s2 l2] eqn:E2. injection He as <- <-.
    destruct (going_step t q0 s m T0 G) as (G1 & A & B). rewrite E1 in G1, A, B. cbn [fst snd] in *.
    destruct (IH _ _ _ G1 E2) as (G2 & A2 & B2). rewrite written_app, lost_app, A, A2, B, B2. auto.
Qed.

(** The destructor writes nothing at all, even if the file is open by now. *)
Theorem destructor_writes_nothing n s ls t ms s' l : c_lat0 C = false -> reach C false n s ls ->
  t <> 0 -> nth_error (thr s) t = Some Idle -> clients_idle s = true ->
  exec C s (MThread t CDestroy :: ms) = (s', l) -> written l = [] /\ map (@q_ev E) (q s') = map (@q_ev E) (q s).
Proof.
  intros L Hr T0 Hi Hc He. assert (Hlt : t < length (thr s)) by (apply nth_error_Some; congruence).
  pose proof (no_worker n s ls L Hr) as W. cbn [exec step] in He. rewrite Hi in He. cbn [step_thread] in He.
  rewrite Hc, L in He. apply Nat.eqb_neq in T0 as T1. rewrite T1 in He. cbn [andb negb] in He.
  destruct (exec C (s_thr s t DStore) ms) as [s2 l2] eqn:E2. injection He as <- <-. cbn [app].
  destruct (going_exec t (q s) ms T0 (s_thr s t DStore) s2 l2) as ((Q & _) & A & _); auto.
  - split; [reflexivity|]. split; [exists DStore; split; [cbn [s_thr thr]; apply nth_error_upd; exact Hlt|exact I]|].
    intros u x Hu Hx. cbn [s_thr thr] in Hx. rewrite nth_error_upd_other in Hx by auto.
    destruct u as [|u]; [rewrite W in Hx; injection Hx as <-; auto|]. left.
    unfold clients_idle in Hc. rewrite forallb_forall in Hc. destruct (thr s) as [|w r]; [discriminate|]. cbn in Hx, Hc.
    specialize (Hc x (nth_error_In _ _ Hx)). destruct x; try discriminate. reflexivity.
  - rewrite Q. auto.
Qed.

End Unopened.
