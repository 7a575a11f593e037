(** * What has been made visible on a shared standard stream (C108) *)
From Coq Require Import List Arith NArith Bool Lia.
From Verif Require Import Base LevelModel SinkModel SinkSpec SinkProofs SinkLabels SinkLife SinkProps SinkReturn ConsModel ConsSpec ConsProofs.
Import ListNotations.

Section Shown.
Context {E : Type}.

(** A console sink never opens a file. *)
Definition no_reopen (p : pc E) : Prop := match p with FCasRot _ | FReopen _ => False | _ => True end.

Lemma upd_forall (P : pc E -> Prop) l : forall t x, Forall P l -> P x -> Forall P (upd l t x).
Proof.
  induction l as [|y l IH]; intros [|t] x H Hx; cbn; auto; inversion H; subst; constructor; auto.
Qed.

Lemma stays_away (C : cfg E) : c_kind C = KConsole -> forall s t c p, nth_error (thr s) t = Some p ->
  Forall no_reopen (thr s) -> Forall no_reopen (thr (fst (step_thread C s t c p))).
Proof.
  intros K s t c p Hp F. assert (N : no_reopen p) by (rewrite Forall_forall in F; apply F; eapply nth_error_In; exact Hp).
  assert (A : forall k : cont E, no_reopen (after_flush k)) by (intros []; exact I).
  destruct p as [ |e|m e|m e| | | |k|k|k e|k oe|k|k|k|k|k|k| | | | | | | | | ]; cbn [step_thread]; try rewrite K; try contradiction;
  repeat match goal with
  | |- context [match ?x with _ => _ end] =>
      match type of x with
      | choice _ => destruct x
      | bool => destruct x
      | list _ => destruct x
      | option _ => destruct x
      | stage => destruct x
      | reopen => destruct x
      | SinkModel.pc _ => destruct x
      end
  end; cbn [fst thr s_thr s_flags s_q s_out s_acc]; try exact F; try (apply upd_forall; [exact F|exact I || apply A]).
Qed.

(** Only a flush of the stream makes something visible. *)
Lemma visible_step (C : cfg E) : c_kind C = KConsole -> forall s t c, Forall no_reopen (thr s) ->
  disk (fst (step C s (MThread t c))) = if at_flush s t then files s else disk s.
Proof.
  intros K s t c F. cbn [step]. unfold at_flush. destruct (nth_error (thr s) t) as [p|] eqn:Hp; [|reflexivity].
  assert (N : no_reopen p) by (rewrite Forall_forall in F; apply F; eapply nth_error_In; exact Hp).
  destruct p as [ |e|m e|m e| | | |k|k|k e|k oe|k|k|k|k|k|k| | | | | | | | | ]; cbn [step_thread]; try rewrite K; try contradiction;
  repeat match goal with
  | |- context [match ?x with _ => _ end] =>
      match type of x with
      | choice _ => destruct x
      | bool => destruct x
      | list _ => destruct x
      | option _ => destruct x
      | stage => destruct x
      | reopen => destruct x
      | SinkModel.pc _ => destruct x
      end
  end; reflexivity.
Qed.

Variable cf : nat -> cfg E.
Variable n : nat -> nat.
Hypothesis cons : console_sinks cf.

Lemma members_away w tr : creach cf n w tr -> forall i, Forall no_reopen (thr (member w i)).
Proof using cons.
  revert w tr. apply (creach_ind cf n (fun w tr => forall i, Forall no_reopen (thr (member w i)))).
  - intros i. cbn [cinit member init thr]. constructor; [|apply Forall_forall; intros x Hx; apply repeat_spec in Hx; subst; exact I].
    match goal with |- context [if ?b then _ else _] => destruct b end; exact I.
  - intros w tr x _ IH i. destruct x as [j t c|b| |k]; cbn [cstep]; try exact (IH i).
    pose proof (stays_away (cf j) (cons j) (member w j) t c) as S.
    destruct (step (cf j) (member w j) (MThread t c)) as [s ls] eqn:Es. cbn [fst].
    replace (member _ i) with (put_member (member w) j s i) by (destruct (at_flush (member w j) t); reflexivity).
    unfold put_member. destruct (Nat.eqb i j) eqn:X; [|apply IH]. apply Nat.eqb_eq in X. subst j.
    cbn [step] in Es. destruct (nth_error (thr (member w i)) t) as [p|]; [|injection Es as <- <-; apply IH].
    specialize (S p eq_refl (IH i)). rewrite Es in S. exact S.
Qed.

Lemma records_app i (a b : list (piece E)) : records i (a ++ b) = records i a ++ records i b.
Proof using Type. apply flat_map_app. Qed.

(** What each sink alone would have made visible by now is visible. *)
Theorem console_visible w tr : (forall i, sizes_ok (cf i)) -> creach cf n w tr ->
  exists ps1 ps2 rest,
    the_console w = concat (map (piece_text cf) (ps1 ++ ps2)) /\ program (ps1 ++ ps2) = printed tr /\
    (forall i, records i (ps1 ++ ps2) = written (in_sink i tr)) /\
    shown w = concat (map (piece_text cf) ps1) ++ rest /\
    forall i, exists r, concat (map (c_render (cf i)) (records i ps1)) = concat (disk (member w i)) ++ r.
Proof using cons.
  intros SZ R.
  assert (G : exists ps1 ps2 rest, pieces tr = ps1 ++ ps2 /\ shown w = concat (map (piece_text cf) ps1) ++ rest /\
    forall i, exists r, concat (map (c_render (cf i)) (records i ps1)) = concat (disk (member w i)) ++ r).
  { revert w tr R. apply (creach_ind cf n (fun w tr => exists ps1 ps2 rest, pieces tr = ps1 ++ ps2 /\ shown w = concat (map (piece_text cf) ps1) ++ rest /\
      forall i, exists r, concat (map (c_render (cf i)) (records i ps1)) = concat (disk (member w i)) ++ r)).
    - exists [], [], []. split; [reflexivity|]. split; [reflexivity|]. intros i. exists []. reflexivity.
    - intros w tr x R (ps1 & ps2 & rest & P & S & D).
      assert (OTHER : shown w = concat (map (piece_text cf) ps1) ++ rest -> (exists r, shown (fst (cstep cf w x)) = shown w ++ r) ->
        (forall i, disk (member (fst (cstep cf w x)) i) = disk (member w i)) ->
        exists ps1 ps2 rest, pieces (tr ++ snd (cstep cf w x)) = ps1 ++ ps2 /\ shown (fst (cstep cf w x)) = concat (map (piece_text cf) ps1) ++ rest /\
          forall i, exists r, concat (map (c_render (cf i)) (records i ps1)) = concat (disk (member (fst (cstep cf w x)) i)) ++ r).
      { intros _ [r SR] DD. exists ps1, (ps2 ++ pieces (snd (cstep cf w x))), (rest ++ r). rewrite pieces_app, P, SR, S, <- !app_assoc.
        split; [reflexivity|]. split; [reflexivity|]. intros i. rewrite DD. apply D. }
      destruct x as [j t c|b| |k].
      2-4: apply OTHER; [exact S| |intros i; reflexivity]; cbn [cstep fst shown]; eexists; try reflexivity; symmetry; apply app_nil_r.
      pose proof (visible_step (cf j) (cons j) (member w j) t c (members_away w tr R j)) as V.
      destruct (at_flush (member w j) t) eqn:AF.
      + (* everything is passed on *)
        pose proof (flush_writes_nothing (cf j) (member w j) t c AF) as Z.
        pose proof (all_text cf n w tr R) as T. unfold the_console in T.
        cbn [cstep]. destruct (step (cf j) (member w j) (MThread t c)) as [s ls]. rewrite AF. cbn [fst snd shown member] in *.
        exists (pieces tr), (pieces (map (SawSink j) ls)), []. rewrite pieces_app, app_nil_r. split; [reflexivity|]. split; [exact T|].
        intros i. pose proof (member_reach cf n w tr R i) as RI. rewrite records_pieces.
        destruct (output_is_accepted (cf i) (n i) (member w i) (in_sink i tr) (SZ i) ltac:(rewrite (cons i); discriminate) RI) as (_ & O & _).
        unfold put_member. destruct (Nat.eqb i j) eqn:X.
        * apply Nat.eqb_eq in X. subst j. rewrite V. exists []. rewrite app_nil_r. symmetry. exact O.
        * exists (obuf (member w i)). rewrite <- O. unfold files, disk. rewrite !concat_app. cbn [concat]. rewrite !app_nil_r, app_assoc. reflexivity.
      + apply OTHER; [exact S| |].
        * exists []. rewrite app_nil_r. cbn [cstep]. destruct (step (cf j) (member w j) (MThread t c)) as [s ls]. rewrite AF. reflexivity.
        * intros i. cbn [cstep]. destruct (step (cf j) (member w j) (MThread t c)) as [s ls]. rewrite AF. cbn [fst member] in *.
          unfold put_member. destruct (Nat.eqb i j) eqn:X; [|reflexivity]. apply Nat.eqb_eq in X. subst j. exact V. }
  destruct G as (ps1 & ps2 & rest & P & S & D). exists ps1, ps2, rest. rewrite <- P.
  split; [exact (all_text cf n w tr R)|]. split; [apply program_pieces|]. split; [intros i; apply records_pieces|]. auto.
Qed.
End Shown.
