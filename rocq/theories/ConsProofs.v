(** * Several writers on one standard stream (C108) *)
From Coq Require Import List Arith NArith Bool Lia.
From Verif Require Import Base LevelModel SinkModel SinkSpec SinkProofs SinkLabels SinkLife SinkProps SinkReturn ConsModel ConsSpec.
Import ListNotations.

Section Cons.
Context {E : Type}.
Variable cf : nat -> cfg E.
Variable n : nat -> nat.
Hypothesis cons : console_sinks cf.

Lemma in_sink_app i (a b : list (seen E)) : in_sink i (a ++ b) = in_sink i a ++ in_sink i b.
Proof using Type. apply flat_map_app. Qed.
Lemma in_sink_own i (l : list (label E)) : in_sink i (map (SawSink i) l) = l.
Proof using Type. induction l as [|x l IH]; [reflexivity|]. cbn. rewrite Nat.eqb_refl. cbn. f_equal. exact IH. Qed.
Lemma in_sink_other i j (l : list (label E)) : i <> j -> in_sink i (map (SawSink j) l) = [].
Proof using Type. intros N. induction l as [|x l IH]; [reflexivity|]. cbn. rewrite (proj2 (Nat.eqb_neq j i) (not_eq_sym N)). exact IH. Qed.

Lemma cexec_app (w : console E) a b : cexec cf w (a ++ b) =
  (let '(w1, l1) := cexec cf w a in let '(w2, l2) := cexec cf w1 b in (w2, l1 ++ l2)).
Proof using Type.
  revert w. induction a as [|m a IH]; intros w; cbn [app cexec]; [destruct (cexec cf w b); reflexivity|].
  destruct (cstep cf w m) as [w1 l1]. rewrite IH. destruct (cexec cf w1 a) as [w2 l2]. destruct (cexec cf w2 b) as [w3 l3].
  rewrite app_assoc. reflexivity.
Qed.

Lemma creach_ind (P : console E -> list (seen E) -> Prop) :
  P (cinit cf n) [] ->
  (forall w tr x, creach cf n w tr -> P w tr -> P (fst (cstep cf w x)) (tr ++ snd (cstep cf w x))) ->
  forall w tr, creach cf n w tr -> P w tr.
Proof using Type.
  intros P0 PS w tr (ms & He). revert w tr He. induction ms as [|m ms IH] using rev_ind; intros w tr He.
  - cbn in He. injection He as <- <-. exact P0.
  - rewrite cexec_app in He. destruct (cexec cf (cinit cf n) ms) as [w1 l1] eqn:E1. cbn [cexec] in He.
    pose proof (PS w1 l1 m (ex_intro _ ms E1) (IH w1 l1 eq_refl)) as H. destruct (cstep cf w1 m) as [w2 l2]. rewrite app_nil_r in He.
    injection He as <- <-. exact H.
Qed.

Lemma member_reach w tr : creach cf n w tr -> forall i, reach (cf i) true (n i) (member w i) (in_sink i tr).
Proof using Type.
  revert w tr. apply (creach_ind (fun w tr => forall i, reach (cf i) true (n i) (member w i) (in_sink i tr))).
  - intros i. exists []. reflexivity.
  - intros w tr x _ IH i. destruct x as [j t c|b| |k]; cbn [cstep].
    + destruct (step (cf j) (member w j) (MThread t c)) as [s ls] eqn:Es. cbn [fst snd]. rewrite in_sink_app.
      replace (member _ i) with (put_member (member w) j s i) by (destruct (at_flush (member w j) t); reflexivity).
      unfold put_member. destruct (Nat.eqb i j) eqn:X.
      * apply Nat.eqb_eq in X. subst j. rewrite in_sink_own. destruct (IH i) as (ms & He). exists (ms ++ [MThread t c]).
        rewrite exec_app, He. cbn [exec]. rewrite Es, app_nil_r. reflexivity.
      * apply Nat.eqb_neq in X. rewrite in_sink_other by exact X. rewrite app_nil_r. apply IH.
    + cbn [fst snd member]. rewrite in_sink_app. cbn. rewrite app_nil_r. apply IH.
    + cbn [fst snd member]. rewrite app_nil_r. apply IH.
    + cbn [fst snd member]. rewrite app_nil_r. apply IH.
Qed.

(** What the threads of one sink do alone they can do whatever the others have done. *)
Theorem console_execution i (ms : list (nat * choice E)) : forall (w : console E) s ls,
  exec (cf i) (member w i) (map (fun m => MThread (fst m) (snd m)) ms) = (s, ls) ->
  exists w' tr, cexec cf w (map (fun m => CSink i (fst m) (snd m)) ms) = (w', tr) /\
    member w' i = s /\ in_sink i tr = ls /\ forall j, j <> i -> member w' j = member w j /\ in_sink j tr = [].
Proof using Type.
  induction ms as [|[t c] ms IH]; intros w s ls X; cbn [map cexec exec fst snd] in *.
  - injection X as <- <-. exists w, []. auto.
  - destruct (step (cf i) (member w i) (MThread t c)) as [s1 l1] eqn:E1.
    destruct (exec (cf i) s1 _) as [s2 l2] eqn:E2. injection X as <- <-. cbn [cstep]. rewrite E1.
    set (w1 := if at_flush (member w i) t then _ else _).
    assert (O1 : forall j, member w1 j = put_member (member w) i s1 j) by (intros j; unfold w1; destruct (at_flush (member w i) t); reflexivity).
    destruct (IH w1 s2 l2) as (w' & tr & X2 & Y1 & Y2 & Y3); [rewrite O1; unfold put_member; rewrite Nat.eqb_refl; exact E2|].
    rewrite X2. eexists _, _. split; [reflexivity|]. split; [exact Y1|]. split; [rewrite in_sink_app, in_sink_own, Y2; reflexivity|].
    intros j Hj. destruct (Y3 j Hj) as [Z1 Z2]. split; [rewrite Z1, O1; unfold put_member; now rewrite (proj2 (Nat.eqb_neq j i) Hj)|].
    rewrite in_sink_app, in_sink_other, Z2 by exact Hj. reflexivity.
Qed.

(** The pieces, in the order in which they were given to the stream. *)
Definition piece_of (x : seen E) : list (piece E) :=
  match x with SawSink i (LWrite _ e) => [Record_of i e] | SawProgram b => [Program b] | _ => [] end.
Definition pieces (tr : list (seen E)) : list (piece E) := flat_map piece_of tr.

Lemma pieces_app a b : pieces (a ++ b) = pieces a ++ pieces b.
Proof using Type. apply flat_map_app. Qed.
Lemma pieces_text i ls : concat (map (piece_text cf) (pieces (map (SawSink i) ls))) = write_of (cf i) ls.
Proof using Type.
  induction ls as [|l ls IH]; [reflexivity|]. cbn [map pieces flat_map write_of].
  rewrite map_app, concat_app. unfold pieces in IH. rewrite IH. destruct l; cbn; rewrite ?app_nil_r; reflexivity.
Qed.
Lemma records_pieces i tr : records i (pieces tr) = written (in_sink i tr).
Proof using Type.
  induction tr as [|x tr IH]; [reflexivity|]. change (x :: tr) with ([x] ++ tr). rewrite pieces_app, in_sink_app.
  unfold records, written in *. rewrite !flat_map_app, IH. f_equal. destruct x as [j l|b]; [|reflexivity].
  cbn. destruct l; cbn; destruct (Nat.eqb j i); reflexivity.
Qed.
Lemma program_pieces tr : program (pieces tr) = printed tr.
Proof using Type.
  induction tr as [|x tr IH]; [reflexivity|]. change (x :: tr) with ([x] ++ tr). rewrite pieces_app.
  unfold program, printed in *. rewrite !flat_map_app, IH. f_equal. destruct x as [j l|b]; [|reflexivity]. destruct l; reflexivity.
Qed.

Lemma flush_writes_nothing C (s : state E) t c : at_flush s t = true -> write_of C (snd (step C s (MThread t c))) = [].
Proof using Type.
  unfold at_flush. cbn [step]. destruct (nth_error (thr s) t) as [p|]; [|discriminate]. destruct p; try discriminate. reflexivity.
Qed.

Lemma all_text w tr : creach cf n w tr -> the_console w = concat (map (piece_text cf) (pieces tr)).
Proof using Type.
  revert w tr. apply (creach_ind (fun w tr => the_console w = concat (map (piece_text cf) (pieces tr)))); [reflexivity|].
  intros w tr x _ IH. unfold the_console in *. rewrite pieces_app, map_app, concat_app, <- IH.
  destruct x as [j t c|b| |k]; cbn [cstep].
  - pose proof (flush_writes_nothing (cf j) (member w j) t c) as Z.
    destruct (step (cf j) (member w j) (MThread t c)) as [s ls]. cbn [fst snd] in *. rewrite pieces_text.
    destruct (at_flush (member w j) t); cbn [shown kept]; [rewrite (Z eq_refl), !app_nil_r; reflexivity|rewrite app_assoc; reflexivity].
  - cbn. rewrite app_nil_r, app_assoc. reflexivity.
  - cbn. rewrite !app_nil_r. reflexivity.
  - cbn. rewrite app_nil_r, <- app_assoc, firstn_skipn. reflexivity.
Qed.

Theorem console_whole w tr : (forall i, sizes_ok (cf i)) -> creach cf n w tr ->
  exists ps, the_console w = concat (map (piece_text cf) ps) /\ program ps = printed tr /\
    forall i, (exists r, accepted (in_sink i tr) = records i ps ++ r) /\
      (forall t, c_lat0 (cf i) = false -> In (SawSink i (LDestroyed t)) tr -> accepted (in_sink i tr) = records i ps).
Proof using cons.
  intros sz Hr. exists (pieces tr). split; [exact (all_text w tr Hr)|]. split; [apply program_pieces|].
  intros i. rewrite records_pieces. pose proof (member_reach w tr Hr i) as R.
  assert (K : c_kind (cf i) <> KSyslog) by (rewrite cons; discriminate). split.
  - destruct (output_is_accepted (cf i) (n i) _ _ (sz i) K R) as (A & _). exists (pending (member w i)). exact A.
  - intros t L0 Hin.
    assert (Hd : In (LDestroyed t) (in_sink i tr)).
    { unfold in_sink. apply in_flat_map. exists (SawSink i (LDestroyed t)). split; [exact Hin|]. cbn. rewrite Nat.eqb_refl. left. reflexivity. }
    destruct (destroyed_complete (cf i) (n i) _ _ t (sz i) L0 R Hd) as (A & _). symmetry. exact A.
Qed.
End Cons.
