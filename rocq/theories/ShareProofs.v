(** * Several sinks writing to one file (C107) *)
From Coq Require Import List Arith NArith Bool Lia.
From Verif Require Import Base LevelModel SinkModel SinkSpec SinkProofs SinkLabels SinkLife SinkProps SinkReturn ShareModel ShareSpec.
Import ListNotations.

Section Share.
Context {E : Type}.
Variable cf : nat -> cfg E.
Variable n : nat -> nat.
Hypothesis files_only : file_sinks cf.

Lemma of_sink_app {A} i (a b : list (nat * A)) : of_sink i (a ++ b) = of_sink i a ++ of_sink i b.
Proof. unfold of_sink. rewrite filter_app, map_app. reflexivity. Qed.
Lemma of_sink_own {A} i (l : list A) : of_sink i (map (fun x => (i, x)) l) = l.
Proof. unfold of_sink. induction l as [|x l IH]; [reflexivity|]. cbn. rewrite Nat.eqb_refl. cbn. rewrite IH. reflexivity. Qed.
Lemma of_sink_other {A} i j (l : list A) : i <> j -> of_sink i (map (fun x => (j, x)) l) = [].
Proof. intros N. unfold of_sink. induction l as [|x l IH]; [reflexivity|]. cbn. destruct (Nat.eqb j i) eqn:X; [apply Nat.eqb_eq in X; congruence|exact IH]. Qed.
Lemma of_sink_one {A} i j (x : A) : of_sink i [(j, x)] = if Nat.eqb j i then [x] else [].
Proof. unfold of_sink. cbn. destruct (Nat.eqb j i); reflexivity. Qed.

Lemma sexec_app (w : shared E) a b : sexec cf w (a ++ b) =
  (let '(w1, l1) := sexec cf w a in let '(w2, l2) := sexec cf w1 b in (w2, l1 ++ l2)).
Proof.
  revert w. induction a as [|m a IH]; intros w; cbn [app sexec]; [destruct (sexec cf w b); reflexivity|].
  destruct (sstep cf w m) as [w1 l1]. rewrite IH. destruct (sexec cf w1 a) as [w2 l2]. destruct (sexec cf w2 b) as [w3 l3].
  rewrite app_assoc. reflexivity.
Qed.

Lemma sreach_ind (P : shared E -> list (nat * label E) -> Prop) :
  P (sinit cf n) [] ->
  (forall w tr x, sreach cf n w tr -> P w tr -> P (fst (sstep cf w x)) (tr ++ snd (sstep cf w x))) ->
  forall w tr, sreach cf n w tr -> P w tr.
Proof using Type.
  intros P0 PS w tr (ms & He). revert w tr He. induction ms as [|m ms IH] using rev_ind; intros w tr He.
  - cbn in He. injection He as <- <-. exact P0.
  - rewrite sexec_app in He. destruct (sexec cf (sinit cf n) ms) as [w1 l1] eqn:E1. cbn [sexec] in He.
    pose proof (PS w1 l1 m (ex_intro _ ms E1) (IH w1 l1 eq_refl)) as H. destruct (sstep cf w1 m) as [w2 l2]. rewrite app_nil_r in He.
    injection He as <- <-. exact H.
Qed.

(** Each sink is the sink of [SinkModel]. *)
Lemma own_reach w tr : sreach cf n w tr -> forall i, reach (cf i) true (n i) (one w i) (of_sink i tr).
Proof using Type.
  revert w tr. apply (sreach_ind (fun w tr => forall i, reach (cf i) true (n i) (one w i) (of_sink i tr))).
  - intros i. exists []. reflexivity.
  - intros w tr [j m] _ IH i. unfold sstep. destruct (allowed m); [|cbn; rewrite app_nil_r; apply IH].
    destruct (step (cf j) (one w j) m) as [s ls] eqn:Es. cbn [fst snd one]. rewrite of_sink_app. unfold put_one.
    destruct (Nat.eqb i j) eqn:X.
    + apply Nat.eqb_eq in X. subst j. rewrite of_sink_own. destruct (IH i) as (ms & He). exists (ms ++ [m]).
      rewrite exec_app, He. cbn [exec]. rewrite Es, app_nil_r. reflexivity.
    + apply Nat.eqb_neq in X. rewrite of_sink_other by exact X. rewrite app_nil_r. apply IH.
Qed.

(** What a step does to the current file. *)
Lemma cur_grows C (s : state E) m : c_kind C = KFile -> allowed m = true -> opened s = true ->
  closed (fst (step C s m)) = closed s /\ exists x, cur (fst (step C s m)) = cur s ++ x.
Proof using Type.
  intros K A O. destruct m as [t c|k]; cbn [step].
  - destruct (nth_error (thr s) t) as [p|]; [|split; [reflexivity|exists []; rewrite app_nil_r; reflexivity]].
    destruct p as [ |e|x e|x e| | | |kk|kk|kk e|kk oe|kk|kk|kk|kk|kk|kk| | | | | | | | | ]; cbn [step_thread]; rewrite ?K, ?O;
    repeat match goal with
    | |- context [match ?x with _ => _ end] =>
      match type of x with
      | choice _ => destruct x
      | bool => destruct x eqn:?
      | list _ => destruct x eqn:?
      | option _ => destruct x eqn:?
      | stage => destruct x eqn:?
      | reopen => destruct x
      | SinkModel.pc _ => destruct x eqn:?
      end
    end; cbn [fst s_thr s_q s_acc s_flags s_out closed cur]; try discriminate;
    (split; [reflexivity|]; first [exists []; rewrite app_nil_r; reflexivity|eexists; reflexivity]).
  - split; [reflexivity|]. eexists. reflexivity.
Qed.

(** The file holds, in order, what each sink has passed on. *)
Lemma own_chunks w tr : sreach cf n w tr -> forall i, closed (one w i) = [] /\ concat (of_sink i (chunks w)) = cur (one w i).
Proof using files_only.
  revert w tr. apply (sreach_ind (fun w tr => forall i, closed (one w i) = [] /\ concat (of_sink i (chunks w)) = cur (one w i))).
  - intros i. auto.
  - intros w tr [j m] Hr IH i. unfold sstep. destruct (allowed m) eqn:Ha; [|cbn; apply IH].
    destruct (opened_stays (cf j) (n j) (one w j) _ (own_reach w tr Hr j)) as (O & _).
    pose proof (cur_grows (cf j) (one w j) m (files_only j) Ha O) as (G1 & x & G2).
    destruct (step (cf j) (one w j) m) as [s ls]. cbn [fst snd one chunks] in *. rewrite of_sink_app, of_sink_one. unfold put_one.
    destruct (Nat.eq_dec i j) as [X|X].
    + subst j. rewrite Nat.eqb_refl. destruct (IH i) as [I1 I2]. split; [congruence|].
      rewrite concat_app, I2, G2. cbn [concat]. rewrite app_nil_r, skipn_app, skipn_all, Nat.sub_diag. reflexivity.
    + rewrite (proj2 (Nat.eqb_neq i j) X), (proj2 (Nat.eqb_neq j i) (not_eq_sym X)), app_nil_r. apply IH.
Qed.

Theorem own_output w tr : (forall i, sizes_ok (cf i)) -> sreach cf n w tr -> forall i,
  (exists r, concat (map (c_render (cf i)) (written (of_sink i tr))) = concat (of_sink i (chunks w)) ++ r) /\
  (forall t, c_lat0 (cf i) = false -> In (i, LDestroyed t) tr ->
     concat (of_sink i (chunks w)) = concat (map (c_render (cf i)) (accepted (of_sink i tr)))).
Proof using files_only.
  intros sz Hr i. pose proof (own_reach w tr Hr i) as R. destruct (own_chunks w tr Hr i) as [C1 C2].
  assert (K : c_kind (cf i) <> KSyslog) by (rewrite files_only; discriminate). split.
  - destruct (output_is_accepted (cf i) (n i) _ _ (sz i) K R) as (_ & F & _). exists (obuf (one w i)).
    rewrite <- F, C2. unfold files. rewrite C1. cbn. rewrite app_nil_r. reflexivity.
  - intros t L0 Hin.
    assert (Hd : In (LDestroyed t) (of_sink i tr)).
    { unfold of_sink. apply in_map_iff. exists (i, LDestroyed t). split; [reflexivity|]. apply filter_In. split; [exact Hin|]. cbn. apply Nat.eqb_refl. }
    destruct (destroyed_complete (cf i) (n i) _ _ t (sz i) L0 R Hd) as (_ & F & D). rewrite <- (F K), <- (D (files_only i)), C2.
    unfold disk. rewrite C1. cbn. rewrite app_nil_r. reflexivity.
Qed.

(** ** Without spilling: whole records *)
Lemma step_out C (s : state E) t c : c_kind C = KFile -> allowed (MThread t c) = true -> opened s = true ->
  (cur (fst (step C s (MThread t c))) = cur s /\
   obuf (fst (step C s (MThread t c))) = obuf s ++ concat (map (c_render C) (written (snd (step C s (MThread t c)))))) \/
  (cur (fst (step C s (MThread t c))) = cur s ++ obuf s /\ obuf (fst (step C s (MThread t c))) = [] /\
   written (snd (step C s (MThread t c))) = []).
Proof using Type.
  intros K A O. cbn [step]. destruct (nth_error (thr s) t) as [p|]; [|left; cbn; rewrite app_nil_r; auto].
  destruct p as [ |e|x e|x e| | | |kk|kk|kk e|kk oe|kk|kk|kk|kk|kk|kk| | | | | | | | | ]; cbn [step_thread]; rewrite ?K, ?O;
  repeat match goal with
  | |- context [match ?x with _ => _ end] =>
    match type of x with
    | choice _ => destruct x
    | bool => destruct x eqn:?
    | list _ => destruct x eqn:?
    | option _ => destruct x eqn:?
    | stage => destruct x eqn:?
    | reopen => destruct x
    | SinkModel.pc _ => destruct x eqn:?
    end
  end; try (destruct kk); cbn [fst snd s_thr s_q s_acc s_flags s_out closed cur obuf ret_label]; try discriminate;
  first [left; cbn; rewrite ?app_nil_r; split; reflexivity | right; repeat split; reflexivity].
Qed.

Definition put_pend (f : nat -> list E) (i : nat) (l : list E) : nat -> list E := fun j => if Nat.eqb j i then l else f j.

Lemma text_app rs rs' : text cf (rs ++ rs') = text cf rs ++ text cf rs'.
Proof using Type. unfold text. rewrite map_app, concat_app. reflexivity. Qed.
Lemma text_own i l : text cf (map (fun e => (i, e)) l) = concat (map (c_render (cf i)) l).
Proof using Type. unfold text. rewrite map_map. reflexivity. Qed.
Lemma written_appS (a b : list (label E)) : written (a ++ b) = written a ++ written b.
Proof using Type. unfold written. apply flat_map_app. Qed.

Lemma whole_inv ms : forall w tr, sexec cf (sinit cf n) ms = (w, tr) -> Forall (fun x => spills x = false) ms ->
  exists rs pend, the_file w = text cf rs /\
    forall i, written (of_sink i tr) = of_sink i rs ++ pend i /\ obuf (one w i) = concat (map (c_render (cf i)) (pend i)).
Proof using files_only.
  induction ms as [|m ms IH] using rev_ind; intros w tr He S.
  - cbn in He. injection He as <- <-. exists [], (fun _ => []). split; [reflexivity|]. intros i. auto.
  - rewrite sexec_app in He. destruct (sexec cf (sinit cf n) ms) as [w1 l1] eqn:E1. cbn [sexec] in He.
    apply Forall_app in S. destruct S as [S1 S2]. inversion S2 as [|y z S3 _]; subst.
    destruct (IH w1 l1 eq_refl S1) as (rs & pend & F & I). destruct m as [j m]. unfold sstep in He.
    destruct (allowed m) eqn:Ha; [|injection He as <- <-; exists rs, pend; rewrite app_nil_r; auto].
    destruct m as [t c|k]; [|discriminate].
    pose proof (own_reach w1 l1 (ex_intro _ ms E1) j) as R. destruct (opened_stays (cf j) (n j) _ _ R) as (O & _).
    pose proof (step_out (cf j) (one w1 j) t c (files_only j) Ha O) as G.
    destruct (step (cf j) (one w1 j) (MThread t c)) as [s ls]. cbn [fst snd] in *. rewrite app_nil_r in He. injection He as <- <-.
    unfold the_file in *. cbn [chunks one]. rewrite map_app, concat_app, F. cbn [map snd concat]. rewrite app_nil_r.
    destruct G as [[G1 G2]|(G1 & G2 & G3)].
    + exists rs, (put_pend pend j (pend j ++ written ls)). rewrite G1, skipn_all, app_nil_r. split; [reflexivity|].
      intros i. rewrite of_sink_app, written_appS. unfold put_pend, put_one. destruct (I i) as [I1 I2]. destruct (Nat.eq_dec i j) as [->|X].
      * rewrite Nat.eqb_refl, of_sink_own, I1, G2, I2, map_app, concat_app, app_assoc. auto.
      * rewrite (proj2 (Nat.eqb_neq i j) X), of_sink_other by exact X. cbn. rewrite app_nil_r. auto.
    + exists (rs ++ map (fun e => (j, e)) (pend j)), (put_pend pend j []).
      destruct (I j) as [J1 J2].
      split; [rewrite text_app, text_own, <- J2, G1, skipn_app, skipn_all, Nat.sub_diag; reflexivity|].
      intros i. rewrite !of_sink_app, written_appS. unfold put_pend, put_one. destruct (I i) as [I1 I2]. destruct (Nat.eq_dec i j) as [->|X].
      * rewrite Nat.eqb_refl, !of_sink_own, I1, G2, G3, ?app_nil_r. auto.
      * rewrite (proj2 (Nat.eqb_neq i j) X), !of_sink_other by exact X. cbn. rewrite ?app_nil_r. auto.
Qed.

(** What one sink does alone it can do whatever the others have done. *)
Theorem shared_execution i ms : (forall m t, In m ms -> m <> MThread t (COpen ROFresh)) -> forall (w : shared E) s ls,
  exec (cf i) (one w i) ms = (s, ls) -> exists w' tr, sexec cf w (map (SMove i) ms) = (w', tr) /\
    one w' i = s /\ of_sink i tr = ls /\ forall j, j <> i -> one w' j = one w j /\ of_sink j tr = [].
Proof using Type.
  induction ms as [|m ms IH]; intros NF w s ls X; cbn [map sexec exec] in *.
  - injection X as <- <-. exists w, []. auto.
  - destruct (step (cf i) (one w i) m) as [s1 l1] eqn:E1. destruct (exec (cf i) s1 ms) as [s2 l2] eqn:E2. injection X as <- <-.
    assert (A : allowed m = true).
    { unfold allowed. destruct m as [t c|k]; [|reflexivity]. destruct c as [lv e| | | | |b| |b|x]; try reflexivity.
      destruct x; try reflexivity. exfalso. exact (NF _ t (or_introl eq_refl) eq_refl). }
    cbn [sstep]. rewrite A, E1. set (w1 := mkSh _ _).
    assert (O1 : one w1 i = s1) by (unfold w1, put_one; cbn [one]; now rewrite Nat.eqb_refl).
    destruct (IH ltac:(intros; apply NF; now right) w1 s2 l2) as (w' & tr & X2 & Y1 & Y2 & Y3); [rewrite O1; exact E2|].
    rewrite X2. eexists _, _. split; [reflexivity|]. split; [exact Y1|]. split; [rewrite of_sink_app, of_sink_own, Y2; reflexivity|].
    intros j Hj. destruct (Y3 j Hj) as [Z1 Z2]. split; [rewrite Z1; unfold w1, put_one; cbn [one]; now rewrite (proj2 (Nat.eqb_neq j i) Hj)|].
    rewrite of_sink_app, of_sink_other, Z2 by exact Hj. reflexivity.
Qed.

Theorem whole_records ms w tr : sexec cf (sinit cf n) ms = (w, tr) -> Forall (fun x => spills x = false) ms ->
  exists rs, the_file w = text cf rs /\ forall i, exists r, written (of_sink i tr) = of_sink i rs ++ r.
Proof using files_only.
  intros He S. destruct (whole_inv ms w tr He S) as (rs & pend & F & I). exists rs. split; [exact F|].
  intros i. exists (pend i). exact (proj1 (I i)).
Qed.
End Share.
