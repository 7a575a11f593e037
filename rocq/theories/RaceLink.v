(** * Proofs for C87: a call of SysModel changes nothing RaceModel does not let it write *)

From Coq Require Import String List Arith Bool Lia.
From Verif Require Import RaceModel RaceSpec RaceSys.
From Verif Require Import Base LevelModel.
From Verif Require SysModel GroupModel.
Import ListNotations.

Lemma gsame_refl f x : gsame f x x. Proof. destruct f; reflexivity. Qed.
Lemma lsame_refl f x : lsame f x x. Proof. destruct f; reflexivity. Qed.
Lemma gsame_trans f x y z : gsame f x y -> gsame f y z -> gsame f x z.
Proof. destruct f; simpl; congruence. Qed.
Lemma lsame_trans f x y z : lsame f x y -> lsame f y z -> lsame f x z.
Proof. destruct f; simpl; congruence. Qed.

Lemma same_at_refl s x : same_at s s x.
Proof. destruct x; simpl; auto; intros y E; exists y; split; auto using gsame_refl, lsame_refl. Qed.
Lemma same_at_trans s1 s2 s3 x : same_at s1 s2 x -> same_at s2 s3 x -> same_at s1 s3 x.
Proof.
  destruct x; simpl; try congruence.
  - intros A B y E. destruct (A y E) as (y' & E' & Q). destruct (B y' E') as (z & E2 & Q2).
    exists z. split; auto. eapply gsame_trans; eauto.
  - intros A B y E. destruct (A y E) as (y' & E' & Q). destruct (B y' E') as (z & E2 & Q2).
    exists z. split; auto. eapply lsame_trans; eauto.
Qed.

(** Lists of groups (loggers) that agree but for the fields [P] of objects [Q]. *)
Definition gkeep (P : nat -> gfield -> Prop) (a b : list SysModel.group) : Prop :=
  forall i f y, nth_error a i = Some y -> exists y', nth_error b i = Some y' /\ (gsame f y' y \/ P i f).
Definition lkeep (P : nat -> lfield -> Prop) (a b : list SysModel.logger) : Prop :=
  forall i f y, nth_error a i = Some y -> exists y', nth_error b i = Some y' /\ (lsame f y' y \/ P i f).

Lemma gkeep_refl P a : gkeep P a a.
Proof. intros i f y E. exists y. auto using gsame_refl. Qed.
Lemma lkeep_refl P a : lkeep P a a.
Proof. intros i f y E. exists y. auto using lsame_refl. Qed.
Lemma gkeep_trans P a b c : gkeep P a b -> gkeep P b c -> gkeep P a c.
Proof.
  intros A B i f y E. destruct (A i f y E) as (y' & E' & [Q|Q]); destruct (B i f y' E') as (z & E2 & [Q2|Q2]);
    exists z; split; auto. left. eapply gsame_trans; eauto.
Qed.
Lemma lkeep_trans P a b c : lkeep P a b -> lkeep P b c -> lkeep P a c.
Proof.
  intros A B i f y E. destruct (A i f y E) as (y' & E' & [Q|Q]); destruct (B i f y' E') as (z & E2 & [Q2|Q2]);
    exists z; split; auto. left. eapply lsame_trans; eauto.
Qed.

Lemma set_at_nth {A} (l : list A) i j x :
  nth_error (SysModel.set_at l i x) j =
  if Nat.eqb i j then match nth_error l j with Some _ => Some x | None => None end else nth_error l j.
Proof.
  revert i j. induction l as [|y l IH]; intros [|i] [|j]; simpl; auto.
  destruct (Nat.eqb i j); auto.
Qed.

Lemma gkeep_set P a i x y :
  nth_error a i = Some x -> (forall f, gsame f y x \/ P i f) -> gkeep P a (SysModel.set_at a i y).
Proof.
  intros E H j f z Ez. rewrite set_at_nth. destruct (Nat.eqb_spec i j) as [->|].
  - rewrite Ez. exists y. split; auto. rewrite E in Ez. inversion Ez; subst. apply H.
  - exists z. auto using gsame_refl.
Qed.
Lemma lkeep_set P a i x y :
  nth_error a i = Some x -> (forall f, lsame f y x \/ P i f) -> lkeep P a (SysModel.set_at a i y).
Proof.
  intros E H j f z Ez. rewrite set_at_nth. destruct (Nat.eqb_spec i j) as [->|].
  - rewrite Ez. exists y. split; auto. rewrite E in Ez. inversion Ez; subst. apply H.
  - exists z. auto using lsame_refl.
Qed.
Lemma lkeep_add P a x : lkeep P a (a ++ [x]).
Proof.
  intros j f z Ez. exists z. split; auto using lsame_refl. rewrite nth_error_app1; auto.
  apply nth_error_Some. congruence.
Qed.
Lemma gkeep_add P a x : gkeep P a (a ++ [x]).
Proof.
  intros j f z Ez. exists z. split; auto using gsame_refl. rewrite nth_error_app1; auto.
  apply nth_error_Some. congruence.
Qed.

Section Spread.
Variable ord : list nat -> list nat.

Lemma refresh_keep (P : gfield -> Prop) up a i :
  (forall p y x f, gsame f (up p y x) x \/ P f \/ (f = GParent /\ SysModel.g_parent x = Some p /\ SysModel.g_parent (up p y x) = Some p)) ->
  gkeep (fun _ f => P f) a (SysModel.refresh up a i).
Proof.
  intros H. unfold SysModel.refresh. destruct (nth_error a i) as [x|] eqn:E; [|apply gkeep_refl].
  destruct (SysModel.g_parent x) as [p|] eqn:Pa; [|apply gkeep_refl].
  destruct (nth_error a p) as [y|]; [|apply gkeep_refl].
  apply gkeep_set with (x := x); auto. intros f. destruct (H p y x f) as [Q|[Q|(-> & Q & Q')]]; auto.
  left. simpl. congruence.
Qed.

Lemma stages_keep (P : gfield -> Prop) up st a :
  (forall p y x f, gsame f (up p y x) x \/ P f \/ (f = GParent /\ SysModel.g_parent x = Some p /\ SysModel.g_parent (up p y x) = Some p)) ->
  gkeep (fun _ f => P f) a (SysModel.run_stages ord up a st).
Proof.
  intros H. unfold SysModel.run_stages. revert a.
  induction st as [|s st IH]; intros a; simpl; [apply gkeep_refl|].
  eapply gkeep_trans; [|apply IH].
  generalize (ord s). clear -H. intros l. revert a. induction l as [|i l IH]; intros a; simpl; [apply gkeep_refl|].
  eapply gkeep_trans; [apply refresh_keep, H|apply IH].
Qed.

Lemma loggers_keep (P : lfield -> Prop) (lup : nat -> SysModel.group -> SysModel.logger -> SysModel.logger) gs passed m ls acc :
  (forall i y x f, lsame f (lup i y x) x \/ P f) ->
  lkeep (fun _ f => P f) ls
    (fst (fold_left (fun (a : list SysModel.logger * list (string * nat)) (e : string * nat) =>
      let '(ls, m') := a in
      match nth_error ls (snd e) with
      | Some x =>
          if SysModel.l_alive x then
            match SysModel.assoc passed (SysModel.l_group x), nth_error gs (SysModel.l_group x) with
            | Some (Some _), Some y => (SysModel.set_at ls (snd e) (lup (SysModel.l_group x) y x), m' ++ [e])
            | _, _ => (ls, m' ++ [e])
            end
          else (ls, m')
      | None => (ls, m')
      end) m (ls, acc))).
Proof.
  intros H. revert ls acc. induction m as [|e m IH]; intros ls acc; simpl; [apply lkeep_refl|].
  destruct (nth_error ls (snd e)) as [x|] eqn:E; auto.
  destruct (SysModel.l_alive x); auto.
  destruct (SysModel.assoc passed (SysModel.l_group x)) as [[r|]|]; auto.
  destruct (nth_error gs (SysModel.l_group x)) as [y|]; auto.
  eapply lkeep_trans; [|apply IH]. apply lkeep_set with (x := x); auto.
Qed.

Lemma spread_keep (P : gfield -> Prop) (Q : lfield -> Prop) fuel ov up lup s g s' :
  (forall p y x f, gsame f (up p y x) x \/ P f \/ (f = GParent /\ SysModel.g_parent x = Some p /\ SysModel.g_parent (up p y x) = Some p)) ->
  (forall i y x f, lsame f (lup i y x) x \/ Q f) ->
  SysModel.spread ord fuel ov up lup s g = Some s' ->
  forall x, ~ match x with LGrp _ f => P f | LLog _ f => Q f | LLoggers => True | _ => False end -> same_at s s' x.
Proof.
  intros HG HL E x. unfold SysModel.spread in E.
  destruct (SysModel.scan fuel ov (SysModel.groups s) g [] [] (SysModel.gmap s)) as [[passed st]|]; [|discriminate].
  destruct (SysModel.spread_loggers lup (SysModel.run_stages ord up (SysModel.groups s) st) passed (SysModel.loggers s) (SysModel.lmap s)) as [ls lm] eqn:L.
  inversion E; subst; clear E.
  pose proof (stages_keep P up st (SysModel.groups s) HG) as KG.
  pose proof (loggers_keep Q lup (SysModel.run_stages ord up (SysModel.groups s) st) passed (SysModel.lmap s) (SysModel.loggers s) [] HL) as KL.
  unfold SysModel.spread_loggers in L. rewrite L in KL. simpl in KL.
  destruct x as [| | | |h f|h f]; simpl; try tauto.
  - intros N y E. destruct (KG h f y E) as (y' & E' & [S|S]); [eauto|contradiction].
  - intros N y E. destruct (KL h f y E) as (y' & E' & [S|S]); [eauto|contradiction].
Qed.

(** The parts that change. *)

Lemma up_level_ok p y x f :
  gsame f (SysModel.up_level p y x) x \/ (f = GLevel \/ f = GLevelOv) \/
  (f = GParent /\ SysModel.g_parent x = Some p /\ SysModel.g_parent (SysModel.up_level p y x) = Some p).
Proof. destruct f; simpl; auto. Qed.
Lemma up_sink_ok p y x f :
  gsame f (SysModel.up_sink p y x) x \/ (f = GSink \/ f = GSinkOv) \/
  (f = GParent /\ SysModel.g_parent x = Some p /\ SysModel.g_parent (SysModel.up_sink p y x) = Some p).
Proof. destruct f; simpl; auto. Qed.
Lemma lup_level_ok i y x f : lsame f (SysModel.lup_level i y x) x \/ (f = FLevel \/ f = FLevelOv).
Proof. unfold SysModel.lup_level. destruct (SysModel.l_lov x); [auto using lsame_refl|]. destruct f; simpl; auto. Qed.
Lemma l_sink_from_ok i y x f : lsame f (SysModel.l_sink_from i y x) x \/ (f = FSink \/ f = FSinkOv).
Proof. unfold SysModel.l_sink_from. destruct (SysModel.g_sink y); [destruct f; simpl; auto|auto using lsame_refl]. Qed.
Lemma lup_sink_ok i y x f : lsame f (SysModel.lup_sink i y x) x \/ (f = FSink \/ f = FSinkOv).
Proof. unfold SysModel.lup_sink. destruct (SysModel.l_sov x); [auto using lsame_refl|]. apply l_sink_from_ok. Qed.

Lemma mod_group_keep s g f x :
  (forall y e, x = LGrp g e -> gsame e (f y) y) -> same_at s (SysModel.mod_group s g f) x.
Proof.
  intros H. unfold SysModel.mod_group. destruct (nth_error (SysModel.groups s) g) as [y|] eqn:E; [|apply same_at_refl].
  destruct x as [| | | |h e|h e]; simpl; auto.
  - intros z Ez. rewrite set_at_nth. destruct (Nat.eqb_spec g h) as [->|].
    + rewrite Ez. exists (f y). split; auto. rewrite E in Ez. inversion Ez; subst. apply H. auto.
    + exists z. auto using gsame_refl.
  - intros z Ez. exists z. auto using lsame_refl.
Qed.
Lemma mod_logger_keep s l f x :
  (forall y e, x = LLog l e -> lsame e (f y) y) -> same_at s (SysModel.mod_logger s l f) x.
Proof.
  intros H. unfold SysModel.mod_logger. destruct (nth_error (SysModel.loggers s) l) as [y|] eqn:E; [|apply same_at_refl].
  destruct x as [| | | |h e|h e]; simpl; auto.
  - intros z Ez. exists z. auto using gsame_refl.
  - intros z Ez. rewrite set_at_nth. destruct (Nat.eqb_spec l h) as [->|].
    + rewrite Ez. exists (f y). split; auto. rewrite E in Ez. inversion Ez; subst. apply H. auto.
    + exists z. auto using lsame_refl.
Qed.

Lemma ret_keep s o x : (forall s', o = Some s' -> same_at s s' x) -> same_at s (fst (SysModel.ret s o)) x.
Proof. destruct o; simpl; intros H; auto. apply same_at_refl. Qed.

Lemma level_of_group_keep fuel s g l s' x :
  SysModel.set_level_of_group ord fuel s g l = Some s' ->
  ~ may_write (aSetLevelOfGroup g) x -> same_at s s' x.
Proof.
  unfold SysModel.set_level_of_group. intros E N.
  eapply same_at_trans; [|eapply spread_keep with (P := fun f => f = GLevel \/ f = GLevelOv) (Q := fun f => f = FLevel \/ f = FLevelOv); [apply up_level_ok|apply lup_level_ok|exact E|exact N]].
  destruct l; apply mod_group_keep; intros y e ->; simpl in N.
  - destruct e; simpl; auto; tauto.
  - destruct (SysModel.parent_of (SysModel.groups s) g); simpl; [|apply gsame_refl]. destruct e; simpl; auto; tauto.
Qed.
Lemma sink_of_group_keep fuel s g l s' x :
  SysModel.set_sink_of_group ord fuel s g l = Some s' ->
  ~ may_write (aSetSinkOfGroup g) x -> same_at s s' x.
Proof.
  unfold SysModel.set_sink_of_group. intros E N.
  eapply same_at_trans; [|eapply spread_keep with (P := fun f => f = GSink \/ f = GSinkOv) (Q := fun f => f = FSink \/ f = FSinkOv); [apply up_sink_ok|apply lup_sink_ok|exact E|exact N]].
  destruct l; apply mod_group_keep; intros y e ->; simpl in N.
  - destruct e; simpl; auto; tauto.
  - destruct (SysModel.parent_of (SysModel.groups s) g); simpl; [|apply gsame_refl]. destruct e; simpl; auto; tauto.
Qed.
Lemma parent_of_group_keep fuel s g l s' x :
  SysModel.set_parent_of_group ord fuel s g l = Some s' ->
  ~ may_write (aUnsetParentOfGroup g) x -> same_at s s' x.
Proof.
  unfold SysModel.set_parent_of_group. intros E N.
  eapply same_at_trans; [|eapply spread_keep with (P := fun f => True) (Q := fun f => True); [| |exact E|exact N]]; auto.
  assert (G : forall s0 h f, same_at s0 (SysModel.mod_group s0 h f) x)
    by (intros; apply mod_group_keep; intros y e ->; exfalso; apply N; exact I).
  eapply same_at_trans; [|apply G].
  destruct l as [p|]; [|apply same_at_refl]. destruct (nth_error (SysModel.groups s) p); [|apply same_at_refl].
  destruct (SysModel.oeqb (SysModel.g_parent g0) (Some g)); [apply G|apply same_at_refl].
Qed.

Lemma live_find s x i : SysModel.live s x = Some i -> SysModel.find (SysModel.lmap s) x = Some i.
Proof.
  unfold SysModel.live. destruct (SysModel.find (SysModel.lmap s) x) as [j|]; [|discriminate].
  destruct (nth_error (SysModel.loggers s) j) as [l|]; [|discriminate].
  destruct (SysModel.l_alive l); congruence.
Qed.

Lemma drop_keep s n x : x <> LLoggers -> same_at s (SysModel.drop_entry s n) x.
Proof.
  intros N. destruct x; simpl; auto; try congruence; intros y E; exists y; split; auto using gsame_refl, lsame_refl.
Qed.

Lemma register_keep s i n x : x <> LGroups -> same_at s (SysModel.register s i n) x.
Proof.
  intros N. destruct x; simpl; auto; try congruence; intros y E; exists y; split; auto using gsame_refl, lsame_refl.
Qed.

Lemma step_keep fuel dbg s c a x :
  api_of s c = Some a -> ~ may_write a x -> same_at s (fst (SysModel.step ord fuel dbg s c)) x.
Proof.
  intros A N. destruct c; simpl in A; inversion A; subst; clear A; cbn [SysModel.step]; simpl in N.
  - destruct x; simpl; auto; try congruence; intros y E; exists y; split; auto using gsame_refl, lsame_refl.
  - destruct (SysModel.construct s name parent sink lv) as [[s1 i]|] eqn:E; simpl; [|apply same_at_refl].
    apply same_at_trans with (s2 := s1); [|apply register_keep, N].
    unfold SysModel.construct in E.
    match type of E with match ?e with _ => _ end = _ => destruct e as [y|] end; [|discriminate].
    inversion E; subst. destruct x; simpl; auto; intros z Ez; exists z.
    + split; auto using gsame_refl. rewrite nth_error_app1; auto. apply nth_error_Some; congruence.
    + split; auto using lsame_refl.
  - destruct (SysModel.find (SysModel.gmap s) g) as [i|]; simpl; [|apply same_at_refl].
    destruct x; simpl; auto; try congruence; intros y E; exists y; split; auto using gsame_refl, lsame_refl.
  - destruct (SysModel.find (SysModel.gmap s) g) as [i|]; simpl; [|apply same_at_refl].
    destruct (SysModel.find (SysModel.gmap s) p) as [j|]; simpl; [|apply same_at_refl].
    match goal with |- context [match ?e with Some _ => _ | None => (s, SysModel.RHang) end] => destruct e as [[|]|] end;
      simpl; try apply same_at_refl.
    apply ret_keep. intros s' E. eapply parent_of_group_keep; eauto.
  - destruct (SysModel.find (SysModel.gmap s) g) as [i|]; simpl; [|apply same_at_refl].
    apply ret_keep. intros s' E. eapply parent_of_group_keep; eauto.
  - destruct (SysModel.find (SysModel.smap s) k) as [j|]; simpl; [|apply same_at_refl].
    destruct (SysModel.find (SysModel.gmap s) g) as [i|]; simpl; [|apply same_at_refl].
    apply ret_keep. intros s' E. eapply sink_of_group_keep; eauto.
  - destruct (SysModel.find (SysModel.gmap s) g) as [i|]; simpl; [|apply same_at_refl].
    apply ret_keep. intros s' E. eapply sink_of_group_keep; eauto.
  - destruct (SysModel.find (SysModel.gmap s) g) as [i|]; simpl; [|apply same_at_refl].
    apply ret_keep. intros s' E. eapply level_of_group_keep; eauto.
  - destruct (SysModel.find (SysModel.gmap s) g) as [i|]; simpl; [|apply same_at_refl].
    apply ret_keep. intros s' E. eapply level_of_group_keep; eauto.
  - destruct (SysModel.find (SysModel.gmap s) g) as [j|]; simpl; [|apply same_at_refl].
    destruct (SysModel.live s x0) as [i|] eqn:L; [|apply drop_keep; tauto].
    apply live_find in L. rewrite L in N. simpl in N.
    destruct (nth_error (SysModel.groups s) j); [|apply drop_keep; tauto].
    apply mod_logger_keep. intros y e ->. exfalso. apply N. eauto.
  - destruct (SysModel.find (SysModel.smap s) k) as [j|]; simpl; [|apply same_at_refl].
    destruct (SysModel.live s x0) as [i|] eqn:L; [|apply drop_keep; tauto].
    apply live_find in L. rewrite L in N. simpl in N.
    apply mod_logger_keep. intros y e ->. destruct e; simpl; auto; exfalso; apply N; auto.
  - destruct (SysModel.live s x0) as [i|] eqn:L; [|apply same_at_refl].
    apply live_find in L. rewrite L in N. simpl in N.
    destruct (nth_error (SysModel.loggers s) i); [|apply same_at_refl].
    destruct (nth_error (SysModel.groups s) (SysModel.l_group l)); [|apply same_at_refl].
    apply mod_logger_keep. intros y e ->. destruct (l_sink_from_ok (SysModel.l_group l) g y e) as [S|[->| ->]]; auto;
      exfalso; apply N; auto.
  - destruct (SysModel.live s x0) as [i|] eqn:L; [|apply drop_keep; tauto].
    apply live_find in L. rewrite L in N. simpl in N.
    apply mod_logger_keep. intros y e ->. destruct e; simpl; auto; exfalso; apply N; auto.
  - destruct (SysModel.live s x0) as [i|] eqn:L; [|apply drop_keep; tauto].
    apply live_find in L. rewrite L in N. simpl in N.
    destruct (nth_error (SysModel.loggers s) i); [|apply same_at_refl].
    destruct (nth_error (SysModel.groups s) (SysModel.l_group l)); [|apply same_at_refl].
    apply mod_logger_keep. intros y e ->. destruct e; simpl; auto; exfalso; apply N; auto.
  - unfold SysModel.get_logger.
    destruct (negb (SysModel.configured s)); [apply same_at_refl|].
    destruct (SysModel.live s x0); [apply same_at_refl|].
    assert (G : forall l j, same_at s (SysModel.with_loggers s (SysModel.loggers s ++ [l]) (SysModel.assign (SysModel.lmap s) x0 j)) x).
    { intros l j. destruct x; simpl; auto; try congruence; intros y E; exists y; split; auto using gsame_refl, lsame_refl.
      rewrite nth_error_app1; auto. apply nth_error_Some; congruence. }
    assert (G2 : forall i w, same_at s (fst (match nth_error (SysModel.groups s) i with
        | Some y => if w && negb (SysModel.can_warn y) then (s, SysModel.RUB) else
          let l := SysModel.l_construct x0 i y in
          let l := match k with
                   | Some n => match SysModel.find (SysModel.smap s) n with Some k => SysModel.l_set_sink k l | None => l end
                   | None => l
                   end in
          let l := match lv with Some v => SysModel.l_set_level v l | None => l end in
          let j := length (SysModel.loggers s) in
          (SysModel.with_loggers s (SysModel.loggers s ++ [l]) (SysModel.assign (SysModel.lmap s) x0 j), SysModel.RLogger j)
        | None => (s, SysModel.RUB)
        end)) x).
    { intros i w. destruct (nth_error (SysModel.groups s) i); [|apply same_at_refl].
      destruct (w && negb (SysModel.can_warn g0)); [apply same_at_refl|]. apply G. }
    destruct (String.eqb g "*").
    + destruct dbg; [apply same_at_refl|].
      destruct (SysModel.find (SysModel.gmap s) "*"); [apply G2|apply same_at_refl].
    + destruct (SysModel.find (SysModel.gmap s) g); [apply G2|].
      destruct (SysModel.find (SysModel.gmap s) "*"); [apply G2|apply same_at_refl].
  - apply mod_logger_keep. intros y e ->. destruct e; simpl; auto; exfalso; apply N; auto.
  - destruct (nth_error (SysModel.loggers s) i); [|apply same_at_refl].
    destruct (nth_error (SysModel.groups s) (SysModel.l_group l)); [|apply same_at_refl].
    apply mod_logger_keep. intros y e ->. destruct e; simpl; auto; exfalso; apply N; auto.
  - destruct (nth_error (SysModel.groups s) g); [|apply same_at_refl].
    apply mod_logger_keep. intros y e ->. destruct e; simpl; auto; exfalso; apply N; auto.
  - destruct (Nat.ltb k (length (SysModel.sinks s))); [|apply same_at_refl].
    apply mod_logger_keep. intros y e ->. destruct e; simpl; auto; exfalso; apply N; auto.
  - destruct (nth_error (SysModel.loggers s) i); [|apply same_at_refl].
    destruct (nth_error (SysModel.groups s) (SysModel.l_group l)); [|apply same_at_refl].
    apply mod_logger_keep. intros y e ->. destruct e; simpl; auto; exfalso; apply N; auto.
  - destruct (nth_error (SysModel.groups s) g); [|apply same_at_refl].
    apply mod_logger_keep. intros y e ->. destruct (l_sink_from_ok g g0 y e) as [S|[->| ->]]; auto;
      exfalso; apply N; auto.
  - destruct (nth_error (SysModel.groups s) g); [|apply same_at_refl].
    apply mod_logger_keep. intros y e ->. exfalso; apply N; eauto.
Qed.
End Spread.

Lemma gstep_keep s c x :
  ~ may_write (gapi_of s c) x -> same_at s (fst (GroupModel.gstep s c)) x.
Proof.
  intros N.
  assert (F : forall h f g, (forall i y z e, x = LGrp g e -> gsame e (f i y z) z) ->
              same_at s (fst (GroupModel.from_group s h f g)) x).
  { intros h f g H. unfold GroupModel.from_group. destruct (nth_error (SysModel.groups s) h); [|apply same_at_refl].
    apply mod_group_keep. auto. }
  assert (F' : forall n f g, (forall i y z e, x = LGrp g e -> gsame e (f i y z) z) ->
              same_at s (fst (GroupModel.from_named s n f g)) x).
  { intros n f g H. unfold GroupModel.from_named. destruct (SysModel.find (SysModel.gmap s) n); [auto|apply same_at_refl]. }
  destruct c; simpl in N; cbn [GroupModel.gstep].
  - apply mod_group_keep. intros y e ->. destruct e; simpl; auto; exfalso; apply N; auto.
  - apply mod_group_keep. intros y e ->. destruct (SysModel.parent_of (SysModel.groups s) g); simpl; [|apply gsame_refl].
    destruct e; simpl; auto; exfalso; apply N; auto.
  - apply F. intros i y z e ->. destruct e; simpl; auto; exfalso; apply N; auto.
  - apply F'. intros i y z e ->. destruct e; simpl; auto; exfalso; apply N; auto.
  - destruct (Nat.ltb k (length (SysModel.sinks s))); [|apply same_at_refl].
    apply mod_group_keep. intros y e ->. destruct e; simpl; auto; exfalso; apply N; auto.
  - destruct (SysModel.find (SysModel.smap s) n); [|apply same_at_refl].
    apply mod_group_keep. intros y e ->. destruct e; simpl; auto; exfalso; apply N; auto.
  - apply mod_group_keep. intros y e ->. destruct (SysModel.parent_of (SysModel.groups s) g); simpl; [|apply gsame_refl].
    destruct e; simpl; auto; exfalso; apply N; auto.
  - apply F. intros i y z e ->. destruct e; simpl; auto; exfalso; apply N; auto.
  - apply F'. intros i y z e ->. destruct e; simpl; auto; exfalso; apply N; auto.
  - destruct p as [p|]; simpl in N.
    + apply F. intros i y z e ->. exfalso; apply N; eauto.
    + apply mod_group_keep. intros y e ->. destruct e; simpl; auto; exfalso; apply N; auto.
  - apply F'. intros i y z e ->. exfalso; apply N; eauto.
  - apply mod_group_keep. intros y e ->. destruct e; simpl; auto; exfalso; apply N; auto.
Qed.
