(** * Facts about the specification automaton of [CircSpec], and progress and
      stability facts about the model *)

From Coq Require Import List Arith Bool Lia.
From Verif Require Import CircSpec CircModel CircVocab CircProofs.
Import ListNotations.

Set Implicit Arguments.

Section Facts.
Context {A : Type}.
Notation sstate := (sstate A).
Notation state := (state A).

(** ** The automaton *)

Lemma sruns_snoc_inv cap (s : sstate) tr l s' :
  sruns cap s (tr ++ [l]) s' -> exists s1, sruns cap s tr s1 /\ sstep cap s1 l s'.
Proof.
  revert s. induction tr as [|x tr IH]; intros s H; simpl in H; inversion H; subst.
  - match goal with H : sruns _ _ [] _ |- _ => inversion H; subst end.
    eexists. split; [constructor|eassumption].
  - match goal with H : sruns _ _ (_ ++ _) _ |- _ => apply IH in H; destruct H as (s1 & R & St) end.
    exists s1. split; [econstructor; eauto|exact St].
Qed.

Lemma sruns_app_inv cap (s : sstate) t1 t2 s' :
  sruns cap s (t1 ++ t2) s' -> exists s1, sruns cap s t1 s1 /\ sruns cap s1 t2 s'.
Proof.
  revert s. induction t1 as [|x t1 IH]; intros s H; simpl in H.
  - exists s. split; [constructor|exact H].
  - inversion H; subst.
    match goal with H : sruns _ _ (_ ++ _) _ |- _ => apply IH in H; destruct H as (s1 & R & St) end.
    exists s1. split; [econstructor; eauto|exact St].
Qed.

Lemma logged_init : logged s_init (@nil A).
Proof. split; simpl; intros; try tauto; try congruence; auto. Qed.

Lemma nth_error_snoc_keep (log : list A) x n a :
  nth_error log n = Some a -> nth_error (log ++ [x]) n = Some a.
Proof.
  intros H. rewrite nth_error_app1; [exact H|]. apply nth_error_Some. congruence.
Qed.

Lemma nth_error_snoc_last (log : list A) x n :
  n = length log -> nth_error (log ++ [x]) n = Some x.
Proof.
  intros ->. rewrite nth_error_app2 by lia. rewrite Nat.sub_diag. reflexivity.
Qed.

Lemma phase_cases (s : sstate) t p t' q :
  s_phase (set_phase s t p) t' = q -> (t' = t /\ p = q) \/ (t' <> t /\ s_phase s t' = q).
Proof. simpl. destruct (Nat.eqb_spec t' t); auto. Qed.

Lemma logged_step cap (s : sstate) l s' log :
  logged s log -> sstep cap s l s' -> exists ext, logged s' (log ++ ext).
Proof.
  intros [L1 L2 L3 L4 L5 L6 L7] St.
  assert (Same : forall t p, (forall n a, p = PhPut n a -> nth_error log n = Some a) ->
     (forall n a, p = PhGot n a -> nth_error log n = Some a) ->
     forall it lv, it = s_items s -> (forall r, In r lv -> nth_error log (r_num r) = Some (r_val r)) ->
     exists ext, logged {| s_items := it; s_next := s_next s;
        s_phase := fun t' => if Nat.eqb t' t then p else s_phase s t'; s_live := lv |} (log ++ ext)).
  { intros t p Hp Hg it lv -> Hlv. exists []. rewrite app_nil_r.
    split; simpl; auto; intros t0 n a; destruct (Nat.eqb_spec t0 t); eauto. }
  inversion St; subst; unfold set_phase; simpl.
  - apply Same; auto; intros; discriminate.
  - exists [a]. split; cbn [s_items s_next s_phase s_live].
    + rewrite app_length. simpl. lia.
    + intros n b Hin. apply in_app_or in Hin. destruct Hin as [Hin|[Hin|[]]].
      * apply nth_error_snoc_keep. auto.
      * injection Hin as <- <-. apply nth_error_snoc_last. auto.
    + intros t0 n b. destruct (Nat.eqb_spec t0 t).
      * intros [= <- <-]. apply nth_error_snoc_last. auto.
      * intros Hq. apply nth_error_snoc_keep. eauto.
    + intros t0 n b. destruct (Nat.eqb_spec t0 t); [discriminate|].
      intros Hq. apply nth_error_snoc_keep. eauto.
    + intros r Hr. apply nth_error_snoc_keep. auto.
    + rewrite app_length, map_app, L6. cbn [length map fst].
      replace (S (s_next s) - (length (s_items s) + 1)) with (s_next s - length (s_items s)) by lia.
      rewrite seq_app. f_equal. cbn [seq]. f_equal. lia.
    + rewrite app_length. simpl. lia.
  - apply Same; auto; intros; discriminate.
  - exists []. rewrite app_nil_r.
    match goal with H : s_items s = _ :: _ |- _ => rename H into Hit end.
    rewrite Hit in L2, L6, L7. simpl in L6, L7. injection L6 as En Er.
    split; simpl.
    + exact L1.
    + intros m b Hin. apply L2. right. exact Hin.
    + intros t0 m b. destruct (Nat.eqb_spec t0 t); [discriminate|]. eauto.
    + intros t0 m b. destruct (Nat.eqb_spec t0 t); [|eauto].
      intros [= <- <-]. apply L2. left. reflexivity.
    + exact L5.
    + rewrite Er. f_equal. lia.
    + lia.
  - apply Same; auto; intros; discriminate.
  - apply Same; auto; intros; discriminate.
  - apply Same; auto; intros; discriminate.
  - apply Same; auto; intros; discriminate.
  - apply Same; auto; try (intros; discriminate).
    intros r [<-|Hr]; simpl; auto.
    match goal with H : _ \/ _ |- _ => destruct H; eauto end.
  - exists []. rewrite app_nil_r. split; auto.
  - exists []. rewrite app_nil_r. split; simpl; auto.
    intros r Hr. apply L5.
    match goal with H : s_live s = _ |- _ => rewrite H end.
    apply in_app_or in Hr. apply in_or_app. simpl. tauto.
Qed.

Lemma logged_run cap (s : sstate) tr s' log :
  sruns cap s tr s' -> logged s log -> exists ext, logged s' (log ++ ext).
Proof.
  intros H. revert log. induction H as [s|s1 l s2 tr s3 St R IH]; intros log L.
  - exists []. rewrite app_nil_r. exact L.
  - destruct (logged_step L St) as [e1 L1]. destruct (IH _ L1) as [e2 L2].
    exists (e1 ++ e2). rewrite app_assoc. exact L2.
Qed.

Lemma len_le_cap cap (s : sstate) tr s' :
  sruns cap s tr s' -> length (s_items s) <= cap -> length (s_items s') <= cap.
Proof.
  induction 1 as [s|s1 l s2 tr s3 St R IH]; intros L; [exact L|].
  apply IH. inversion St; subst; simpl; auto.
  - rewrite app_length. simpl. lia.
  - match goal with H : s_items _ = _ |- _ => rewrite H in L; simpl in L end. lia.
Qed.

(** ** Where an answer was decided *)

(** If a thread's call has taken effect with answer phase [p] at the end of the
    trace, then the trace splits at that instant. *)
Definition decided (cap : nat) (tr : list (label A)) (t : nat) (p : phase A) : Prop :=
  exists tra trb s1 s2, tr = tra ++ LLin t :: trb /\ sruns cap s_init tra s1 /\
    sstep cap s1 (LLin t) s2 /\ s_phase s2 t = p /\ Forall (fun l => ~ mentions t l) trb.

Definition settled (p : phase A) : Prop :=
  match p with PhNone | PhCalled _ => False | _ => True end.

Lemma decided_run cap tr : forall s t,
  sruns cap s_init tr s -> settled (s_phase s t) -> decided cap tr t (s_phase s t).
Proof.
  induction tr as [|l tr IH] using rev_ind; intros s t R Hs.
  - inversion R; subst. simpl in Hs. contradiction.
  - apply sruns_snoc_inv in R. destruct R as (s1 & R & St).
    assert (Ext : s_phase s t = s_phase s1 t -> ~ mentions t l ->
                  decided cap (tr ++ [l]) t (s_phase s t)).
    { intros E Nm. rewrite E in *. destruct (IH s1 t R Hs) as (ta & tb & x1 & x2 & -> & Ra & Sa & P & F).
      exists ta, (tb ++ [l]), x1, x2. split; [rewrite <- app_assoc; reflexivity|].
      split; [exact Ra|]. split; [exact Sa|]. split; [exact P|].
      apply Forall_app. split; [exact F|]. constructor; auto. }
    assert (Lin : l = LLin t -> decided cap (tr ++ [l]) t (s_phase s t)).
    { intros ->. exists tr, [], s1, s. split; [reflexivity|]. split; [exact R|].
      split; [exact St|]. split; [reflexivity|constructor]. }
    destruct l as [t' o|t'|t' r|t' i a|t' i].
    + inversion St; subst. simpl in *. destruct (Nat.eqb_spec t t'); [contradiction|].
      apply Ext; auto.
    + destruct (Nat.eq_dec t' t) as [->|N]; [apply Lin; reflexivity|].
      apply Ext; [|exact N].
      inversion St; subst; simpl; destruct (Nat.eqb_spec t t'); congruence.
    + inversion St; subst; simpl in *; destruct (Nat.eqb_spec t t'); try contradiction;
        apply Ext; auto.
    + inversion St; subst. apply Ext; simpl; auto.
    + inversion St; subst. apply Ext; simpl; auto.
Qed.

(** The instant of a refusal. *)
Lemma refusal_instant cap tr1 t tr2 (s : sstate) :
  sruns cap s_init (tr1 ++ LRet t RNone :: tr2) s ->
  exists tra trb s1, tr1 = tra ++ LLin t :: trb /\ sruns cap s_init tra s1 /\
    Forall (fun l => ~ mentions t l) trb /\
    ((exists a, s_phase s1 t = PhCalled (OPut a) /\ length (s_items s1) = cap) \/
     (s_phase s1 t = PhCalled OGet /\ s_items s1 = [])).
Proof.
  intros R. apply sruns_app_inv in R. destruct R as (m & R1 & R2).
  inversion R2 as [|? ? m2 ? ? St R3]; subst.
  assert (Hp : s_phase m t = PhRefused) by (inversion St; subst; assumption).
  assert (Hs : settled (s_phase m t)) by (rewrite Hp; exact I).
  destruct (decided_run t R1 Hs) as (ta & tb & x1 & x2 & -> & Ra & Sa & P & F).
  exists ta, tb, x1. split; [reflexivity|]. split; [exact Ra|]. split; [exact F|].
  rewrite Hp in P. inversion Sa; subst; simpl in P; rewrite Nat.eqb_refl in P; try discriminate.
  - left. eauto.
  - right. auto.
Qed.

(** The instant of a query's answer. *)
Lemma answer_instant cap tr1 t n tr2 (s : sstate) :
  sruns cap s_init (tr1 ++ LRet t (RNum n) :: tr2) s ->
  exists tra trb s1 q, tr1 = tra ++ LLin t :: trb /\ sruns cap s_init tra s1 /\
    Forall (fun l => ~ mentions t l) trb /\
    s_phase s1 t = PhCalled (OQuery q) /\ n = query_answer cap (length (s_items s1)) q.
Proof.
  intros R. apply sruns_app_inv in R. destruct R as (m & R1 & R2).
  inversion R2 as [|? ? m2 ? ? St R3]; subst.
  assert (Hp : s_phase m t = PhNum n) by (inversion St; subst; assumption).
  assert (Hs : settled (s_phase m t)) by (rewrite Hp; exact I).
  destruct (decided_run t R1 Hs) as (ta & tb & x1 & x2 & -> & Ra & Sa & P & F).
  rewrite Hp in P. inversion Sa; subst; simpl in P; rewrite Nat.eqb_refl in P; try discriminate.
  injection P as <-. exists ta, tb, x1, q.
  split; [reflexivity|]. split; [exact Ra|]. split; [exact F|]. auto.
Qed.

(** ** Stability of what a reference denotes *)

Lemma step_keeps_ref cap (s : state) ss t0 c s' tr t i :
  Inv cap s ss -> step cap s t0 c = Ok s' tr ->
  In i (REFS s t) -> ~ In (LRel t i) tr ->
  In i (REFS s' t) /\ n_cell (nodes s' i) = n_cell (nodes s i).
Proof.
  intros HI St Hin Hn.
  assert (Own : pcslot (PC s t0) = Some i -> False).
  { intros Hp. eapply holds_not_ref; [exact HI|exact Hp|exact Hin]. }
  unfold step in St. change (t_pc (thr s t0)) with (PC s t0) in St.
  unfold REFS in *.
  destruct (PC s t0) as [] eqn:Ep; simpl in Own;
    repeat match type of St with
    | (match ?x with _ => _ end) = _ => destruct x eqn:?
    | (let _ := _ in _) = _ => cbv zeta in St
    end; try discriminate St;
    injection St as <- <-; simpl in *; unfold upd; simpl;
    repeat match goal with
    | |- context [Nat.eqb ?a ?b] => destruct (Nat.eqb_spec a b); subst; simpl
    end; simpl in *; auto. all: try (exfalso; apply Own; congruence). 
  - exfalso. apply Hn. left. reflexivity.
  - split; auto. apply in_in_remove; auto.
Qed.

Lemma exec_keeps_ref cap sched : forall (s : state) ss s' tr t i,
  Inv cap s ss -> exec cap s sched = Ok s' tr ->
  In i (REFS s t) -> ~ In (LRel t i) tr ->
  In i (REFS s' t) /\ n_cell (nodes s' i) = n_cell (nodes s i).
Proof.
  induction sched as [|[t0 c] rest IH]; intros s ss s' tr t i HI Ex Hin Hn; simpl in Ex.
  - injection Ex as <- <-. auto.
  - destruct (step_sim t0 HI c) as (s1 & tr1 & ss1 & E1 & R1 & I1).
    rewrite E1 in Ex. destruct (exec cap s1 rest) as [s2 tr2|b] eqn:E2; [|discriminate].
    injection Ex as <- <-.
    destruct (@step_keeps_ref cap s ss t0 c s1 tr1 t i HI E1 Hin) as [Hin1 Hc1].
    { intros H. apply Hn. apply in_or_app. auto. }
    destruct (IH _ _ _ _ t i I1 E2 Hin1) as [Hin2 Hc2].
    { intros H. apply Hn. apply in_or_app. auto. }
    split; [exact Hin2|congruence].
Qed.

(** ** Solo progress *)


Lemma quiescent_free cap (s : state) ss :
  Inv cap s ss -> quiescent s ->
  g_busy s = false /\ (forall i, n_busy (nodes s i) = false).
Proof.
  intros HI HQ. split.
  - destruct (g_busy s) eqn:E; auto. destruct (il_ex (inv_lock HI) E) as [t Ht].
    unfold PC in Ht. rewrite (proj1 (HQ t)) in Ht. discriminate.
  - intros i. destruct (n_busy (nodes s i)) eqn:E; auto.
    destruct (ih_held (inv_hold HI) i E) as [t [Ht|Ht]].
    + unfold PC in Ht. rewrite (proj1 (HQ t)) in Ht. discriminate.
    + unfold REFS in Ht. rewrite (proj2 (HQ t)) in Ht. contradiction.
Qed.

Lemma exec_cons cap s t c rest s1 tr1 s2 tr2 tr :
  step cap s t c = Ok s1 tr1 -> tr = tr1 ++ tr2 -> exec cap s1 rest = Ok s2 tr2 ->
  exec (A:=A) cap s ((t, c) :: rest) = Ok s2 tr.
Proof. intros E1 -> E2. simpl. rewrite E1, E2. reflexivity. Qed.

Tactic Notation "go" tactic(tac) := cbn [repeat]; eapply exec_cons;
  [unfold step; simpl; unfold upd; simpl; rewrite ?Nat.eqb_refl; simpl; tac; reflexivity
  |simpl; reflexivity|].

Lemma slot_cap cap pop : pop < cap -> slot cap pop cap = pop.
Proof.
  intros H. unfold slot. rewrite <- (Nat.mul_1_l cap) at 1. rewrite Nat.mod_add by lia.
  apply Nat.mod_small. exact H.
Qed.

Lemma put_alone cap (s : state) ss t a :
  Inv cap s ss -> t_pc (thr s t) = Idle -> g_busy s = false ->
  n_busy (nodes s (g_push s)) = false -> returns_alone cap s t (CPut a) 8.
Proof.
  intros HI Ep Eb En. pose proof (ii_cap (inv_idx HI)) as Hc.
  pose proof (ii_push (inv_idx HI)) as Hp.
  apply Nat.ltb_lt in Hp. assert (Hc0 : Nat.eqb cap 0 = false) by (apply Nat.eqb_neq; lia).
  assert (Hs : g_size s = length (s_items ss)).
  { apply (ii_size0 (inv_idx HI)). intros t'. destruct (mid (PC s t')) eqn:Em; auto.
    exfalso. assert (X : inCS (PC s t') = true) by (destruct (PC s t'); simpl in *; congruence).
    pose proof (il_busy (inv_lock HI) t' X). congruence. }
  pose proof (ii_len (inv_idx HI)) as Hl. pose proof (ii_rel (inv_idx HI)) as Hr.
  destruct (Nat.eqb (g_pop s) (g_push s) && negb (Nat.eqb (g_size s) 0)) eqn:Ef.
  - exists 3. eexists _, _, (OPut a). split; [lia|]. split; [reflexivity|]. split.
    + go (rewrite Ep).
      go (rewrite Eb).
      go (rewrite Ef).
      go idtac. reflexivity.
    + simpl. unfold upd. rewrite Nat.eqb_refl. reflexivity.
  - assert (Hlt : Nat.ltb (g_size s) cap = true).
    { apply Nat.ltb_lt. rewrite Hs. destruct (Nat.eq_dec (length (s_items ss)) cap) as [C|C]; [|lia].
      exfalso. apply andb_false_iff in Ef. destruct Ef as [Ef|Ef].
      - apply Nat.eqb_neq in Ef. apply Ef. rewrite Hr, C. symmetry. apply slot_cap. exact (ii_pop (inv_idx HI)).
      - apply negb_false_iff, Nat.eqb_eq in Ef. lia. }
    exists 8. eexists _, _, (OPut a). split; [lia|]. split; [reflexivity|]. split.
    + go (rewrite Ep).
      go (rewrite Eb).
      go (rewrite Ef).
      go (rewrite Hp, En).
      go (rewrite Hc0).
      go (rewrite Hlt).
      go idtac.
      go idtac.
      go idtac.
      reflexivity.
    + simpl. unfold upd. rewrite Nat.eqb_refl. reflexivity.
Qed.

Lemma get_alone cap (s : state) ss t :
  Inv cap s ss -> t_pc (thr s t) = Idle -> g_busy s = false ->
  n_busy (nodes s (g_pop s)) = false -> returns_alone cap s t CGet 6.
Proof.
  intros HI Ep Eb En. pose proof (ii_cap (inv_idx HI)) as Hc.
  pose proof (ii_pop (inv_idx HI)) as Hp.
  apply Nat.ltb_lt in Hp. assert (Hc0 : Nat.eqb cap 0 = false) by (apply Nat.eqb_neq; lia).
  assert (Hs : g_size s = length (s_items ss)).
  { apply (ii_size0 (inv_idx HI)). intros t'. destruct (mid (PC s t')) eqn:Em; auto.
    exfalso. assert (X : inCS (PC s t') = true) by (destruct (PC s t'); simpl in *; congruence).
    pose proof (il_busy (inv_lock HI) t' X). congruence. }
  pose proof (ii_len (inv_idx HI)) as Hl. pose proof (ii_rel (inv_idx HI)) as Hr.
  destruct (Nat.eqb (g_push s) (g_pop s) && Nat.eqb (g_size s) 0) eqn:Ef.
  - exists 3. eexists _, _, OGet. split; [lia|]. split; [reflexivity|]. split.
    + go (rewrite Ep).
      go (rewrite Eb).
      go (rewrite Ef).
      go idtac. reflexivity.
    + simpl. unfold upd. rewrite Nat.eqb_refl. reflexivity.
  - assert (Hlt : Nat.ltb 0 (g_size s) = true).
    { apply Nat.ltb_lt. rewrite Hs. destruct (length (s_items ss)) as [|m] eqn:C; [|lia].
      exfalso. apply andb_false_iff in Ef. destruct Ef as [Ef|Ef].
      - apply Nat.eqb_neq in Ef. apply Ef. rewrite Hr. apply slot_0. apply Nat.ltb_lt. exact Hp.
      - apply Nat.eqb_neq in Ef. lia. }
    exists 6. eexists _, _, OGet. split; [lia|]. split; [reflexivity|]. split.
    + go (rewrite Ep).
      go (rewrite Eb).
      go (rewrite Ef).
      go (rewrite Hp, En).
      go (rewrite Hc0).
      go (rewrite Hlt).
      go idtac.
      reflexivity.
    + simpl. unfold upd. rewrite Nat.eqb_refl. reflexivity.
Qed.

Lemma query_alone cap (s : state) t q :
  t_pc (thr s t) = Idle -> g_busy s = false -> returns_alone cap s t (CQuery q) 3.
Proof.
  intros Ep Eb. exists 3. eexists _, _, (OQuery q). split; [lia|]. split; [reflexivity|]. split.
  - go (rewrite Ep).
    go (rewrite Eb).
    go idtac.
    go idtac. reflexivity.
  - simpl. unfold upd. rewrite Nat.eqb_refl. reflexivity.
Qed.

Lemma all_alone cap (s : state) ss t c :
  Inv cap s ss -> quiescent s -> op_of c <> None -> returns_alone cap s t c 8.
Proof.
  intros HI HQ Hc. destruct (quiescent_free HI HQ) as [Eb En].
  assert (W : forall n m, n <= m -> returns_alone cap s t c n -> returns_alone cap s t c m).
  { intros n m Hle (k & s' & r & o & Hk & Rest). exists k, s', r, o. split; [lia|exact Rest]. }
  destruct c as [a| |q|i|i]; try (exfalso; apply Hc; reflexivity).
  - eapply put_alone; eauto. apply HQ.
  - apply (W 6); [lia|]. eapply get_alone; eauto. apply HQ.
  - apply (W 3); [lia|]. apply query_alone; auto. apply HQ.
Qed.

(** ** Blocking *)

(** A spinning thread with the lock held elsewhere never leaves its loop. *)
Lemma spin_forever cap t c n : forall s,
  g_busy s = true -> (exists a, t_pc (thr s t) = PSpin a) ->
  exec (A:=A) cap s (repeat (t, c) n) = Ok s [].
Proof.
  induction n as [|n IH]; intros s Hb [a Hp]; [reflexivity|].
  cbn [repeat exec]. unfold step. rewrite Hp, Hb. rewrite IH by eauto. reflexivity.
Qed.

(** [put] on a slot whose reference is not released spins forever. *)
Definition put_stuck (cap : nat) (s : state) (t : nat) : Prop :=
  g_push s < cap /\ (Nat.eqb (g_pop s) (g_push s) && negb (Nat.eqb (g_size s) 0) = false) /\
  n_busy (nodes s (g_push s)) = true /\
  exists a, (t_pc (thr s t) = PSpin a /\ g_busy s = false) \/ t_pc (thr s t) = PCheck a \/
            t_pc (thr s t) = PTake a \/ t_pc (thr s t) = PBusyClear a.

Lemma stuck_forever cap t c n : forall s,
  put_stuck cap s t ->
  exists s', exec (A:=A) cap s (repeat (t, c) n) = Ok s' [] /\ put_stuck cap s' t.
Proof.
  induction n as [|n IH]; intros s (Hl & Hf & Hb & a & Hp).
  - exists s. split; [reflexivity|]. repeat split; eauto.
  - assert (X : exists s1, step cap s t c = Ok s1 [] /\ put_stuck cap s1 t).
    { unfold step. destruct Hp as [[Hp Hl']|[Hp|[Hp|Hp]]]; rewrite Hp.
      - rewrite Hl'. eexists. split; [reflexivity|]. repeat split; auto. exists a.
        right. left. simpl. unfold upd. rewrite Nat.eqb_refl. reflexivity.
      - rewrite Hf. eexists. split; [reflexivity|]. repeat split; auto. exists a.
        right. right. left. simpl. unfold upd. rewrite Nat.eqb_refl. reflexivity.
      - cbv zeta. apply Nat.ltb_lt in Hl. rewrite Hl, Hb. apply Nat.ltb_lt in Hl.
        eexists. split; [reflexivity|]. repeat split; auto. exists a.
        right. right. right. simpl. unfold upd. rewrite Nat.eqb_refl. reflexivity.
      - eexists. split; [reflexivity|]. repeat split; auto. exists a.
        left. simpl. unfold upd. rewrite Nat.eqb_refl. auto. }
    destruct X as (s1 & E1 & H1). destruct (IH _ H1) as (s2 & E2 & H2).
    exists s2. split; [|exact H2]. cbn [repeat exec]. rewrite E1, E2. reflexivity.
Qed.

End Facts.
