(** * What spreading a change does *)
From Coq Require Import String List Arith Bool Lia Permutation.
From Verif Require Import Base LevelModel SysModel SysSpec SysBase.
Import ListNotations.

(** ** Heights *)

Inductive ht (gs : list group) : nat -> nat -> Prop :=
| ht_root x X : nth_error gs x = Some X -> g_parent X = None -> ht gs x 0
| ht_step x X p h : nth_error gs x = Some X -> g_parent X = Some p -> ht gs p h -> ht gs x (S h).

Definition rooted (gs : list group) : Prop := forall x X, nth_error gs x = Some X -> exists h, ht gs x h.

Lemma ht_fun gs x h h' : ht gs x h -> ht gs x h' -> h = h'.
Proof.
  intros H. revert h'. induction H as [x X E P|x X p h E P H IH]; intros h' H'; inversion H'; subst; try congruence.
  f_equal. apply IH. congruence.
Qed.

Lemma ht_valid gs x h : ht gs x h -> x < length gs.
Proof. intros H. inversion H; subst; eapply nth_some_lt; eauto. Qed.

(** The path from [x] to its root has distinct groups. *)
Lemma ht_path gs x h : ht gs x h -> exists l, length l = S h /\ NoDup l /\
  (forall y, In y l -> y < length gs /\ exists k, k <= h /\ ht gs y k) /\ In x l.
Proof.
  intros H. induction H as [x X E P|x X p h E P H (l & Hl & Hn & Hv & Hi)].
  - exists [x]. repeat split; cbn; auto.
    + constructor; [intros []|constructor].
    + destruct H as [<-|[]]. eapply nth_some_lt; eauto.
    + destruct H as [<-|[]]. exists 0. split; [lia|]. eapply ht_root; eauto.
  - exists (x :: l). cbn. split; [lia|]. split; [|split; [|auto]].
    + constructor; [|exact Hn]. intros Hx. destruct (Hv _ Hx) as (_ & k & Hk & Hh).
      assert (Hh' : ht gs x (S h)) by (eapply ht_step; eauto). pose proof (ht_fun _ _ _ _ Hh Hh'). lia.
    + intros y [<-|Hy].
      * split; [eapply nth_some_lt; eauto|]. exists (S h). split; [lia|]. eapply ht_step; eauto.
      * destruct (Hv _ Hy) as (? & k & ? & ?). split; [assumption|]. exists k. split; [lia|assumption].
Qed.

Lemma ht_bound gs x h : ht gs x h -> h < length gs.
Proof.
  intros H. destruct (ht_path _ _ _ H) as (l & Hl & Hn & Hv & _).
  assert (Hi : incl l (seq 0 (length gs))). { intros y Hy. apply in_seq. destruct (Hv _ Hy). lia. }
  pose proof (NoDup_incl_length Hn Hi) as Hle. rewrite seq_length in Hle. lia.
Qed.

(** ** Membership of a stage *)

Definition in_st (st : list (list nat)) (n x : nat) : Prop := exists l, nth_error st n = Some l /\ In x l.

Lemma in_st_nil n x : ~ in_st [] n x.
Proof. intros (l & H & _). destruct n; discriminate. Qed.

Lemma add_stage_in n x st m y : in_st (add_stage n x st) m y <-> (m = n /\ y = x) \/ in_st st m y.
Proof.
  revert st m. induction n as [|n IH]; intros [|l st] m; cbn.
  - split.
    + intros (l & H & Hi). destruct m as [|m]; cbn in H; [|destruct m; discriminate]. injection H as <-.
      destruct Hi as [->|[]]; auto.
    + intros [[-> ->]|H]; [exists [x]; cbn; auto|]. exfalso. eapply in_st_nil; eauto.
  - destruct m as [|m].
    + split.
      * intros (l' & H & Hi). injection H as <-. destruct (existsb (Nat.eqb x) l) eqn:E.
        -- right. exists l. cbn. auto.
        -- apply in_app_or in Hi. destruct Hi as [Hi|[->|[]]]; [right; exists l; cbn; auto|auto].
      * intros [[_ ->]|(l' & H & Hi)].
        -- eexists. split; [reflexivity|]. destruct (existsb (Nat.eqb x) l) eqn:E.
           ++ apply existsb_exists in E. destruct E as (z & Hz & He). apply Nat.eqb_eq in He. subst. exact Hz.
           ++ apply in_or_app. cbn. auto.
        -- injection H as <-. eexists. split; [reflexivity|]. destruct (existsb (Nat.eqb x) l); [exact Hi|apply in_or_app; auto].
    + split.
      * intros (l' & H & Hi). right. exists l'. auto.
      * intros [[? ?]|(l' & H & Hi)]; [discriminate|]. exists l'. auto.
  - destruct m as [|m].
    + split; [|intros [[? ?]|H]; [discriminate|exfalso; eapply in_st_nil; eauto]].
      intros (l & H & Hi). injection H as <-. destruct Hi.
    + specialize (IH [] m). split.
      * intros (l & H & Hi). assert (in_st (add_stage n x []) m y) as H' by (exists l; auto).
        apply IH in H'. destruct H' as [[-> ->]|H']; [auto|exfalso; eapply in_st_nil; eauto].
      * intros [[Hm ->]|H]; [|exfalso; eapply in_st_nil; eauto]. injection Hm as ->.
        destruct (proj2 IH (or_introl (conj eq_refl eq_refl))) as (l & Hl & Hi). exists l. auto.
  - destruct m as [|m].
    + split.
      * intros (l' & H & Hi). right. exists l'. auto.
      * intros [[? ?]|(l' & H & Hi)]; [discriminate|]. exists l'. auto.
    + specialize (IH st m). split.
      * intros (l' & H & Hi). assert (in_st (add_stage n x st) m y) as H' by (exists l'; auto).
        apply IH in H'. destruct H' as [[-> ->]|(l2 & ? & ?)]; [auto|right; exists l2; auto].
      * intros [[Hm ->]|(l2 & H & Hi)].
        -- injection Hm as ->. destruct (proj2 IH (or_introl (conj eq_refl eq_refl))) as (l2 & ? & ?). exists l2. auto.
        -- assert (in_st st m y) as H' by (exists l2; auto).
           destruct (proj2 IH (or_intror H')) as (l3 & ? & ?). exists l3. auto.
Qed.

(** ** Distance from the changed group *)
Section Dist.
Variable ov : group -> bool.
Variable gs : list group.
Variable g : nat.

Inductive dep : nat -> nat -> Prop :=
| dep_self : dep g 0
| dep_step x X p n : x <> g -> nth_error gs x = Some X -> ov X = false -> g_parent X = Some p ->
    dep p n -> dep x (S n).

Lemma dep_fun x n m : dep x n -> dep x m -> n = m.
Proof.
  intros H. revert m. induction H as [|x X p n Hg E O P H IH]; intros m H'; inversion H'; subst; try congruence.
  f_equal. apply IH. congruence.
Qed.

Definition passed_ok (passed : passed_t) (st : list (list nat)) : Prop :=
  forall k r, assoc passed k = Some r ->
    match r with
    | Some n => dep k n /\ (forall m, n = S m -> in_st st m k)
    | None => forall n, ~ dep k n
    end.
Definition st_ok (st : list (list nat)) : Prop :=
  (forall n x, in_st st n x -> dep x (S n)) /\
  (forall n x X p, in_st st (S n) x -> nth_error gs x = Some X -> g_parent X = Some p -> in_st st n p).
Definition st_le (st st' : list (list nat)) : Prop := forall n x, in_st st n x -> in_st st' n x.

Lemma passed_mono passed st st' : st_le st st' -> passed_ok passed st -> passed_ok passed st'.
Proof.
  intros Hle H k r E. specialize (H k r E). destruct r as [n|]; [|exact H]. destruct H as (H1 & H2). split; [exact H1|].
  intros m Hm. apply Hle. auto.
Qed.

Lemma fn_spec fuel passed st cur r st' :
  fn fuel ov gs g passed st cur = Some (r, st') -> passed_ok passed st -> st_ok st ->
  st_le st st' /\ st_ok st' /\
  match r with
  | Some n => dep cur n /\ (forall m, n = S m -> in_st st' m cur)
  | None => forall n, ~ dep cur n
  end.
Proof.
  revert cur r st'. induction fuel as [|f IH]; intros cur r st' H Hp Hs; cbn in H.
  - destruct (assoc passed cur) as [r0|] eqn:Ea.
    { injection H as -> ->. split; [intros ? ? ?; assumption|]. split; [exact Hs|]. exact (Hp _ _ Ea). }
    destruct (Nat.eqb_spec cur g) as [->|Hg].
    { injection H as <- <-. split; [intros ? ? ?; assumption|]. split; [exact Hs|]. split; [constructor|discriminate]. }
    destruct (nth_error gs cur) as [X|] eqn:E.
    2:{ injection H as <- <-. split; [intros ? ? ?; assumption|]. split; [exact Hs|]. intros n Hn. inversion Hn; subst; congruence. }
    destruct (ov X) eqn:O.
    { injection H as <- <-. split; [intros ? ? ?; assumption|]. split; [exact Hs|]. intros n Hn. inversion Hn; subst; congruence. }
    destruct (g_parent X) as [p|] eqn:P; [discriminate|].
    injection H as <- <-. split; [intros ? ? ?; assumption|]. split; [exact Hs|]. intros n Hn. inversion Hn; subst; congruence.
  - destruct (assoc passed cur) as [r0|] eqn:Ea.
    { injection H as -> ->. split; [intros ? ? ?; assumption|]. split; [exact Hs|]. exact (Hp _ _ Ea). }
    destruct (Nat.eqb_spec cur g) as [->|Hg].
    { injection H as <- <-. split; [intros ? ? ?; assumption|]. split; [exact Hs|]. split; [constructor|discriminate]. }
    destruct (nth_error gs cur) as [X|] eqn:E.
    2:{ injection H as <- <-. split; [intros ? ? ?; assumption|]. split; [exact Hs|]. intros n Hn. inversion Hn; subst; congruence. }
    destruct (ov X) eqn:O.
    { injection H as <- <-. split; [intros ? ? ?; assumption|]. split; [exact Hs|]. intros n Hn. inversion Hn; subst; congruence. }
    destruct (g_parent X) as [p|] eqn:P.
    2:{ injection H as <- <-. split; [intros ? ? ?; assumption|]. split; [exact Hs|]. intros n Hn. inversion Hn; subst; congruence. }
    destruct (fn f ov gs g passed st p) as [[[n|] st1]|] eqn:F; [| |discriminate].
    + destruct (IH _ _ _ F Hp Hs) as (Hle & (S1 & S2) & Hd & Hi). injection H as <- <-.
      split; [intros m x Hx; apply add_stage_in; right; apply Hle; exact Hx|]. split.
      * split.
        -- intros m x Hx. apply add_stage_in in Hx. destruct Hx as [[-> ->]|Hx]; [|auto]. econstructor; eauto.
        -- intros m x X' p' Hx E' P'. apply add_stage_in. apply add_stage_in in Hx. destruct Hx as [[<- ->]|Hx].
           ++ right. rewrite E in E'. injection E' as <-. rewrite P in P'. injection P' as <-. apply Hi. reflexivity.
           ++ right. eapply S2; eauto.
      * split; [econstructor; eauto|]. intros m [= <-]. apply add_stage_in. auto.
    + destruct (IH _ _ _ F Hp Hs) as (Hle & Hs1 & Hd). injection H as <- <-.
      split; [exact Hle|]. split; [exact Hs1|]. intros n Hn. inversion Hn; subst; [congruence|].
      rewrite E in H0. injection H0 as <-. rewrite P in H2. injection H2 as <-. eapply Hd; eauto.
Qed.

Lemma fn_total fuel passed st cur h : ht gs cur h -> h <= fuel -> fn fuel ov gs g passed st cur <> None.
Proof.
  revert cur h st. induction fuel as [|f IH]; intros cur h st H Hf; inversion H as [x X E P|x X p h' E P H']; subst; cbn;
    destruct (assoc passed cur); try discriminate; destruct (Nat.eqb cur g); try discriminate; rewrite E, P;
    destruct (ov X); try discriminate; try lia.
  assert (Hh : h' <= f) by lia. specialize (IH _ _ st H' Hh).
  destruct (fn f ov gs g passed st p) as [[[n|] ?]|]; try discriminate. congruence.
Qed.

Lemma scan_spec fuel m : forall passed st passed' st',
  scan fuel ov gs g passed st m = Some (passed', st') -> passed_ok passed st -> st_ok st ->
  st_le st st' /\ st_ok st' /\ passed_ok passed' st' /\
  (forall k, assoc passed k <> None -> assoc passed' k <> None) /\
  (forall k, assoc passed' k <> None -> assoc passed k <> None \/ In k (map snd m)) /\
  (forall k, In k (map snd m) -> assoc passed' k <> None).
Proof.
  induction m as [|[nm i] m IH]; intros passed st passed' st' H Hp Hs; cbn in H.
  - injection H as <- <-. split; [intros ? ? ?; assumption|]. split; [assumption|]. split; [assumption|].
    split; [auto|]. split; [auto|]. intros k [].
  - destruct (fn fuel ov gs g passed st i) as [[r st1]|] eqn:F; [|discriminate].
    destruct (fn_spec _ _ _ _ _ _ F Hp Hs) as (Hle & Hs1 & Hr).
    assert (Hp1 : passed_ok ((i, r) :: passed) st1).
    { intros k r' E. cbn in E. destruct (Nat.eqb_spec i k) as [->|Hk].
      - injection E as <-. exact Hr.
      - exact (passed_mono _ _ _ Hle Hp k r' E). }
    destruct (IH _ _ _ _ H Hp1 Hs1) as (Hle2 & Hs2 & Hp2 & M1 & M2 & M3).
    split; [intros n x Hx; apply Hle2, Hle, Hx|]. split; [exact Hs2|]. split; [exact Hp2|].
    assert (Hi : assoc passed' i <> None). { apply M1. cbn. rewrite Nat.eqb_refl. discriminate. }
    split; [|split].
    + intros k Hk. apply M1. cbn. destruct (Nat.eqb i k); [discriminate|exact Hk].
    + intros k Hk. destruct (M2 _ Hk) as [Hk'|Hk']; [|cbn; auto]. cbn in Hk'.
      destruct (Nat.eqb_spec i k) as [->|Hik]; [cbn; auto|auto].
    + cbn. intros k [<-|Hk]; [exact Hi|auto].
Qed.

Lemma scan_total fuel m : length gs <= fuel -> rooted gs -> (forall n i, In (n, i) m -> i < length gs) ->
  forall passed st, scan fuel ov gs g passed st m <> None.
Proof.
  intros Hf Hr. induction m as [|[nm i] m IH]; intros Hv passed st; cbn; [discriminate|].
  destruct (lt_nth_some gs i (Hv nm i (or_introl eq_refl))) as (X & E). destruct (Hr _ _ E) as (h & Hh).
  pose proof (ht_bound _ _ _ Hh) as Hb.
  pose proof (fn_total fuel passed st i h Hh ltac:(lia)) as Ht.
  destruct (fn fuel ov gs g passed st i) as [[r st1]|]; [|congruence].
  apply IH. intros n j Hj. apply (Hv n j). right. exact Hj.
Qed.

(** ** The stages *)
Variable ord : list nat -> list nat.
Hypothesis ord_in : forall l x, In x (ord l) <-> In x l.
Variable up : nat -> group -> group -> group.
Hypothesis up_par : forall p y x, g_parent x = Some p -> g_parent (up p y x) = Some p.
Hypothesis up_idem : forall p y x, up p y (up p y x) = up p y x.

Lemma refresh_other cur i x : x <> i -> nth_error (refresh up cur i) x = nth_error cur x.
Proof.
  intros H. unfold refresh. destruct (nth_error cur i) as [X|]; [|reflexivity].
  destruct (g_parent X) as [p|]; [|reflexivity]. destruct (nth_error cur p) as [Y|]; [|reflexivity].
  apply nth_set_at_other. exact H.
Qed.

Lemma refresh_same cur i X p Y : nth_error cur i = Some X -> g_parent X = Some p -> nth_error cur p = Some Y ->
  nth_error (refresh up cur i) i = Some (up p Y X).
Proof.
  intros E P EY. unfold refresh. rewrite E, P, EY. apply nth_set_at. eapply nth_some_lt; eauto.
Qed.

Lemma refresh_length cur i : length (refresh up cur i) = length cur.
Proof.
  unfold refresh. destruct (nth_error cur i) as [X|]; [|reflexivity].
  destruct (g_parent X) as [p|]; [|reflexivity]. destruct (nth_error cur p) as [Y|]; [|reflexivity]. apply set_at_length.
Qed.

(** One stage. *)
Lemma stage_spec l : forall cur,
  (forall x, In x l -> forall X p, nth_error cur x = Some X -> g_parent X = Some p -> ~ In p l) ->
  let cur' := fold_left (refresh up) l cur in
  length cur' = length cur /\
  (forall x, ~ In x l -> nth_error cur' x = nth_error cur x) /\
  (forall x X p Y, In x l -> nth_error cur x = Some X -> g_parent X = Some p -> nth_error cur p = Some Y ->
    nth_error cur' x = Some (up p Y X)).
Proof.
  induction l as [|i l IH]; intros cur Hd; cbn.
  - split; [reflexivity|]. split; [reflexivity|]. intros ? ? ? ? [].
  - set (c1 := refresh up cur i).
    assert (Hpar : forall x X', nth_error c1 x = Some X' -> exists X, nth_error cur x = Some X /\ g_parent X' = g_parent X).
    { intros x X' E. destruct (Nat.eq_dec x i) as [->|Hx].
      - unfold c1, refresh in E. destruct (nth_error cur i) as [X|] eqn:EX; [|congruence].
        destruct (g_parent X) as [p|] eqn:P; [|rewrite EX in E; injection E as <-; eauto].
        destruct (nth_error cur p) as [Y|] eqn:EY; [|rewrite EX in E; injection E as <-; eauto].
        rewrite nth_set_at in E by (eapply nth_some_lt; eauto). injection E as <-. exists X. rewrite (up_par _ _ _ P). auto.
      - unfold c1 in E. rewrite refresh_other in E by exact Hx. eauto. }
    assert (Hd1 : forall x, In x l -> forall X p, nth_error c1 x = Some X -> g_parent X = Some p -> ~ In p l).
    { intros x Hx X' p E P Hp. destruct (Hpar _ _ E) as (X & EX & PX).
      apply (Hd x (or_intror Hx) X p EX); [congruence|right; exact Hp]. }
    destruct (IH c1 Hd1) as (L1 & L2 & L3). split; [rewrite L1; apply refresh_length|]. split.
    + intros x Hx. rewrite L2 by tauto. apply refresh_other. intros ->. apply Hx. auto.
    + intros x X p Y Hx E P EY.
      assert (Hpi : p <> i). { intros ->. apply (Hd x Hx X i E P). left. reflexivity. }
      assert (EY1 : nth_error c1 p = Some Y) by (unfold c1; rewrite refresh_other by exact Hpi; exact EY).
      destruct (Nat.eq_dec x i) as [->|Hxi].
      * assert (E1 : nth_error c1 i = Some (up p Y X)) by (apply (refresh_same _ _ _ _ _ E P EY)).
        destruct (in_dec Nat.eq_dec i l) as [Hil|Hil].
        -- rewrite (L3 i (up p Y X) p Y Hil E1); [rewrite up_idem; reflexivity|apply up_par; exact P|exact EY1].
        -- rewrite L2 by exact Hil. exact E1.
      * destruct Hx as [->|Hx]; [congruence|]. apply L3; auto. unfold c1. rewrite refresh_other by exact Hxi. exact E.
Qed.

(** All of them: stages [k ..]. *)
Lemma stages_spec : forall st k cur,
  length cur = length gs ->
  (forall n x, in_st st n x -> dep x (S (k + n))) ->
  (forall n x X p, in_st st (S n) x -> nth_error gs x = Some X -> g_parent X = Some p -> in_st st n p) ->
  (forall x X, nth_error gs x = Some X -> (forall m, m < k -> ~ dep x (S m)) -> nth_error cur x = Some X) ->
  let cur' := run_stages ord up cur st in
  length cur' = length gs /\
  (forall x, (forall n, ~ in_st st n x) -> nth_error cur' x = nth_error cur x) /\
  (forall x X n p Y, in_st st n x -> nth_error gs x = Some X -> g_parent X = Some p -> nth_error cur' p = Some Y ->
    nth_error cur' x = Some (up p Y X)).
Proof.
  induction st as [|l st IH]; intros k cur HL Hd Hc Hu.
  - cbn. split; [exact HL|]. split; [reflexivity|]. intros x X n p Y H. exfalso. eapply in_st_nil; eauto.
  - cbn [run_stages fold_left]. set (c1 := fold_left (refresh up) (ord l) cur).
    change (fold_left _ st c1) with (run_stages ord up c1 st).
    assert (H0 : forall x, In x l -> dep x (S k)). { intros x Hx. specialize (Hd 0 x). rewrite Nat.add_0_r in Hd. apply Hd. exists l. auto. }
    assert (Hx0 : forall x, In x l -> exists X p, nth_error gs x = Some X /\ g_parent X = Some p /\ dep p k /\ nth_error cur x = Some X).
    { intros x Hx. pose proof (H0 x Hx) as D. inversion D as [|? X p n ? E O P Dp]; subst. exists X, p. repeat split; auto.
      apply Hu; [exact E|]. intros m Hm D'. pose proof (dep_fun _ _ _ D D'). lia. }
    assert (Hs : forall x, In x (ord l) -> forall X p, nth_error cur x = Some X -> g_parent X = Some p -> ~ In p (ord l)).
    { intros x Hx X p E P Hp. rewrite ord_in in Hx, Hp. destruct (Hx0 x Hx) as (X' & p' & E' & P' & Dp & Ec).
      rewrite Ec in E. injection E as <-. rewrite P' in P. injection P as <-.
      pose proof (dep_fun _ _ _ Dp (H0 _ Hp)). lia. }
    destruct (stage_spec (ord l) cur Hs) as (L1 & L2 & L3). fold c1 in L1, L2, L3.
    assert (D1 : forall n x, in_st st n x -> dep x (S (S k + n))).
    { intros n x (l' & Hl & Hi). replace (S k + n) with (k + S n) by lia. apply Hd. exists l'. auto. }
    destruct (IH (S k) c1) as (R1 & R2 & R3).
    + congruence.
    + exact D1.
    + intros n x X p (l' & Hl & Hi) E P. destruct (Hc (S n) x X p) as (l2 & H2 & H2'); auto; [exists l'; auto|]. exists l2. auto.
    + intros x X E Hn. rewrite L2.
      * apply Hu; [exact E|]. intros m Hm. apply Hn. lia.
      * rewrite ord_in. intros Hx. apply (Hn k); [lia|]. apply H0. exact Hx.
    + split; [exact R1|]. split.
      * intros x Hx. rewrite R2; [apply L2; rewrite ord_in; intros Hi; apply (Hx 0); exists l; auto|].
        intros n (l' & Hl & Hi). apply (Hx (S n)). exists l'. auto.
      * intros x X n p Y Hi E P EY. destruct n as [|n].
        -- destruct Hi as (l' & Hl & Hi). injection Hl as <-.
           destruct (Hx0 x Hi) as (X' & p' & E' & P' & Dp & Ec). rewrite E in E'. injection E' as <-. rewrite P in P'. injection P' as <-.
           assert (Hns : forall y m, dep y m -> m <= S k -> forall n, ~ in_st st n y).
           { intros y m Dy Hm n Hn. pose proof (dep_fun _ _ _ Dy (D1 _ _ Hn)). lia. }
           rewrite R2 in EY by (eapply Hns; [exact Dp|lia]).
           rewrite R2 by (eapply Hns; [apply H0; exact Hi|lia]).
           assert (Hpl : ~ In p (ord l)). { intros Hp. rewrite ord_in in Hp. pose proof (dep_fun _ _ _ Dp (H0 _ Hp)). lia. }
           rewrite L2 in EY by exact Hpl. apply (L3 x X p Y); auto. rewrite ord_in. exact Hi.
        -- destruct Hi as (l' & Hl & Hi). apply (R3 x X n p Y); auto. exists l'. auto.
Qed.

End Dist.

(** ** Loggers *)
Section Loggers.
Variable lup : nat -> group -> logger -> logger.
Variable gs : list group.
Variable passed : passed_t.

Definition l_new (L : logger) : logger :=
  if l_alive L then
    match assoc passed (l_group L), nth_error gs (l_group L) with
    | Some (Some _), Some y => lup (l_group L) y L
    | _, _ => L
    end
  else L.

Definition lstep (a : list logger * list (string * nat)) (e : string * nat) : list logger * list (string * nat) :=
    let '(ls, m') := a in
    match nth_error ls (snd e) with
    | Some x =>
        if l_alive x then
          match assoc passed (l_group x), nth_error gs (l_group x) with
          | Some (Some _), Some y => (set_at ls (snd e) (lup (l_group x) y x), m' ++ [e])
          | _, _ => (ls, m' ++ [e])
          end
        else (ls, m')
    | None => (ls, m')
    end.

Lemma set_at_same {A} (l : list A) i x : nth_error l i = Some x -> set_at l i x = l.
Proof. revert i. induction l as [|y l IH]; intros [|i] H; cbn in *; try discriminate; [congruence|]. f_equal. auto. Qed.

Lemma lstep_eq ls m' e : lstep (ls, m') e =
  match nth_error ls (snd e) with
  | Some L => (set_at ls (snd e) (l_new L), if l_alive L then m' ++ [e] else m')
  | None => (ls, m')
  end.
Proof.
  unfold lstep. destruct (nth_error ls (snd e)) as [L|] eqn:E; [|reflexivity]. unfold l_new.
  destruct (l_alive L); [|rewrite set_at_same by exact E; reflexivity].
  destruct (assoc passed (l_group L)) as [[n|]|]; destruct (nth_error gs (l_group L)) as [y|];
    try (rewrite set_at_same by exact E); reflexivity.
Qed.

Lemma spread_loggers_spec m : forall ls m0 ls' m',
  NoDup (map snd m) ->
  fold_left lstep m (ls, m0) = (ls', m') ->
  length ls' = length ls /\
  (forall i, ~ In i (map snd m) -> nth_error ls' i = nth_error ls i) /\
  (forall i L, In i (map snd m) -> nth_error ls i = Some L -> nth_error ls' i = Some (l_new L)) /\
  m' = m0 ++ filter (alive_in ls) m.
Proof.
  induction m as [|e m IH]; intros ls m0 ls' m' Hn H.
  - cbn in H. injection H as <- <-. rewrite app_nil_r. repeat split; auto. intros i L [].
  - change (fold_left lstep (e :: m) (ls, m0)) with (fold_left lstep m (lstep (ls, m0) e)) in H.
    rewrite lstep_eq in H. cbn in Hn. inversion Hn as [|? ? Hn1 Hn2]; subst.
    destruct (nth_error ls (snd e)) as [L|] eqn:E.
    + destruct (IH _ _ _ _ Hn2 H) as (L1 & L2 & L3 & L4). rewrite set_at_length in L1. split; [exact L1|].
      split; [|split].
      * intros i Hi. cbn in Hi. rewrite L2 by tauto. apply nth_set_at_other. intros ->. tauto.
      * intros i L' Hi E'. destruct (Nat.eq_dec i (snd e)) as [->|Hie].
        -- rewrite L2 by exact Hn1. rewrite E in E'. injection E' as <-. apply nth_set_at. eapply nth_some_lt; eauto.
        -- destruct Hi as [Hi|Hi]; [congruence|]. apply L3; [exact Hi|]. rewrite nth_set_at_other by exact Hie. exact E'.
      * rewrite L4. cbn [filter]. unfold alive_in at 2. rewrite E.
        assert (Hf : filter (alive_in (set_at ls (snd e) (l_new L))) m = filter (alive_in ls) m).
        { apply filter_ext_in. intros e' He'. unfold alive_in. rewrite nth_set_at_other; [reflexivity|].
          intros Heq. apply Hn1. apply in_map_iff. exists e'. split; [exact Heq|exact He']. }
        rewrite Hf. destruct (l_alive L); [rewrite <- app_assoc; reflexivity|reflexivity].
    + destruct (IH _ _ _ _ Hn2 H) as (L1 & L2 & L3 & L4). split; [exact L1|]. split; [|split].
      * intros i Hi. cbn in Hi. apply L2. tauto.
      * intros i L' [<-|Hi] E'; [congruence|]. auto.
      * rewrite L4. cbn [filter]. unfold alive_in at 2. rewrite E. reflexivity.
Qed.
End Loggers.

(** ** The whole *)
Section Spread.
Variable ord : list nat -> list nat.
Hypothesis ord_in : forall l x, In x (ord l) <-> In x l.
Variable ov : group -> bool.
Variable up : nat -> group -> group -> group.
Variable lup : nat -> group -> logger -> logger.
Hypothesis up_par : forall p y x, g_parent x = Some p -> g_parent (up p y x) = Some p.
Hypothesis up_idem : forall p y x, up p y (up p y x) = up p y x.

Definition below (s : sys) (g x : nat) : Prop := exists n, dep ov (groups s) g x n.

Lemma below_inherits s g x : below s g x <-> inherits ov s g x.
Proof.
  split.
  - intros (n & H). induction H as [|x X p n Hg E O P H IH]; [constructor|]. econstructor; eauto.
  - intros H. induction H as [|x X y E O P H (n & Hn)]; [exists 0; constructor|].
    destruct (Nat.eq_dec x g) as [->|Hg]; [exists 0; constructor|]. exists (S n). econstructor; eauto.
Qed.

Lemma spread_spec fuel s g :
  length (groups s) <= fuel ->
  rooted (groups s) ->
  (forall n i, In (n, i) (gmap s) -> i < length (groups s)) ->
  In g (map snd (gmap s)) ->
  (forall x X, nth_error (groups s) x = Some X -> g_parent X <> None -> In x (map snd (gmap s))) ->
  NoDup (map snd (lmap s)) ->
  exists s', spread ord fuel ov up lup s g = Some s' /\
    length (groups s') = length (groups s) /\
    length (loggers s') = length (loggers s) /\
    sinks s' = sinks s /\ gmap s' = gmap s /\ smap s' = smap s /\ configured s' = configured s /\
    lmap s' = filter (alive_in (loggers s)) (lmap s) /\
    nth_error (groups s') g = nth_error (groups s) g /\
    (forall x, ~ inherits ov s g x -> nth_error (groups s') x = nth_error (groups s) x) /\
    (forall x X, nth_error (groups s) x = Some X -> inherits ov s g x -> x <> g ->
      exists p, g_parent X = Some p /\ ov X = false /\ inherits ov s g p /\
        forall Y, nth_error (groups s') p = Some Y -> nth_error (groups s') x = Some (up p Y X)) /\
    (forall i L, nth_error (loggers s) i = Some L ->
      ~ (In i (map snd (lmap s)) /\ l_alive L = true /\ inherits ov s g (l_group L)) -> nth_error (loggers s') i = Some L) /\
    (forall i L Y, nth_error (loggers s) i = Some L -> In i (map snd (lmap s)) -> l_alive L = true ->
      inherits ov s g (l_group L) -> nth_error (groups s') (l_group L) = Some Y ->
      nth_error (loggers s') i = Some (lup (l_group L) Y L)).
Proof.
  intros Hf Hr Hv Hg Hreg Hnl. unfold spread.
  destruct (scan fuel ov (groups s) g [] [] (gmap s)) as [[passed st]|] eqn:Esc; [|exfalso; eapply scan_total; eauto].
  assert (P0 : passed_ok ov (groups s) g [] []) by (intros k r E; discriminate).
  assert (S0 : st_ok ov (groups s) g []) by (split; intros; exfalso; eapply in_st_nil; eauto).
  destruct (scan_spec _ _ _ _ _ _ _ _ _ Esc P0 S0) as (_ & (S1 & S2) & Hp & _ & M2 & M3).
  set (gs' := run_stages ord up (groups s) st).
  destruct (stages_spec ov (groups s) g ord ord_in up up_par up_idem st 0 (groups s) eq_refl S1 S2 ltac:(intros; assumption))
    as (R1 & R2 & R3). fold gs' in R1, R2, R3.
  destruct (spread_loggers lup gs' passed (loggers s) (lmap s)) as [ls' lm'] eqn:L.
  change (fold_left (lstep lup gs' passed) (lmap s) (loggers s, []) = (ls', lm')) in L.
  destruct (spread_loggers_spec lup gs' passed _ _ _ _ _ Hnl L) as (L1 & L2 & L3 & L4).
  assert (Hst : forall x n, dep ov (groups s) g x (S n) -> in_st st n x).
  { intros x n D. assert (In x (map snd (gmap s))) as Hx.
    { inversion D as [|? X p ? ? E O P ?]; subst. apply (Hreg x X E). congruence. }
    specialize (M3 _ Hx). destruct (assoc passed x) as [[m|]|] eqn:A; [| |congruence].
    - destruct (Hp _ _ A) as (D' & Hi). apply Hi. exact (dep_fun _ _ _ _ _ _ D' D).
    - exfalso. eapply (Hp _ _ A); eauto. }
  assert (Hpass : forall x, below s g x <-> exists n, assoc passed x = Some (Some n)).
  { intros x. split.
    - intros (n & D). assert (In x (map snd (gmap s))) as Hx.
      { inversion D as [|? X p ? ? E O P ?]; subst; [exact Hg|]. apply (Hreg x X E). congruence. }
      specialize (M3 _ Hx). destruct (assoc passed x) as [[m|]|] eqn:A; [eauto| |congruence].
      exfalso. eapply (Hp _ _ A); eauto.
    - intros (n & A). exists n. exact (proj1 (Hp _ _ A)). }
  eexists. split; [reflexivity|]. cbn [groups loggers sinks gmap smap configured lmap].
  repeat (split; [first [assumption|reflexivity]|]).
  split.
  { apply R2. intros n Hn. pose proof (dep_fun _ _ _ _ _ _ (S1 _ _ Hn) (dep_self ov (groups s) g)). discriminate. }
  split.
  { intros x Hx. apply R2. intros n Hn. apply Hx. apply below_inherits. exists (Datatypes.S n). exact (S1 _ _ Hn). }
  split.
  { intros x X E Hx Hxg. apply below_inherits in Hx. destruct Hx as (n & D).
    inversion D as [|? X' p m ? E' O P D' ]; subst; [congruence|]. rewrite E in E'. injection E' as <-.
    exists p. split; [exact P|]. split; [exact O|]. split; [apply below_inherits; exists m; exact D'|].
    intros Y EY. eapply R3; eauto. }
  split.
  { intros i L' E Hn. destruct (in_dec Nat.eq_dec i (map snd (lmap s))) as [Hi|Hi]; [|rewrite L2 by exact Hi; exact E].
    rewrite (L3 i L' Hi E). f_equal. unfold l_new. destruct (l_alive L') eqn:Al; [|reflexivity].
    destruct (assoc passed (l_group L')) as [[n|]|] eqn:A; [|reflexivity|reflexivity].
    exfalso. apply Hn. split; [exact Hi|]. split; [reflexivity|]. apply below_inherits. apply Hpass. eauto. }
  { intros i L' Y E Hi Al Hin EY. rewrite (L3 i L' Hi E). f_equal. unfold l_new. rewrite Al.
    apply below_inherits in Hin. apply Hpass in Hin. destruct Hin as (n & A). rewrite A, EY. reflexivity. }
Qed.
End Spread.
