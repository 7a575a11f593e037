(** * A group that is constructed but not registered does not matter (C54) *)
From Coq Require Import String List Arith Bool Lia Permutation.
From Verif Require Import Base LevelModel SysModel SysSpec SysBase SysSpread SysInv SysOps SysSteps SysProps.
Import ListNotations.

Definition extend (s : sys) (X : group) : sys := with_groups s (groups s ++ [X]).

Lemma nth_ext (gs : list group) X i : i < length gs -> nth_error (gs ++ [X]) i = nth_error gs i.
Proof. intros H. apply nth_error_app1. exact H. Qed.
Lemma set_ext (gs : list group) X i x : i < length gs -> set_at (gs ++ [X]) i x = set_at gs i x ++ [X].
Proof. revert i. induction gs as [|y gs IH]; intros [|i] H; cbn in *; try lia; [reflexivity|]. rewrite IH by lia. reflexivity. Qed.

Definition pars (gs : list group) : Prop := forall x Y p, nth_error gs x = Some Y -> g_parent Y = Some p -> p < length gs.
Definition sts (n : nat) (st : list (list nat)) : Prop := forall l x, In l st -> In x l -> x < n.

Section Frame.
Variable ord : list nat -> list nat.
Hypothesis Hord : forall l x, In x (ord l) <-> In x l.
Variable X : group.

Lemma add_stage_sts N n x st : x < N -> sts N st -> sts N (add_stage n x st).
Proof.
  intros Hx. revert st. induction n as [|n IH]; intros [|l st] H; cbn; intros l' y [<-|Hl] Hy.
  - destruct Hy as [<-|[]]. exact Hx.
  - destruct Hl.
  - destruct (existsb (Nat.eqb x) l); [eapply H; [left; reflexivity|exact Hy]|]. apply in_app_or in Hy.
    destruct Hy as [Hy|[<-|[]]]; [eapply H; [left; reflexivity|exact Hy]|exact Hx].
  - eapply H; [right; exact Hl|exact Hy].
  - destruct Hy.
  - apply (IH [] ltac:(intros ? ? []) _ _ Hl Hy).
  - eapply H; [left; reflexivity|exact Hy].
  - refine (IH st _ _ _ Hl Hy). intros l2 z Hl2. apply H. right. exact Hl2.
Qed.

Lemma fn_frame fuel ov gs g passed : pars gs -> forall st cur, cur < length gs ->
  fn fuel ov (gs ++ [X]) g passed st cur = fn fuel ov gs g passed st cur /\
  forall r st', fn fuel ov gs g passed st cur = Some (r, st') -> sts (length gs) st -> sts (length gs) st'.
Proof.
  intros Hp. induction fuel as [|f IH]; intros st cur Hc; cbn; (destruct (assoc passed cur) as [r0|]; [split; [reflexivity|intros r st' [= <- <-]; auto]|]);
    (destruct (Nat.eqb cur g); [split; [reflexivity|intros r st' [= <- <-]; auto]|]); rewrite (nth_ext _ _ _ Hc);
    (destruct (nth_error gs cur) as [Y|] eqn:E; [|split; [reflexivity|intros r st' [= <- <-]; auto]]);
    (destruct (ov Y); [split; [reflexivity|intros r st' [= <- <-]; auto]|]);
    (destruct (g_parent Y) as [p|] eqn:P; [|split; [reflexivity|intros r st' [= <- <-]; auto]]).
  - split; [reflexivity|discriminate].
  - pose proof (Hp _ _ _ E P) as Hpl. destruct (IH st p Hpl) as (-> & H2). split; [reflexivity|].
    destruct (fn f ov gs g passed st p) as [[[n|] st2]|]; intros r st' [= <- <-] Hs.
    + apply add_stage_sts; [exact Hc|]. eapply H2; eauto.
    + eapply H2; eauto.
Qed.

Lemma scan_frame fuel ov gs g m : pars gs -> (forall n i, In (n, i) m -> i < length gs) -> forall passed st,
  scan fuel ov (gs ++ [X]) g passed st m = scan fuel ov gs g passed st m /\
  forall q st', scan fuel ov gs g passed st m = Some (q, st') -> sts (length gs) st -> sts (length gs) st'.
Proof.
  intros Hp. induction m as [|[n i] m IH]; intros Hm passed st; cbn.
  - split; [reflexivity|]. intros q st' [= <- <-]. auto.
  - destruct (fn_frame fuel ov gs g passed Hp st i (Hm n i (or_introl eq_refl))) as (-> & H2).
    destruct (fn fuel ov gs g passed st i) as [[r st2]|]; [|split; [reflexivity|discriminate]].
    destruct (IH (fun n i Hi => Hm n i (or_intror Hi)) ((i, r) :: passed) st2) as (-> & H3). split; [reflexivity|].
    intros q st' Hq Hs. eapply H3; eauto.
Qed.

Section Up.
Variable up : nat -> group -> group -> group.
Hypothesis up_par : forall p y x, g_parent x = Some p -> g_parent (up p y x) = Some p.

Lemma refresh_frame gs i : pars gs -> i < length gs -> refresh up (gs ++ [X]) i = refresh up gs i ++ [X].
Proof.
  intros Hp Hi. unfold refresh. rewrite (nth_ext _ _ _ Hi). destruct (nth_error gs i) as [Y|] eqn:E; [|reflexivity].
  destruct (g_parent Y) as [p|] eqn:P; [|reflexivity]. rewrite (nth_ext _ _ _ (Hp _ _ _ E P)).
  destruct (nth_error gs p) as [Z|]; [|reflexivity]. apply set_ext. exact Hi.
Qed.
Lemma refresh_pars gs i : pars gs -> pars (refresh up gs i).
Proof.
  intros Hp x Y p E P. rewrite refresh_length. unfold refresh in E. destruct (nth_error gs i) as [Z|] eqn:EZ; [|eauto].
  destruct (g_parent Z) as [q|] eqn:PZ; [|eauto]. destruct (nth_error gs q) as [W|] eqn:EW; [|eauto].
  apply nth_set_cases in E. destruct E as [(-> & ->)|(_ & E)]; [|eauto]. rewrite (up_par _ _ _ PZ) in P. injection P as <-. eauto.
Qed.

Lemma stage_frame l : forall gs, pars gs -> (forall x, In x l -> x < length gs) ->
  fold_left (refresh up) l (gs ++ [X]) = fold_left (refresh up) l gs ++ [X] /\
  pars (fold_left (refresh up) l gs) /\ length (fold_left (refresh up) l gs) = length gs.
Proof.
  induction l as [|i l IH]; intros gs Hp Hl; cbn; [auto|]. rewrite refresh_frame by (auto; apply Hl; left; reflexivity).
  destruct (IH (refresh up gs i)) as (A & B & C).
  - apply refresh_pars. exact Hp.
  - intros x Hx. rewrite refresh_length. apply Hl. right. exact Hx.
  - rewrite refresh_length in C. auto.
Qed.

Lemma stages_frame st : forall gs, pars gs -> sts (length gs) st ->
  run_stages ord up (gs ++ [X]) st = run_stages ord up gs st ++ [X] /\ length (run_stages ord up gs st) = length gs.
Proof.
  unfold run_stages. induction st as [|l st IH]; intros gs Hp Hs; cbn; [auto|].
  destruct (stage_frame (ord l) gs Hp) as (A & B & C).
  { intros x Hx. apply (Hs l x (or_introl eq_refl)). apply Hord. exact Hx. }
  rewrite A. destruct (IH _ B) as (D & E).
  { rewrite C. intros l' x Hl. apply Hs. right. exact Hl. }
  rewrite D. split; [reflexivity|]. rewrite E. exact C.
Qed.

Variable lup : nat -> group -> logger -> logger.
Hypothesis lup_group : forall y L, l_group (lup (l_group L) y L) = l_group L.

Lemma loggers_frame gs passed m : forall ls m0, (forall i L, nth_error ls i = Some L -> l_group L < length gs) ->
  let f gs := (fun (a : list logger * list (string * nat)) (e : string * nat) =>
    let '(ls, m') := a in
    match nth_error ls (snd e) with
    | Some x =>
        if l_alive x then
          match assoc passed (l_group x), nth_error gs (l_group x) with
          | Some (Some _), Some y => (set_at ls (snd e) (lup (l_group x) y x), m' ++ [e])
          | _, _ => (ls, m' ++ [e])
          end
        else (ls, m')
    | None => (ls, m')
    end) in
  fold_left (f (gs ++ [X])) m (ls, m0) = fold_left (f gs) m (ls, m0).
Proof.
  intros ls m0 Hl f. revert ls m0 Hl. induction m as [|e m IH]; intros ls m0 Hl; [reflexivity|].
  cbn [fold_left]. unfold f at 2 4. destruct (nth_error ls (snd e)) as [L|] eqn:E; [|apply IH; exact Hl].
  destruct (l_alive L); [|apply IH; exact Hl].
  rewrite (nth_ext _ _ _ (Hl _ _ E)). destruct (assoc passed (l_group L)) as [[n|]|]; try (apply IH; exact Hl).
  destruct (nth_error gs (l_group L)) as [Y|] eqn:EY; [|apply IH; exact Hl].
  apply IH. intros j M EM. apply nth_set_cases in EM. destruct EM as [(-> & ->)|(_ & EM)]; [|eauto].
  rewrite lup_group. eauto.
Qed.

Lemma spread_frame fuel ov s g : pars (groups s) -> (forall n i, In (n, i) (gmap s) -> i < length (groups s)) ->
  (forall i L, nth_error (loggers s) i = Some L -> l_group L < length (groups s)) ->
  spread ord fuel ov up lup (extend s X) g = option_map (fun s' => extend s' X) (spread ord fuel ov up lup s g).
Proof.
  intros Hp Hm Hl. unfold spread. cbn [extend with_groups groups gmap loggers lmap smap sinks configured].
  destruct (scan_frame fuel ov (groups s) g (gmap s) Hp Hm [] []) as (-> & Hs).
  destruct (scan fuel ov (groups s) g [] [] (gmap s)) as [[q st]|]; [|reflexivity].
  specialize (Hs _ _ eq_refl ltac:(intros ? ? [])). destruct (stages_frame st (groups s) Hp Hs) as (-> & HL).
  unfold spread_loggers. rewrite loggers_frame; [|intros i L E; rewrite HL; eauto].
  match goal with |- context [fold_left ?f (lmap s) (loggers s, [])] => destruct (fold_left f (lmap s) (loggers s, [])) as [ls lm] end.
  reflexivity.
Qed.
End Up.

Lemma mod_frame s g f : g < length (groups s) -> mod_group (extend s X) g f = extend (mod_group s g f) X.
Proof.
  intros H. unfold mod_group. cbn [extend with_groups groups]. rewrite (nth_ext _ _ _ H). destruct (nth_error (groups s) g); [|reflexivity].
  unfold extend, with_groups. cbn. rewrite (set_ext _ _ _ _ H). reflexivity.
Qed.
Lemma mod_len s g f : length (groups (mod_group s g f)) = length (groups s).
Proof. unfold mod_group. destruct (nth_error (groups s) g); [|reflexivity]. cbn. apply set_at_length. Qed.
Lemma mod_pars s g f : pars (groups s) -> (forall Y p, nth_error (groups s) g = Some Y -> g_parent (f Y) = Some p -> p < length (groups s)) -> pars (groups (mod_group s g f)).
Proof.
  intros Hp Hf x Y p E P. rewrite mod_len. unfold mod_group in E. destruct (nth_error (groups s) g) as [Z|] eqn:EZ; [|eauto].
  cbn in E. apply nth_set_cases in E. destruct E as [(-> & ->)|(_ & E)]; eauto.
Qed.
Lemma mod_rest s g f : gmap (mod_group s g f) = gmap s /\ loggers (mod_group s g f) = loggers s.
Proof. unfold mod_group. destruct (nth_error (groups s) g); auto. Qed.
Lemma parent_frame s g : pars (groups s) -> g < length (groups s) -> parent_of (groups (extend s X)) g = parent_of (groups s) g.
Proof.
  intros Hp H. unfold parent_of. cbn. rewrite (nth_ext _ _ _ H). destruct (nth_error (groups s) g) as [Y|] eqn:E; [|reflexivity].
  destruct (g_parent Y) as [p|] eqn:P; [|reflexivity]. apply nth_ext. eauto.
Qed.

Ltac tidy s := match goal with |- context [mod_group s ?g ?f] =>
  let A := fresh in let B := fresh in destruct (mod_rest s g f) as (A & B); rewrite ?A, ?B, ?mod_len end.

Lemma level_frame fuel s g l : Inv s -> g < length (groups s) ->
  set_level_of_group ord fuel (extend s X) g l = option_map (fun s' => extend s' X) (set_level_of_group ord fuel s g l).
Proof.
  intros I H. unfold set_level_of_group. pose proof (V_par _ I) as Hp. rewrite (parent_frame _ _ Hp H).
  destruct l as [l|]; rewrite (mod_frame _ _ _ H); (apply spread_frame;
    [intros; assumption|reflexivity || (intros y L; unfold lup_level; destruct (l_lov L); reflexivity)| | |]); tidy s; try apply I.
  - apply mod_pars; [exact Hp|]. cbn. intros Y p E P. eauto.
  - apply mod_pars; [exact Hp|]. intros Y p E P. apply (Hp g Y p E). destruct (parent_of (groups s) g); exact P.
Qed.

Lemma sink_frame fuel s g k : Inv s -> g < length (groups s) ->
  set_sink_of_group ord fuel (extend s X) g k = option_map (fun s' => extend s' X) (set_sink_of_group ord fuel s g k).
Proof.
  intros I H. unfold set_sink_of_group. pose proof (V_par _ I) as Hp. rewrite (parent_frame _ _ Hp H).
  destruct k as [k|]; rewrite (mod_frame _ _ _ H); (apply spread_frame;
    [intros; assumption|intros y L; unfold lup_sink, l_sink_from; destruct (l_sov L), (g_sink y); reflexivity| | |]); tidy s; try apply I.
  - apply mod_pars; [exact Hp|]. cbn. intros Y p E P. eauto.
  - apply mod_pars; [exact Hp|]. intros Y p E P. apply (Hp g Y p E). destruct (parent_of (groups s) g); exact P.
Qed.

Lemma set_parent_parent i y x : g_parent (g_set_parent (Some (i, y)) x) = Some i.
Proof. unfold g_set_parent, g_sink_from, g_level_from. cbn. destruct (g_sov x); cbn; destruct (g_lov x); reflexivity. Qed.

Lemma set_group_group i y x : l_group (l_set_group i y x) = i.
Proof.
  unfold l_set_group, l_sink_from, l_level_from. cbn. destruct (l_sov x), (g_sink y); cbn; destruct (l_lov x); reflexivity.
Qed.

Lemma parent_frame2 fuel s g p : Inv s -> g < length (groups s) -> (forall q, p = Some q -> q < length (groups s)) ->
  set_parent_of_group ord fuel (extend s X) g p = option_map (fun s' => extend s' X) (set_parent_of_group ord fuel s g p).
Proof.
  intros I H Hq. unfold set_parent_of_group. pose proof (V_par _ I) as Hp. destruct p as [p|].
  - specialize (Hq _ eq_refl). change (groups (extend s X)) with (groups s ++ [X]). rewrite (nth_ext _ _ _ Hq).
    destruct (lt_nth_some _ _ Hq) as (Y & EY). rewrite EY.
    assert (Hs1 : exists s1, (if oeqb (g_parent Y) (Some g) then mod_group (extend s X) p g_unset_parent else extend s X) = extend s1 X /\
      (if oeqb (g_parent Y) (Some g) then mod_group s p g_unset_parent else s) = s1 /\
      pars (groups s1) /\ length (groups s1) = length (groups s) /\ gmap s1 = gmap s /\ loggers s1 = loggers s).
    { destruct (oeqb (g_parent Y) (Some g)); [|exists s; auto 10].
      exists (mod_group s p g_unset_parent). rewrite (mod_frame _ _ _ Hq). destruct (mod_rest s p g_unset_parent) as (A & B).
      repeat split; auto using mod_len. apply mod_pars; [exact Hp|]. cbn. discriminate. }
    destruct Hs1 as (s1 & -> & -> & P1 & L1 & G1 & O1).
    change (groups (extend s1 X)) with (groups s1 ++ [X]). rewrite (nth_ext (groups s1)) by lia.
    destruct (lt_nth_some (groups s1) p ltac:(lia)) as (Z & EZ). rewrite EZ.
    rewrite mod_frame by lia. apply spread_frame.
    + intros q y x _. apply set_parent_parent.
    + intros y L. apply set_group_group.
    + apply mod_pars; [exact P1|]. intros W q _. rewrite set_parent_parent. intros [= <-]. lia.
    + destruct (mod_rest s1 g (g_set_parent (Some (p, Z)))) as (A & B). rewrite A, mod_len, L1, G1. apply I.
    + destruct (mod_rest s1 g (g_set_parent (Some (p, Z)))) as (A & B). rewrite B, mod_len, L1, O1. apply I.
  - rewrite mod_frame by exact H. apply spread_frame.
    + intros q y x _. apply set_parent_parent.
    + intros y L. apply set_group_group.
    + apply mod_pars; [exact Hp|]. cbn. discriminate.
    + tidy s. apply I.
    + tidy s. apply I.
Qed.

Lemma climbs_frame fuel gs g : pars gs -> forall cur, (forall i, cur = Some i -> i < length gs) ->
  climbs_to fuel (gs ++ [X]) g cur = climbs_to fuel gs g cur.
Proof.
  intros Hp. induction fuel as [|f IH]; intros [i|] Hc; cbn; try reflexivity. destruct (Nat.eqb i g); [reflexivity|].
  rewrite (nth_ext _ _ _ (Hc _ eq_refl)). apply IH. intros j. destruct (nth_error gs i) as [Y|] eqn:E; [|discriminate]. intros P. eauto.
Qed.

Lemma ret_frame s o : ret (extend s X) (option_map (fun s' => extend s' X) o) = (extend (fst (ret s o)) X, snd (ret s o)).
Proof. destruct o; reflexivity. Qed.

Lemma mod_logger_frame s i f : mod_logger (extend s X) i f = extend (mod_logger s i f) X.
Proof. unfold mod_logger. cbn. destruct (nth_error (loggers s) i); reflexivity. Qed.

Lemma live_frame s x : live (extend s X) x = live s x.
Proof. reflexivity. Qed.

Lemma step_frame fuel dbg s c : Inv s -> apart s c ->
  step ord fuel dbg (extend s X) c = (extend (fst (step ord fuel dbg s c)) X, snd (step ord fuel dbg s c)).
Proof.
  intros I Ha. pose proof (V_par _ I) as Hp.
  assert (Hv : forall n i, find (gmap s) n = Some i -> i < length (groups s)).
  { intros n i F. eapply (V_gmap _ I). apply find_In. eauto. }
  destruct c; cbn [step] in *; rewrite ?live_frame; change (gmap (extend s X)) with (gmap s); change (smap (extend s X)) with (smap s);
    change (groups (extend s X)) with (groups s ++ [X]); change (loggers (extend s X)) with (loggers s); change (sinks (extend s X)) with (sinks s).
  - reflexivity.
  - destruct Ha.
  - destruct (find (gmap s) g); reflexivity.
  - destruct (find (gmap s) g) as [gi|] eqn:F; [|reflexivity]. destruct (find (gmap s) p) as [pi|] eqn:F2; [|reflexivity].
    rewrite (nth_ext _ _ _ (Hv _ _ F2)). cbn zeta. rewrite climbs_frame; [|exact Hp|].
    2:{ intros i. destruct (nth_error (groups s) pi) as [Y|] eqn:E; [|discriminate]. intros P. eauto. }
    destruct (if oeqb _ _ then _ else _) as [[|]|]; [reflexivity| |reflexivity].
    rewrite parent_frame2; [|exact I|eauto|intros q [= <-]; eauto]. apply ret_frame.
  - destruct (find (gmap s) g) as [gi|] eqn:F; [|reflexivity]. rewrite parent_frame2; [|exact I|eauto|discriminate]. apply ret_frame.
  - destruct (find (smap s) k) as [ki|] eqn:F2; [|reflexivity]. destruct (find (gmap s) g) as [gi|] eqn:F; [|reflexivity].
    rewrite sink_frame by eauto. apply ret_frame.
  - destruct (find (gmap s) g) as [gi|] eqn:F; [|reflexivity]. rewrite sink_frame by eauto. apply ret_frame.
  - destruct (find (gmap s) g) as [gi|] eqn:F; [|reflexivity]. rewrite level_frame by eauto. apply ret_frame.
  - destruct (find (gmap s) g) as [gi|] eqn:F; [|reflexivity]. rewrite level_frame by eauto. apply ret_frame.
  - destruct (find (gmap s) g) as [gi|] eqn:F; [|reflexivity]. rewrite (nth_ext _ _ _ (Hv _ _ F)).
    destruct (live s x); [|reflexivity]. destruct (nth_error (groups s) gi); [|reflexivity]. rewrite mod_logger_frame. reflexivity.
  - destruct (find (smap s) k) as [gi|] eqn:F; [|reflexivity]. destruct (live s x); [|reflexivity]. rewrite mod_logger_frame. reflexivity.
  - destruct (live s x) as [i|]; [|reflexivity]. destruct (nth_error (loggers s) i) as [L|] eqn:E; [|reflexivity].
    rewrite (nth_ext _ _ _ (V_lgrp _ I _ _ E)). destruct (nth_error (groups s) (l_group L)); [|reflexivity]. rewrite mod_logger_frame. reflexivity.
  - destruct (live s x); [|reflexivity]. rewrite mod_logger_frame. reflexivity.
  - destruct (live s x) as [i|]; [|reflexivity]. destruct (nth_error (loggers s) i) as [L|] eqn:E; [|reflexivity].
    rewrite (nth_ext _ _ _ (V_lgrp _ I _ _ E)). destruct (nth_error (groups s) (l_group L)); [|reflexivity]. rewrite mod_logger_frame. reflexivity.
  - unfold get_logger. rewrite live_frame. change (gmap (extend s X)) with (gmap s); change (smap (extend s X)) with (smap s);
    change (groups (extend s X)) with (groups s ++ [X]); change (loggers (extend s X)) with (loggers s); change (configured (extend s X)) with (configured s).
    destruct (configured s); [|reflexivity]. cbn [negb]. destruct (live s x); [reflexivity|].
    destruct (String.eqb g "*").
    + destruct dbg; [reflexivity|]. destruct (find (gmap s) "*") as [i|] eqn:F; [|reflexivity].
      rewrite (nth_ext _ _ _ (Hv _ _ F)). destruct (nth_error (groups s) i) as [y|]; [|reflexivity]. destruct (true && negb (can_warn y)); reflexivity.
    + destruct (find (gmap s) g) as [i|] eqn:F.
      * rewrite (nth_ext _ _ _ (Hv _ _ F)). destruct (nth_error (groups s) i) as [y|]; [|reflexivity]. destruct (false && negb (can_warn y)); reflexivity.
      * clear F. destruct (find (gmap s) "*") as [i|] eqn:F; [|reflexivity].
        rewrite (nth_ext _ _ _ (Hv _ _ F)). destruct (nth_error (groups s) i) as [y|]; [|reflexivity]. destruct (true && negb (can_warn y)); reflexivity.
  - rewrite mod_logger_frame. reflexivity.
  - destruct (nth_error (loggers s) i) as [L|] eqn:E; [|reflexivity].
    rewrite (nth_ext _ _ _ (V_lgrp _ I _ _ E)). destruct (nth_error (groups s) (l_group L)); [|reflexivity]. rewrite mod_logger_frame. reflexivity.
  - rewrite (nth_ext _ _ _ Ha). destruct (nth_error (groups s) g); [|reflexivity]. rewrite mod_logger_frame. reflexivity.
  - destruct (Nat.ltb k (length (sinks s))); [|reflexivity]. rewrite mod_logger_frame. reflexivity.
  - destruct (nth_error (loggers s) i) as [L|] eqn:E; [|reflexivity].
    rewrite (nth_ext _ _ _ (V_lgrp _ I _ _ E)). destruct (nth_error (groups s) (l_group L)); [|reflexivity]. rewrite mod_logger_frame. reflexivity.
  - rewrite (nth_ext _ _ _ Ha). destruct (nth_error (groups s) g); [|reflexivity]. rewrite mod_logger_frame. reflexivity.
  - rewrite (nth_ext _ _ _ Ha). destruct (nth_error (groups s) g); [|reflexivity]. rewrite mod_logger_frame. reflexivity.
  - rewrite mod_logger_frame. reflexivity.
  - reflexivity.
  - reflexivity.
Qed.
End Frame.

(** Only makeGroup makes groups; only makeSink changes the names of sinks. *)
Section Counts.
Variable ord : list nat -> list nat.

Lemma stages_length up st : forall gs, length (run_stages ord up gs st) = length gs.
Proof.
  unfold run_stages. induction st as [|l st IH]; intros gs; cbn; [reflexivity|]. rewrite IH.
  generalize (ord l). clear. intros l. revert gs. induction l as [|i l IH]; intros gs; cbn; [reflexivity|]. rewrite IH. apply refresh_length.
Qed.

Lemma spread_counts fuel ov up lup s g s' : spread ord fuel ov up lup s g = Some s' -> length (groups s') = length (groups s) /\ smap s' = smap s.
Proof.
  unfold spread. destruct (scan fuel ov (groups s) g [] [] (gmap s)) as [[q st]|]; [|discriminate].
  destruct (spread_loggers lup _ q (loggers s) (lmap s)) as [ls lm]. intros [= <-]. cbn. split; [apply stages_length|reflexivity].
Qed.
Lemma mod_counts s g f : length (groups (mod_group s g f)) = length (groups s) /\ smap (mod_group s g f) = smap s.
Proof. split; [apply mod_len|]. unfold mod_group. destruct (nth_error (groups s) g); reflexivity. Qed.
Lemma mod_logger_counts s g f : groups (mod_logger s g f) = groups s /\ smap (mod_logger s g f) = smap s.
Proof. unfold mod_logger. destruct (nth_error (loggers s) g); auto. Qed.

Lemma level_counts fuel s g l s' : set_level_of_group ord fuel s g l = Some s' -> length (groups s') = length (groups s) /\ smap s' = smap s.
Proof.
  unfold set_level_of_group. intros H. apply spread_counts in H. destruct H as (-> & ->). destruct l; apply mod_counts.
Qed.
Lemma sink_counts fuel s g l s' : set_sink_of_group ord fuel s g l = Some s' -> length (groups s') = length (groups s) /\ smap s' = smap s.
Proof.
  unfold set_sink_of_group. intros H. apply spread_counts in H. destruct H as (-> & ->). destruct l; apply mod_counts.
Qed.
Lemma parent_counts fuel s g p s' : set_parent_of_group ord fuel s g p = Some s' -> length (groups s') = length (groups s) /\ smap s' = smap s.
Proof.
  unfold set_parent_of_group. intros H. apply spread_counts in H. destruct H as (-> & ->).
  match goal with |- context [mod_group ?s1 g ?f] => destruct (mod_counts s1 g f) as (-> & ->) end.
  destruct p as [p|]; [|auto]. destruct (nth_error (groups s) p); [|auto]. destruct (oeqb _ _); [apply mod_counts|auto].
Qed.

Lemma step_counts fuel dbg s c : apart s c ->
  length (groups (fst (step ord fuel dbg s c))) = length (groups s) /\
  (match c with MakeSink _ => True | _ => smap (fst (step ord fuel dbg s c)) = smap s end).
Proof.
  intros Ha. destruct c; cbn [step].
  - split; [reflexivity|exact I].
  - destruct Ha.
  - destruct (find (gmap s) g); auto.
  - destruct (find (gmap s) g); auto. destruct (find (gmap s) p); auto. cbn zeta. destruct (if oeqb _ _ then _ else _) as [[|]|]; auto.
    destruct (set_parent_of_group _ _ _ _ _) eqn:H; auto. apply parent_counts in H. exact H.
  - destruct (find (gmap s) g); auto. destruct (set_parent_of_group _ _ _ _ _) eqn:H; auto. apply parent_counts in H. exact H.
  - destruct (find (smap s) k); auto. destruct (find (gmap s) g); auto. destruct (set_sink_of_group _ _ _ _ _) eqn:H; auto. apply sink_counts in H. exact H.
  - destruct (find (gmap s) g); auto. destruct (set_sink_of_group _ _ _ _ _) eqn:H; auto. apply sink_counts in H. exact H.
  - destruct (find (gmap s) g); auto. destruct (set_level_of_group _ _ _ _ _) eqn:H; auto. apply level_counts in H. exact H.
  - destruct (find (gmap s) g); auto. destruct (set_level_of_group _ _ _ _ _) eqn:H; auto. apply level_counts in H. exact H.
  - destruct (find (gmap s) g) as [i|]; auto. destruct (live s x); [|auto]. destruct (nth_error (groups s) i); [|auto]. cbn. destruct (mod_logger_counts s n (l_set_group i g0)) as (-> & ->). auto.
  - destruct (find (smap s) k) as [i|]; auto. destruct (live s x); [|auto]. cbn. destruct (mod_logger_counts s n (l_set_sink i)) as (-> & ->). auto.
  - destruct (live s x) as [i|]; [|auto]. destruct (nth_error (loggers s) i) as [L|]; [|auto]. destruct (nth_error (groups s) _) as [y|]; [|auto]. cbn.
    destruct (mod_logger_counts s i (l_sink_from (l_group L) y)) as (-> & ->). auto.
  - destruct (live s x) as [i|]; [|auto]. cbn. destruct (mod_logger_counts s i (l_set_level lv)) as (-> & ->). auto.
  - destruct (live s x) as [i|]; [|auto]. destruct (nth_error (loggers s) i) as [L|]; [|auto]. destruct (nth_error (groups s) _) as [y|]; [|auto]. cbn.
    destruct (mod_logger_counts s i (l_level_from (l_group L) y)) as (-> & ->). auto.
  - unfold get_logger. destruct (configured s); [|auto]. cbn [negb]. destruct (live s x); [auto|]. destruct (String.eqb g "*").
    + destruct dbg; auto. destruct (find (gmap s) "*"); auto. destruct (nth_error _ _); auto. destruct (_ && _); auto.
    + destruct (find (gmap s) g); [destruct (nth_error _ _); auto; destruct (_ && _); auto|].
      destruct (find (gmap s) "*"); auto. destruct (nth_error _ _); auto. destruct (_ && _); auto.
  - cbn. destruct (mod_logger_counts s i (l_set_level lv)) as (-> & ->). auto.
  - destruct (nth_error (loggers s) i) as [L|]; [|auto]. destruct (nth_error (groups s) _) as [y|]; [|auto]. cbn.
    destruct (mod_logger_counts s i (l_level_from (l_group L) y)) as (-> & ->). auto.
  - destruct (nth_error (groups s) g) as [y|]; [|auto]. cbn. destruct (mod_logger_counts s i (l_level_from g y)) as (-> & ->). auto.
  - destruct (Nat.ltb _ _); [|auto]. cbn. destruct (mod_logger_counts s i (l_set_sink k)) as (-> & ->). auto.
  - destruct (nth_error (loggers s) i) as [L|]; [|auto]. destruct (nth_error (groups s) _) as [y|]; [|auto]. cbn.
    destruct (mod_logger_counts s i (l_reset_sink y)) as (-> & ->). auto.
  - destruct (nth_error (groups s) g) as [y|]; [|auto]. cbn. destruct (mod_logger_counts s i (l_sink_from g y)) as (-> & ->). auto.
  - destruct (nth_error (groups s) g) as [y|]; [|auto]. cbn. destruct (mod_logger_counts s i (l_set_group g y)) as (-> & ->). auto.
  - cbn. match goal with |- context [mod_logger s i ?f] => destruct (mod_logger_counts s i f) as (-> & ->) end. auto.
  - auto.
  - auto.
Qed.
End Counts.

(** ** C54 *)
Lemma construct_object s n p k lv s1 i : construct s n p k lv = Some (s1, i) ->
  exists X, object s n p k lv = Some X /\ s1 = extend s X /\ i = length (groups s).
Proof.
  unfold object. intros H. rewrite H. unfold construct in H. cbn zeta in H. destruct (g_construct n _ _ lv) as [X|]; [|discriminate].
  injection H as <- <-. exists X. cbn. rewrite nth_error_app2, Nat.sub_diag by lia. auto.
Qed.
Lemma object_construct s n p k lv X : object s n p k lv = Some X -> construct s n p k lv = Some (extend s X, length (groups s)).
Proof.
  unfold object. destruct (construct s n p k lv) as [[s1 i]|] eqn:H; [|discriminate]. intros E.
  destruct (construct_object _ _ _ _ _ _ _ H) as (Y & HY & -> & ->). unfold object in HY. rewrite H in HY. congruence.
Qed.

Section Atomic.
Variable ord : list nat -> list nat.
Hypothesis Hord : rearranges ord.
Variable dbg : bool.

Lemma as_if_after fuel s n p k lv c : reachable ord dbg usual s -> apart s c ->
  object s n p k lv <> None ->
  object (fst (step ord fuel dbg s c)) n p k lv = object s n p k lv ->
  exists s2 i, interleaved ord fuel dbg s n p k lv c = Some (s2, i, snd (step ord fuel dbg s c)) /\
    step ord fuel dbg (fst (step ord fuel dbg s c)) (MakeGroup n p k lv) = (s2, RGroup i).
Proof.
  intros H Ha Hn Ho. pose proof (usual_inv ord Hord dbg _ H) as I. destruct (object s n p k lv) as [X|] eqn:E; [|contradiction].
  unfold interleaved. rewrite (object_construct _ _ _ _ _ _ E).
  rewrite (step_frame ord (rearranges_in _ Hord) X fuel dbg s c I Ha).
  destruct (step_counts ord fuel dbg s c Ha) as (HL & _). set (s' := fst (step ord fuel dbg s c)) in *.
  exists (register (extend s' X) (length (groups s)) n), (length (groups s)). split; [reflexivity|].
  cbn [step]. rewrite (object_construct _ _ _ _ _ _ Ho), HL. reflexivity.
Qed.

Lemma root_object s s' n k lv : smap s' = smap s -> object s' n None k lv = object s n None k lv.
Proof.
  intros H. unfold object, construct. rewrite H. cbn zeta. destruct (g_construct _ _ _ _) as [X|]; [|reflexivity].
  cbn. rewrite !nth_error_app2, !Nat.sub_diag by lia. reflexivity.
Qed.

(** A root: always as if one after the other. *)
Lemma root_atomic fuel s n k lv c : reachable ord dbg usual s -> apart s c ->
  forall s2 i o, interleaved ord fuel dbg s n None k lv c = Some (s2, i, o) ->
    (step ord fuel dbg s c = (fst (step ord fuel dbg s c), o) /\
     step ord fuel dbg (fst (step ord fuel dbg s c)) (MakeGroup n None k lv) = (s2, RGroup i)) \/
    (let s1 := fst (step ord fuel dbg s (MakeGroup n None k lv)) in
     step ord fuel dbg s (MakeGroup n None k lv) = (s1, RGroup i) /\ step ord fuel dbg s1 c = (s2, o)).
Proof.
  intros H Ha s2 i o Hi.
  assert (Hn : object s n None k lv <> None).
  { unfold interleaved in Hi. destruct (construct s n None k lv) as [[s1 j]|] eqn:C; [|discriminate].
    destruct (construct_object _ _ _ _ _ _ _ C) as (X & -> & _). discriminate. }
  assert (D : (exists m, c = MakeSink m) \/ smap (fst (step ord fuel dbg s c)) = smap s).
  { pose proof (step_counts ord fuel dbg s c Ha) as (_ & Hc). destruct c; eauto. }
  destruct D as [(m & ->)|Hs].
  - right. unfold interleaved in Hi. cbn [step fst]. destruct (construct s n None k lv) as [[s1 j]|] eqn:C; [|discriminate].
    cbn [step] in Hi. injection Hi as <- <- <-. cbn. split; [reflexivity|]. unfold register. cbn.
    destruct (construct_object _ _ _ _ _ _ _ C) as (X & _ & -> & ->). cbn. destruct (find (gmap s) "*"); reflexivity.
  - left. destruct (as_if_after fuel s n None k lv c H Ha Hn (root_object _ _ _ _ _ Hs)) as (s3 & j & A & B).
    rewrite Hi in A. injection A as <- <- ->. split; [destruct (step ord fuel dbg s c); reflexivity|exact B].
Qed.
End Atomic.
