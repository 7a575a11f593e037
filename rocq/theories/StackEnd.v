(** * Proofs for C122: no state of the whole stack is a dead end *)
From Coq Require Import Ascii String NArith List Arith Bool Lia.
From Verif Require Import Base LevelModel SysModel SysSpec YamlModel DeployModel DeploySpec StackModel StackProofs.
From Verif Require CircSpec TreeModel EventModel RecordModel SinkModel SinkSpec FullModel FullProofs FullEnd PoolModel PoolSpec PoolProofs PoolFair PoolEnd.
Import ListNotations.

Section SPool.
Context {E : Type}.
Variable K : nat.
Variable cf : nat -> SinkModel.cfg E.
Variable op : nat -> bool.
Variable n : nat.
Notation pstep := (PoolModel.pstep K cf n).
Notation pexec := (PoolModel.pexec K cf n).
Notation spstep := (spstep K cf n).
Notation like := (like cf).

Notation spexec := (spexec K cf n).
Lemma spexec_app a : forall s b s1 l1 s2 l2, spexec s a = Some (s1, l1) -> spexec s1 b = Some (s2, l2) -> spexec s (a ++ b) = Some (s2, l1 ++ l2).
Proof.
  induction a as [|m a IH]; intros s b s1 l1 s2 l2 H1 H2; cbn [List.app spexec] in *.
  - injection H1 as <- <-. exact H2.
  - destruct (spstep s m) as [[s3 l3]|]; [|discriminate]. destruct (spexec s3 a) as [[s4 l4]|] eqn:H3; [|discriminate].
    injection H1 as -> <-. rewrite (IH _ _ _ _ _ _ H3 H2), app_assoc. reflexivity.
Qed.
Lemma pexec_one p m : pexec p [m] = pstep p m.
Proof. cbn [PoolModel.pexec]. destruct (pstep p m) as [s l]. now rewrite app_nil_r. Qed.

Definition quiet (s : spool E) : Prop := forall id, id < K -> FullEnd.all_out (sleaf s id).
Definition mild (m : PoolModel.pmove E) : Prop := PoolSpec.goes_on m /\ PoolSpec.weak m = false.

Lemma go_begins m : FullEnd.is_go m -> @PoolModel.begins E m = false.
Proof. intros [t ->]. reflexivity. Qed.

(** The steps in one leaf sink. *)
Lemma lift_full id ms : id < K -> Forall (fun m => PoolModel.begins m = false) ms -> forall s x ls,
  FullModel.fexec (cf id) (sleaf s id) ms = Some (x, ls) ->
  exists s', spexec s (map (PoolModel.XLeaf id) ms) = Some (s', map (PoolModel.PLeaf id) ls) /\ sleaf s' id = x /\
    (forall i, i <> id -> sleaf s' i = sleaf s i) /\ forall t, stodo s' t = stodo s t.
Proof.
  intros Hid HB. induction HB as [|m ms B HB IH]; intros s x ls H; cbn [FullModel.fexec map spexec] in *.
  - injection H as <- <-. exists s. auto.
  - destruct (FullModel.fstep (cf id) (sleaf s id) m) as [[y l1]|] eqn:F; [|discriminate].
    destruct (FullModel.fexec (cf id) y ms) as [[z l2]|] eqn:G; [|discriminate]. injection H as <- <-.
    cbn [StackModel.spstep]. apply Nat.ltb_lt in Hid as Hb. rewrite Hb, B. cbn [negb andb]. unfold sin_leaf. rewrite F.
    destruct (IH (set_sleaf s id y) z l2) as (s' & S & A1 & A2 & A3).
    { cbn [set_sleaf sleaf]. rewrite Nat.eqb_refl. exact G. }
    exists s'. rewrite S, map_app. split; [reflexivity|]. split; [exact A1|]. split.
    + intros i N. rewrite (A2 i N). cbn [set_sleaf sleaf]. apply Nat.eqb_neq in N. now rewrite N.
    + intros t. rewrite A3. reflexivity.
Qed.
Lemma lift_pool id ms : id < K -> Forall (fun m => PoolModel.begins m = false) ms -> forall p a ls,
  SinkModel.exec (cf id) (PoolModel.leaf p id) ms = (a, ls) ->
  exists p', pexec p (map (PoolModel.XLeaf id) ms) = (p', map (PoolModel.PLeaf id) ls) /\ PoolModel.leaf p' id = a /\
    (forall i, i <> id -> PoolModel.leaf p' i = PoolModel.leaf p i) /\ forall t, PoolModel.todo p' t = PoolModel.todo p t.
Proof.
  intros Hid HB. induction HB as [|m ms B HB IH]; intros p a ls H; cbn [SinkModel.exec map PoolModel.pexec] in *.
  - injection H as <- <-. exists p. auto.
  - destruct (SinkModel.step (cf id) (PoolModel.leaf p id) m) as [y l1] eqn:F.
    destruct (SinkModel.exec (cf id) y ms) as [z l2] eqn:G. injection H as <- <-.
    cbn [PoolModel.pstep]. apply Nat.ltb_lt in Hid as Hb. rewrite Hb, B. cbn [negb andb]. unfold PoolModel.in_leaf. rewrite F.
    destruct (IH (PoolModel.set_leaf p id y) z l2) as (p' & S & A1 & A2 & A3).
    { cbn [PoolModel.set_leaf PoolModel.leaf]. rewrite Nat.eqb_refl. exact G. }
    exists p'. rewrite S, map_app. split; [reflexivity|]. split; [exact A1|]. split.
    + intros i N. rewrite (A2 i N). cbn [PoolModel.set_leaf PoolModel.leaf]. apply Nat.eqb_neq in N. now rewrite N.
    + intros t. rewrite A3. reflexivity.
Qed.
Lemma like_lifted s p id s' p' g : like s p -> (forall i, i <> id -> sleaf s' i = sleaf s i) -> (forall t, stodo s' t = stodo s t) ->
  (forall i, i <> id -> PoolModel.leaf p' i = PoolModel.leaf p i) -> (forall t, PoolModel.todo p' t = PoolModel.todo p t) ->
  FullProofs.rel (cf id) (sleaf s' id) (PoolModel.leaf p' id) g -> like s' p'.
Proof.
  intros L A B C D R. constructor.
  - intros i. destruct (Nat.eq_dec i id) as [->|N]; [eauto|]. rewrite (A i N), (C i N). exact (l_leaf _ _ _ L i).
  - intros t. rewrite B, D. exact (l_todo _ _ _ L t).
Qed.
Lemma go_mild id ms : Forall FullEnd.is_go ms -> Forall mild (map (PoolModel.XLeaf id) ms).
Proof. intros H. apply Forall_map. eapply Forall_impl; [|exact H]. intros m [t ->]. split; [exact I|reflexivity]. Qed.

Lemma pool_quieten_to j : j <= K -> forall s p, like s p ->
  exists ms s' ls ms' p', Forall mild ms /\ spexec s ms = Some (s', ls) /\ Forall mild ms' /\ pexec p ms' = (p', ls) /\ like s' p' /\
    forall id, id < j -> FullEnd.all_out (sleaf s' id).
Proof.
  induction j as [|j IH]; intros Hj s p L.
  - exists [], s, [], [], p. split; [constructor|]. split; [reflexivity|]. split; [constructor|]. split; [reflexivity|]. split; [exact L|]. intros id Hi. lia.
  - destruct (IH ltac:(lia) s p L) as (ms & s1 & l1 & ms1 & p1 & G1 & X1 & G1' & Y1 & L1 & Q1).
    destruct (l_leaf _ _ _ L1 j) as [g R].
    destruct (FullEnd.quieten R (le_n _)) as (m2 & x & l2 & a & g' & m2' & H1 & H2 & H3 & H4 & H5 & H6).
    assert (B1 : forall l, Forall FullEnd.is_go l -> Forall (fun m => @PoolModel.begins E m = false) l) by (intros l; apply Forall_impl; exact go_begins).
    destruct (lift_full j m2 ltac:(lia) (B1 _ H1) s1 x l2 H2) as (s2 & S2 & A1 & A2 & A3).
    destruct (lift_pool j m2' ltac:(lia) (B1 _ H3) p1 a l2 H4) as (p2 & P2 & C1 & C2 & C3).
    exists (ms ++ map (PoolModel.XLeaf j) m2), s2, (l1 ++ map (PoolModel.PLeaf j) l2), (ms1 ++ map (PoolModel.XLeaf j) m2'), p2.
    split; [apply Forall_app; split; [exact G1|now apply go_mild]|]. split; [exact (spexec_app _ _ _ _ _ _ _ X1 S2)|].
    split; [apply Forall_app; split; [exact G1'|now apply go_mild]|]. split; [rewrite PoolProofs.pexec_app, Y1, P2; reflexivity|].
    split.
    + apply (like_lifted s1 p1 j s2 p2 g' L1); auto. rewrite A1, C1. exact H5.
    + intros id Hi. destruct (Nat.eq_dec id j) as [->|N]; [rewrite A1; exact H6|]. rewrite (A2 id N). apply Q1. lia.
Qed.
Lemma pool_quieten s p : like s p ->
  exists ms s' ls ms' p', Forall mild ms /\ spexec s ms = Some (s', ls) /\ Forall mild ms' /\ pexec p ms' = (p', ls) /\ like s' p' /\ quiet s'.
Proof. exact (pool_quieten_to K (le_n _) s p). Qed.

(** Any move of the other model, from a quiet state to a quiet state. *)
Definition permits (m m' : PoolModel.pmove E) : Prop := m' = m \/ PoolSpec.goes_on m'.
Lemma pool_move s p m : like s p -> quiet s ->
  exists ms s' ls more p', Forall (permits m) ms /\ spexec s ms = Some (s', ls) /\ Forall mild more /\ pexec p (m :: more) = (p', ls) /\ like s' p' /\ quiet s'.
Proof.
  intros L Q.
  assert (Other : inner m = false -> exists ms s' ls more p', Forall (permits m) ms /\ spexec s ms = Some (s', ls) /\ Forall mild more /\ pexec p (m :: more) = (p', ls) /\ like s' p' /\ quiet s').
  { intros I. destruct (like_step K cf n s p m L) as (s1 & l1 & X1 & [(p1 & P1 & L1)|(_ & _ & Z)]); [|congruence].
    destruct (pool_quieten s1 p1 L1) as (ms & s' & ls & more & p' & G1 & X & G2 & Y & L' & Q').
    exists (m :: ms), s', (l1 ++ ls), more, p'. split; [constructor; [now left|]; eapply Forall_impl; [|exact G1]; intros y [Hy _]; now right|].
    split; [cbn [spexec]; rewrite X1, X; reflexivity|]. split; [exact G2|]. split; [cbn [PoolModel.pexec]; rewrite P1, Y; reflexivity|]. auto. }
  destruct m as [t o|t|id m|id t]; try (apply Other; reflexivity).
  destruct (Nat.ltb id K && negb (PoolModel.begins m)) eqn:B.
  - apply andb_prop in B as [Hid Hb]. apply Nat.ltb_lt in Hid. apply negb_true_iff in Hb.
    destruct (l_leaf _ _ _ L id) as [g R].
    destruct (FullEnd.move_matched (cf id) _ _ g m R (Q id Hid)) as (ms & x & ls & a & g' & more & H1 & H2 & H3 & H4 & H5 & H6).
    assert (B1 : Forall (fun m => @PoolModel.begins E m = false) ms).
    { eapply Forall_impl; [|exact H1]. intros y [->|Hy]; [exact Hb|exact (go_begins y Hy)]. }
    assert (B2 : Forall (fun m => @PoolModel.begins E m = false) (m :: more)).
    { constructor; [exact Hb|]. eapply Forall_impl; [|exact H3]. exact go_begins. }
    destruct (lift_full id ms Hid B1 s x ls H2) as (s2 & S2 & A1 & A2 & A3).
    destruct (lift_pool id (m :: more) Hid B2 p a ls H4) as (p2 & P2 & C1 & C2 & C3).
    exists (map (PoolModel.XLeaf id) ms), s2, (map (PoolModel.PLeaf id) ls), (map (PoolModel.XLeaf id) more), p2.
    split; [apply Forall_map; eapply Forall_impl; [|exact H1]; intros y _; right; exact I|]. split; [exact S2|]. split; [now apply go_mild|].
    split; [exact P2|]. split; [apply (like_lifted s p id s2 p2 g' L); auto; rewrite A1, C1; exact H5|].
    intros i Hi. destruct (Nat.eq_dec i id) as [->|N]; [rewrite A1; exact H6|]. rewrite (A2 i N). exact (Q i Hi).
  - exists [], s, [], [], p. split; [constructor|]. split; [reflexivity|]. split; [constructor|]. split; [|auto].
    cbn [PoolModel.pexec PoolModel.pstep]. rewrite B. reflexivity.
Qed.

Hypothesis cap_pos : forall id, id < K -> 1 <= SinkModel.c_cap (cf id).
Hypothesis sz : forall id, id < K -> SinkSpec.sizes_ok (cf id).
Hypothesis dest : forall id, id < K -> SinkSpec.has_dest (cf id) (op id).
Notation PInv := (PoolProofs.PInv K cf op n).
Notation ME := (PoolEnd.ME K cf n).

Lemma mild_ME ms s tr : PInv s tr -> Forall mild ms -> ME (fst (pexec s ms)) <= ME s.
Proof.
  intros V H. pose proof (PoolEnd.exec_ME K cf op n cap_pos sz dest ms s tr V) as Z.
  assert (W : PoolEnd.weaks ms = 0).
  { unfold PoolEnd.weaks. clear Z. induction H as [|m ms [_ M] H IH]; [reflexivity|]. cbn [filter]. rewrite M. exact IH. }
  rewrite W, Nat.mul_0_r, Nat.add_0_r in Z. apply Z. eapply Forall_impl; [|exact H]. intros m [M _]. exact M.
Qed.
Lemma mild_on ms : Forall mild ms -> Forall (@PoolSpec.goes_on E) ms.
Proof. apply Forall_impl. intros m [M _]. exact M. Qed.

Lemma calls_end N : forall s p tr, like s p -> quiet s -> PInv p tr -> ME p <= N ->
  exists ms s' ls ms' p', Forall (@PoolSpec.goes_on E) ms /\ spexec s ms = Some (s', ls) /\ Forall (@PoolSpec.goes_on E) ms' /\ pexec p ms' = (p', ls) /\ like s' p' /\ quiet s' /\
    PoolFair.all_rest K n p'.
Proof.
  induction N as [|N IH]; intros s p tr L Q V HN; (destruct (PoolEnd.why_or_rest K cf op n cap_pos sz dest p tr V) as [R|(a & Ha)];
    [exists [], s, [], [], p; split; [constructor|]; split; [reflexivity|]; split; [constructor|]; split; [reflexivity|]; auto|]);
    destruct (PoolEnd.why_move K cf op n cap_pos sz dest p tr a V Ha) as (m & M1 & M2); [lia|].
  destruct (pool_move s p m L Q) as (ms & s1 & l1 & more & p1 & G1 & X1 & G2 & Y1 & L1 & Q1).
  pose proof (PoolProofs.exec_pinv K cf op n (m :: more) p tr V) as V1. rewrite Y1 in V1. cbn [fst snd] in V1.
  assert (D : ME p1 <= N).
  { pose proof (PoolProofs.step_pinv K cf op n p tr m V) as V0. cbn [PoolModel.pexec] in Y1. destruct (pstep p m) as [p0 l0]. cbn [fst snd] in *.
    pose proof (mild_ME more p0 _ V0 G2) as Z. destruct (pexec p0 more) as [p2 l2]. injection Y1 as <- _. cbn [fst] in Z. lia. }
  destruct (IH s1 p1 _ L1 Q1 V1 D) as (ms2 & s2 & l2 & ms2' & p2 & H1 & X2 & H2 & Y2 & L2 & Q2 & R2).
  exists (ms ++ ms2), s2, (l1 ++ l2), ((m :: more) ++ ms2'), p2.
  split; [apply Forall_app; split; [|exact H1]; eapply Forall_impl; [|exact G1]; intros y [->|Hy]; assumption|].
  split; [exact (spexec_app _ _ _ _ _ _ _ X1 X2)|].
  split; [apply Forall_app; split; [constructor; [exact M1|now apply mild_on]|exact H2]|].
  split; [rewrite PoolProofs.pexec_app, Y1, Y2; reflexivity|]. auto.
Qed.

Lemma goes_closing ms : Forall (@PoolSpec.goes_on E) ms -> Forall (@PoolSpec.closing E) ms.
Proof. apply Forall_impl. intros [| | |]; cbn; auto. Qed.

Lemma sinks_close : 1 <= n -> forall k s p tr, k <= K -> like s p -> quiet s -> PInv p tr ->
  exists ms s' ls ms' p', Forall (@PoolSpec.closing E) ms /\ spexec s ms = Some (s', ls) /\ Forall (@PoolSpec.closing E) ms' /\ pexec p ms' = (p', ls) /\ like s' p' /\ quiet s' /\
    PoolFair.all_rest K n p' /\ forall id, id < k -> PoolSpec.gone p' id.
Proof.
  intros Hn. induction k as [|k IH]; intros s p tr Hk L Q V.
  - destruct (calls_end (ME p) s p tr L Q V (le_n _)) as (ms & s' & ls & ms' & p' & G1 & X & G2 & Y & L' & Q' & R).
    exists ms, s', ls, ms', p'. split; [now apply goes_closing|]. split; [exact X|]. split; [now apply goes_closing|]. split; [exact Y|].
    split; [exact L'|]. split; [exact Q'|]. split; [exact R|]. intros id Hi. lia.
  - destruct (IH s p tr ltac:(lia) L Q V) as (ms & s1 & l1 & ms1 & p1 & G1 & X1 & G1' & Y1 & L1 & Q1 & R1 & D1).
    pose proof (PoolProofs.exec_pinv K cf op n ms1 p tr V) as V1. rewrite Y1 in V1. cbn [fst snd] in V1.
    destruct (SinkModel.alive (PoolModel.leaf p1 k)) eqn:Ha.
    + destruct (pool_move s1 p1 (PoolModel.XDestroy k 1) L1 Q1) as (ms2 & s2 & l2 & more & p2 & G2 & X2 & G2' & Y2 & L2 & Q2).
      pose proof (PoolProofs.step_pinv K cf op n p1 _ (PoolModel.XDestroy k 1) V1) as V0.
      pose proof (PoolEnd.destroy_begins K cf op n p1 _ k V1 ltac:(lia) Hn R1 Ha) as D.
      pose proof (PoolProofs.exec_pinv K cf op n (PoolModel.XDestroy k 1 :: more) p1 _ V1) as V2. rewrite Y2 in V2. cbn [fst snd] in V2.
      assert (D2 : SinkModel.alive (PoolModel.leaf p2 k) = false).
      { pose proof (PoolEnd.stays_down K cf op n cap_pos sz dest more (fst (pstep p1 (PoolModel.XDestroy k 1))) _ k ltac:(lia) V0 D (mild_on _ G2')) as Z.
        cbn [PoolModel.pexec] in Y2. destruct (pstep p1 (PoolModel.XDestroy k 1)) as [p0 l0]. cbn [fst] in Z. destruct (pexec p0 more) as [p3 l3]. injection Y2 as <- _. exact Z. }
      destruct (calls_end (ME p2) s2 p2 _ L2 Q2 V2 (le_n _)) as (ms3 & s3 & l3 & ms3' & p3 & G3 & X3 & G3' & Y3 & L3 & Q3 & R3).
      pose proof (PoolProofs.exec_pinv K cf op n ms3' p2 _ V2) as V3. rewrite Y3 in V3. cbn [fst snd] in V3.
      assert (EE : pexec p1 ((PoolModel.XDestroy k 1 :: more) ++ ms3') = (p3, l2 ++ l3)).
      { rewrite (PoolProofs.pexec_app K cf n p1 (PoolModel.XDestroy k 1 :: more) ms3'), Y2, Y3. reflexivity. }
      exists (ms ++ (ms2 ++ ms3)), s3, (l1 ++ (l2 ++ l3)), (ms1 ++ ((PoolModel.XDestroy k 1 :: more) ++ ms3')), p3.
      split.
      { apply Forall_app. split; [exact G1|]. apply Forall_app. split; [|now apply goes_closing]. eapply Forall_impl; [|exact G2]. intros y [->|Hy]; [exact I|]. destruct y; cbn in *; auto. }
      split; [exact (spexec_app _ _ _ _ _ _ _ X1 (spexec_app _ _ _ _ _ _ _ X2 X3))|].
      split.
      { apply Forall_app. split; [exact G1'|]. apply Forall_app. split; [|now apply goes_closing]. constructor; [exact I|]. apply goes_closing, mild_on. exact G2'. }
      split; [rewrite (PoolProofs.pexec_app K cf n p ms1 _), Y1, EE; reflexivity|]. split; [exact L3|]. split; [exact Q3|]. split; [exact R3|].
      intros id Hid. destruct (Nat.eq_dec id k) as [->|Hne].
      * apply (PoolEnd.rest_gone K cf op n _ _ k V3 ltac:(lia) R3).
        pose proof (PoolEnd.stays_down K cf op n cap_pos sz dest ms3' p2 _ k ltac:(lia) V2 D2 G3') as Z. rewrite Y3 in Z. exact Z.
      * pose proof (PoolEnd.gone_exec K cf n ((PoolModel.XDestroy k 1 :: more) ++ ms3') p1 id (D1 id ltac:(lia))) as Z.
        rewrite EE in Z. exact Z.
    + exists ms, s1, l1, ms1, p1. repeat (split; [assumption|]). intros id Hid. destruct (Nat.eq_dec id k) as [->|Hne]; [|apply D1; lia].
      exact (PoolEnd.rest_gone K cf op n p1 _ k V1 ltac:(lia) R1 Ha).
Qed.

Theorem stack_calls_end s p tr : like s p -> PInv p tr ->
  exists ms s' ls ms' p', Forall (@PoolSpec.goes_on E) ms /\ spexec s ms = Some (s', ls) /\ Forall (@PoolSpec.goes_on E) ms' /\ pexec p ms' = (p', ls) /\ like s' p' /\
    PoolFair.all_rest K n p'.
Proof.
  intros L V. destruct (pool_quieten s p L) as (ms & s1 & l1 & ms1 & p1 & G1 & X1 & G1' & Y1 & L1 & Q1).
  pose proof (PoolProofs.exec_pinv K cf op n ms1 p tr V) as V1. rewrite Y1 in V1. cbn [fst snd] in V1.
  destruct (calls_end (ME p1) s1 p1 _ L1 Q1 V1 (le_n _)) as (ms2 & s2 & l2 & ms2' & p2 & G2 & X2 & G2' & Y2 & L2 & _ & R2).
  exists (ms ++ ms2), s2, (l1 ++ l2), (ms1 ++ ms2'), p2. split; [apply Forall_app; split; [now apply mild_on|exact G2]|].
  split; [exact (spexec_app _ _ _ _ _ _ _ X1 X2)|]. split; [apply Forall_app; split; [now apply mild_on|exact G2']|].
  split; [rewrite PoolProofs.pexec_app, Y1, Y2; reflexivity|]. auto.
Qed.
Theorem stack_closes s p tr : 1 <= n -> like s p -> PInv p tr ->
  exists ms s' ls ms' p', Forall (@PoolSpec.closing E) ms /\ spexec s ms = Some (s', ls) /\ Forall (@PoolSpec.closing E) ms' /\ pexec p ms' = (p', ls) /\ like s' p' /\
    PoolFair.all_rest K n p' /\ forall id, id < K -> PoolSpec.gone p' id.
Proof.
  intros Hn L V. destruct (pool_quieten s p L) as (ms & s1 & l1 & ms1 & p1 & G1 & X1 & G1' & Y1 & L1 & Q1).
  pose proof (PoolProofs.exec_pinv K cf op n ms1 p tr V) as V1. rewrite Y1 in V1. cbn [fst snd] in V1.
  destruct (sinks_close Hn K s1 p1 _ (le_n _) L1 Q1 V1) as (ms2 & s2 & l2 & ms2' & p2 & G2 & X2 & G2' & Y2 & L2 & _ & R2 & D2).
  exists (ms ++ ms2), s2, (l1 ++ l2), (ms1 ++ ms2'), p2. split; [apply Forall_app; split; [now apply goes_closing, mild_on|exact G2]|].
  split; [exact (spexec_app _ _ _ _ _ _ _ X1 X2)|]. split; [apply Forall_app; split; [now apply goes_closing, mild_on|exact G2']|].
  split; [rewrite PoolProofs.pexec_app, Y1, Y2; reflexivity|]. auto.
Qed.
End SPool.
