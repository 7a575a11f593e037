(** * Time stamps of events (C103, C104) *)
From Coq Require Import List Arith NArith Bool Lia.
From Verif Require Import Base LevelModel SinkModel SinkSpec SinkProofs SinkLabels SinkLife SinkProps SinkProgress SinkReturn StampModel StampSpec.
Import ListNotations.

Section Stamp.
Context {E : Type}.
Variable C : cfg E.
Notation state := (state E).
Notation pc := (pc E).
Notation wstate := (wstate E).
Notation trace := (list (nat * label E)).
Variable op : bool.
Variable clients : nat.

Definition is_padd (p : pc) : bool := match p with PAdd _ _ => true | _ => false end.

(** Behind the acceptance, before the return. *)
Definition behind (p : pc) : bool :=
  match p with
  | PAdd _ _ | PRel _ _ | PDecide => true
  | FTas KReturn | FGet KReturn | FSub KReturn _ | FWrite KReturn _ | FCasFlush KReturn
  | FStream KReturn | FNtf KReturn | FCasRot KReturn | FReopen KReturn | FClear KReturn => true
  | _ => false
  end.

Definition no_accept (ls : list (label E)) : Prop := forall v f, ~ In (LAccept v f) ls.

Lemma stamp_step (s : state) t c p : nth_error (thr s) t = Some p ->
  let s' := fst (step_thread C s t c p) in let ls := snd (step_thread C s t c p) in
  exists p', thr s' = upd (thr s) t p' /\
    ((exists e, p = PPut e /\ ls = [LAccept t e] /\ p' = PAdd (length (acc s)) e /\ acc s' = acc s ++ [(t, e)]) \/
     (no_accept ls /\ acc s' = acc s /\ is_padd p' = false /\
      (forall v, In (LReturn v) ls -> v = t) /\ (is_padd p = true -> ls = []) /\
      (behind p = true -> behind p' = true \/ In (LReturn t) ls))).
Proof.
  intros Hp.
  assert (Et : thr s = upd (thr s) t p).
  { destruct (thr_split _ _ _ Hp) as (l1 & l2 & E1 & _ & E2). rewrite (E2 p). exact E1. }
  destruct p as [ |e|n e|n e| | | |k|k|k e|k oe|k|k|k|k|k|k| | | | | | | | | ]; cbn [step_thread];
  try (destruct k as [ek| | |]); cbn [after_flush ret_label];
  repeat match goal with
  | |- context [match ?x with _ => _ end] =>
      match type of x with
      | choice _ => destruct x
      | bool => destruct x eqn:?
      | list _ => destruct x eqn:?
      | option _ => destruct x
      | stage => destruct x
      | reopen => destruct x
      | sink_kind => destruct x
      | SinkModel.pc _ => destruct x
      end
  end; cbn [fst snd s_thr s_q s_acc s_flags s_out thr acc];
  (eexists; split; [first [exact Et|reflexivity]|]);
  try (left; eexists; repeat split; reflexivity);
  right; cbn [is_padd behind];
  (split; [intros v f H; cbn in H; intuition discriminate|]);
  (split; [reflexivity|]); (split; [reflexivity|]);
  (split; [intros v H; cbn in H; intuition congruence|]);
  (split; [intros H; first [discriminate H|reflexivity]|]);
  intros H; first [discriminate H|left; reflexivity|right; cbn; auto].
Qed.

(** ** Traces *)
Lemma so_far_app (a b : trace) : so_far (a ++ b) = so_far a + so_far b.
Proof. unfold so_far, accepted, accepts. rewrite map_app, flat_map_app, map_app, app_length. reflexivity. Qed.
Lemma so_far_none (w : nat) (ls : list (label E)) : no_accept ls -> so_far (map (pair w) ls) = 0.
Proof.
  unfold so_far, accepted, accepts. rewrite map_map. cbn [snd]. rewrite map_id. rewrite map_length.
  induction ls as [|l ls IH]; intros H; [reflexivity|]. cbn [flat_map]. rewrite app_length, IH.
  - destruct l; try reflexivity. exfalso. eapply H. left. reflexivity.
  - intros v f Hv. eapply H. right. exact Hv.
Qed.
Lemma grow_none (ls : list (label E)) : no_accept ls -> grow ls = [].
Proof.
  unfold grow. induction ls as [|l ls IH]; intros H; [reflexivity|]. cbn [flat_map]. rewrite IH.
  - destruct l; try reflexivity. exfalso. eapply H. left. reflexivity.
  - intros v f Hv. eapply H. right. exact Hv.
Qed.

Lemma set_nth_len {A} (l : list A) n a : length (set_nth l n a) = length l.
Proof. revert n. induction l as [|x l IH]; intros [|n]; cbn; auto. Qed.
Lemma set_nth_same {A} (l : list A) n a d : n < length l -> nth n (set_nth l n a) d = a.
Proof. revert n. induction l as [|x l IH]; intros [|n] H; cbn in *; try lia; auto. apply IH. lia. Qed.
Lemma set_nth_other {A} (l : list A) n m a d : n <> m -> nth m (set_nth l n a) d = nth m l d.
Proof. revert n m. induction l as [|x l IH]; intros [|n] [|m] H; cbn in *; try lia; auto. Qed.

(** ** Invariant *)
Record wok (w : wstate) (tr : trace) : Prop := {
  w_len : length (stamps w) = so_far tr;
  w_acc : length (acc (base w)) = so_far tr;
  w_past : forall x l, In (x, l) tr -> x <= wall w;
  w_mono : forall a x l b y k c, tr = a ++ (x, l) :: b ++ (y, k) :: c -> x <= y;
  w_building : forall t n e, nth_error (thr (base w)) t = Some (PAdd n e) -> n < so_far tr;
  w_between : forall a x t e b y f c, tr = a ++ (x, LAccept t e) :: b ++ (y, LAccept t f) :: c ->
    exists r, In (r, LReturn t) b;
  w_event : forall a x t e b, tr = a ++ (x, LAccept t e) :: b ->
    (forall v, stamp_of w (so_far a) = Some v -> x <= v <= wall w) /\
    ((exists p, nth_error (thr (base w)) t = Some p /\ behind p = true /\
        (p = PAdd (so_far a) e \/ exists v, stamp_of w (so_far a) = Some v) /\
        (forall r, ~ In (r, LReturn t) b)) \/
     (exists v, stamp_of w (so_far a) = Some v /\ (exists r, In (r, LReturn t) b) /\ forall r, In (r, LReturn t) b -> v <= r))
}.

Lemma split_app (tr a b : trace) lm : tr ++ lm = a ++ b ->
  (exists b0, tr = a ++ b0 /\ b = b0 ++ lm) \/ (exists a0, a0 <> [] /\ a = tr ++ a0 /\ lm = a0 ++ b).
Proof.
  revert a. induction tr as [|y tr IH]; intros a H.
  - cbn in H. destruct a as [|z a]; [left; exists []; auto|]. right. exists (z :: a). split; [discriminate|]. auto.
  - destruct a as [|z a]; cbn in H.
    + left. exists (y :: tr). auto.
    + injection H as -> H. destruct (IH a H) as [(b0 & -> & ->)|(a0 & N & -> & ->)]; [left; exists b0; auto|right; exists a0; auto].
Qed.

Lemma stamp_app (w : wstate) (l : list (option nat)) n v : stamp_of w n = Some v -> nth n (stamps w ++ l) None = Some v.
Proof.
  unfold stamp_of. intros H. destruct (Nat.lt_ge_cases n (length (stamps w))) as [L|L].
  - rewrite app_nth1 by exact L. exact H.
  - rewrite nth_overflow in H by exact L. discriminate.
Qed.

(** Labels of one moment. *)
Lemma mono_snoc (tr : trace) w (ls : list (label E)) :
  (forall x l, In (x, l) tr -> x <= w) ->
  (forall a x l b y k c, tr = a ++ (x, l) :: b ++ (y, k) :: c -> x <= y) ->
  forall a x l b y k c, tr ++ map (pair w) ls = a ++ (x, l) :: b ++ (y, k) :: c -> x <= y.
Proof.
  intros P M a x l b y k c H.
  assert (In0 : forall (u : nat) (v : label E), In (u, v) (map (pair w) ls) -> u = w).
  { intros u v Hv. apply in_map_iff in Hv. destruct Hv as (z & Hz & _). congruence. }
  assert (Ly : forall u v, In (u, v) (tr ++ map (pair w) ls) -> u <= w).
  { intros u v Hu. apply in_app_iff in Hu. destruct Hu as [Hu|Hu]; [eapply P; exact Hu|apply In0 in Hu; lia]. }
  destruct (split_app tr (a ++ (x, l) :: b) ((y, k) :: c) (map (pair w) ls)) as [(b0 & H1 & H2)|(a0 & N & H1 & H2)].
  { rewrite H. rewrite <- app_assoc. reflexivity. }
  - destruct b0 as [|z b0].
    + cbn in H2. assert (y = w) by (eapply In0; rewrite <- H2; left; reflexivity). subst y.
      apply (Ly x l). rewrite H. apply in_app_iff. right. left. reflexivity.
    + cbn in H2. injection H2 as <- H2. eapply (M a x l b y k b0). rewrite H1, <- app_assoc. reflexivity.
  - assert (y = w) by (eapply In0; rewrite H2; apply in_app_iff; right; left; reflexivity). subst y.
    apply (Ly x l). rewrite H. apply in_app_iff. right. left. reflexivity.
Qed.

Lemma wok_step w tr m : wok w tr -> wok (fst (wstep C w m)) (tr ++ snd (wstep C w m)).
Proof.
  intros I. destruct I as [L A P M B Bt Ev].
  assert (Same : wok w (tr ++ [])) by (rewrite app_nil_r; constructor; assumption).
  destruct m as [mv|t|d]; cbn [wstep].
  - destruct (wmay w mv) eqn:May; [|exact Same]. destruct mv as [t c|k].
    2: { cbn [step fst snd]. cbn [map grow flat_map]. rewrite !app_nil_r. constructor; cbn [base wall stamps acc thr s_out]; auto. }
    cbn [step]. destruct (nth_error (thr (base w)) t) as [p|] eqn:Hp.
    2: { cbn [fst snd map grow flat_map]. rewrite !app_nil_r. constructor; cbn [base wall stamps]; auto. }
    destruct (stamp_step (base w) t c p Hp) as (p' & T1 & Hcase).
    destruct (step_thread C (base w) t c p) as [s' ls]. cbn [fst snd] in *.
    assert (Hlt : t < length (thr (base w))) by (apply nth_error_Some; congruence).
    assert (Hpt : nth_error (thr s') t = Some p') by (rewrite T1; apply nth_error_upd; exact Hlt).
    assert (Hoth : forall u, u <> t -> nth_error (thr s') u = nth_error (thr (base w)) u).
    { intros u Hu. rewrite T1. apply nth_error_upd_other. exact Hu. }
    assert (P' : forall x l, In (x, l) (tr ++ map (pair (wall w)) ls) -> x <= wall w).
    { intros x l H. apply in_app_iff in H. destruct H as [H|H]; [eapply P; exact H|].
      apply in_map_iff in H. destruct H as (z & Hz & _). injection Hz as <- _. lia. }
    pose proof (mono_snoc tr (wall w) ls P M) as M'.
    destruct Hcase as [(e & -> & -> & -> & HA)|(NA & HA & HP' & HR & HE & HB)].
    + (* accepted *)
      assert (S1 : so_far (map (pair (wall w)) [LAccept t e]) = 1) by reflexivity.
      constructor; cbn [base wall stamps].
      * rewrite app_length, so_far_app, S1, L. reflexivity.
      * rewrite HA, app_length, so_far_app, S1, A. reflexivity.
      * exact P'.
      * exact M'.
      * intros u n f Hu. rewrite so_far_app, S1. destruct (Nat.eq_dec u t) as [->|Hut].
        -- rewrite Hpt in Hu. injection Hu as <- <-. lia.
        -- rewrite Hoth in Hu by exact Hut. apply B in Hu. lia.
      * intros a x u f b y g c0 Htr. cbn [map] in Htr.
        destruct (split_app tr (a ++ (x, LAccept u f) :: b) ((y, LAccept u g) :: c0) [(wall w, LAccept t e)]) as [(b0 & H1 & H2)|(a0 & N & H1 & H2)].
        { rewrite Htr, <- app_assoc. reflexivity. }
        -- destruct b0 as [|z b0]; cbn in H2.
           ++ injection H2 as -> -> -> ->. rewrite app_nil_r in H1.
              destruct (Ev a x t f b H1) as [_ [(q & Q1 & Q2 & _)|(v & _ & Q & _)]]; [|exact Q].
              rewrite Hp in Q1. injection Q1 as <-. discriminate.
           ++ injection H2 as <- H2. eapply (Bt a x u f b y g b0). rewrite H1, <- app_assoc. reflexivity.
        -- destruct a0 as [|z [|z' a0]]; [congruence| |]; cbn in H2; discriminate.
      * intros a x u f b Htr. cbn [map] in Htr.
        destruct (split_app tr a ((x, LAccept u f) :: b) [(wall w, LAccept t e)] Htr) as [(b0 & H1 & H2)|(a0 & N & H1 & H2)].
        -- destruct b0 as [|y b0]; cbn in H2.
           ++ (* the new one *) injection H2 as -> -> -> ->. rewrite app_nil_r in H1. subst a.
              assert (St : nth (so_far tr) (stamps w ++ [None]) None = None).
              { rewrite app_nth2 by lia. rewrite L, Nat.sub_diag. reflexivity. }
              unfold stamp_of. cbn [stamps]. split.
              ** intros v Hv. change (grow [LAccept t e]) with [@None nat] in Hv. rewrite St in Hv. discriminate.
              ** left. exists (PAdd (length (acc (base w))) e). split; [exact Hpt|]. split; [reflexivity|]. split; [left; rewrite A; reflexivity|]. intros r [].
           ++ injection H2 as <- ->. destruct (Ev a x u f b0 H1) as [E1 E2].
              assert (La : so_far a < length (stamps w)).
              { rewrite L, H1, so_far_app. replace (so_far ((x, LAccept u f) :: b0)) with (S (so_far b0)) by reflexivity. lia. }
              assert (St : stamp_of (mkW s' (wall w) (stamps w ++ grow [LAccept t e])) (so_far a) = stamp_of w (so_far a)).
              { unfold stamp_of. cbn [stamps]. apply app_nth1. exact La. }
              rewrite St. split; [exact E1|]. destruct E2 as [(p & Q1 & Q2 & Q3 & Q4)|(v & Q1 & Q2 & Q3)].
              ** left. assert (Hut : u <> t) by (intros ->; rewrite Hp in Q1; injection Q1 as <-; discriminate).
                 exists p. rewrite Hoth by exact Hut. split; [exact Q1|]. split; [exact Q2|]. split; [exact Q3|].
                 intros r Hr. apply in_app_iff in Hr. destruct Hr as [Hr|[Hr|[]]]; [eapply Q4; exact Hr|discriminate].
              ** right. exists v. split; [exact Q1|]. split; [destruct Q2 as (r & Hr); exists r; apply in_app_iff; auto|].
                 intros r Hr. apply in_app_iff in Hr. destruct Hr as [Hr|[Hr|[]]]; [apply Q3; exact Hr|discriminate].
        -- destruct a0 as [|y [|z a0]]; [congruence| |]; cbn in H2; discriminate.
    + assert (S0 : so_far (map (pair (wall w)) ls) = 0) by (apply so_far_none; exact NA).
      rewrite (grow_none ls NA). rewrite app_nil_r.
      constructor; cbn [base wall stamps].
      * rewrite so_far_app, S0, L. lia.
      * rewrite HA, so_far_app, S0, A. lia.
      * exact P'.
      * exact M'.
      * intros u n f Hu. rewrite so_far_app, S0. destruct (Nat.eq_dec u t) as [->|Hut].
        -- rewrite Hpt in Hu. injection Hu as ->. discriminate.
        -- rewrite Hoth in Hu by exact Hut. apply B in Hu. lia.
      * intros a x u f b y g c0 Htr.
        destruct (split_app tr (a ++ (x, LAccept u f) :: b) ((y, LAccept u g) :: c0) (map (pair (wall w)) ls)) as [(b0 & H1 & H2)|(a0 & N & H1 & H2)].
        { rewrite Htr, <- app_assoc. reflexivity. }
        -- destruct b0 as [|z b0]; cbn in H2.
           ++ exfalso. assert (Hin : In (y, LAccept u g) (map (pair (wall w)) ls)) by (rewrite <- H2; left; reflexivity).
              apply in_map_iff in Hin. destruct Hin as (z & Hz & Hin). injection Hz as _ ->. eapply NA; exact Hin.
           ++ injection H2 as <- H2. eapply (Bt a x u f b y g b0). rewrite H1, <- app_assoc. reflexivity.
        -- exfalso. assert (Hin : In (y, LAccept u g) (map (pair (wall w)) ls)) by (rewrite H2; apply in_app_iff; right; left; reflexivity).
           apply in_map_iff in Hin. destruct Hin as (z & Hz & Hin). injection Hz as _ ->. eapply NA; exact Hin.
      * intros a x u f b Htr.
        destruct (split_app tr a ((x, LAccept u f) :: b) _ Htr) as [(b0 & H1 & H2)|(a0 & N & H1 & H2)].
        2: { exfalso. assert (Hin : In (x, LAccept u f) (map (pair (wall w)) ls)) by (rewrite H2; apply in_app_iff; right; left; reflexivity).
             apply in_map_iff in Hin. destruct Hin as (z & Hz & Hin). injection Hz as _ ->. eapply NA; exact Hin. }
        destruct b0 as [|y b0]; cbn in H2.
        { exfalso. assert (Hin : In (x, LAccept u f) (map (pair (wall w)) ls)) by (rewrite <- H2; left; reflexivity).
          apply in_map_iff in Hin. destruct Hin as (z & Hz & Hin). injection Hz as _ ->. eapply NA; exact Hin. }
        injection H2 as <- ->. destruct (Ev a x u f b0 H1) as [E1 E2].
        change (stamp_of (mkW s' (wall w) (stamps w)) (so_far a)) with (stamp_of w (so_far a)).
        split; [exact E1|].
        assert (Tm : forall r v, In (r, LReturn v) (map (pair (wall w)) ls) -> r = wall w /\ v = t).
        { intros r v Hr. apply in_map_iff in Hr. destruct Hr as (z & Hz & Hr). injection Hz as <- ->. split; [reflexivity|apply HR; exact Hr]. }
        destruct E2 as [(q & Q1 & Q2 & Q3 & Q4)|(v & Q1 & Q2 & Q3)].
        -- destruct (Nat.eq_dec u t) as [->|Hut].
           ++ rewrite Hp in Q1. injection Q1 as <-.
              assert (Sv : exists v, stamp_of w (so_far a) = Some v).
              { destruct Q3 as [->|Q3]; [|exact Q3]. cbn [wmay] in May. unfold constructing in May. rewrite Hp in May.
                destruct (stamp_of w (so_far a)) as [v|]; [exists v; reflexivity|discriminate]. }
              destruct Sv as (v & Sv). pose proof (E1 v Sv) as Hv.
              assert (D : In (LReturn t) ls \/ ~ In (LReturn t) ls).
              { clear. induction ls as [|l ls IH]; [right; intros []|].
                assert (X : l = LReturn t \/ l <> LReturn t).
                { destruct l; try (right; discriminate). destruct (Nat.eq_dec t0 t) as [->|]; [left; reflexivity|right; congruence]. }
                destruct X as [->|X]; [left; left; reflexivity|]. destruct IH as [IH|IH]; [left; right; exact IH|].
                right. intros [H|H]; auto. }
              destruct D as [D|D].
              ** right. exists v. split; [exact Sv|]. split.
                 --- exists (wall w). apply in_app_iff. right. apply in_map. exact D.
                 --- intros r Hr. apply in_app_iff in Hr. destruct Hr as [Hr|Hr]; [exfalso; eapply Q4; exact Hr|].
                     apply Tm in Hr. destruct Hr as [-> _]. lia.
              ** left. exists p'. split; [exact Hpt|]. destruct (HB Q2) as [Hb|Hb]; [|contradiction]. split; [exact Hb|].
                 split; [right; exists v; exact Sv|]. intros r Hr. apply in_app_iff in Hr. destruct Hr as [Hr|Hr]; [eapply Q4; exact Hr|].
                 apply in_map_iff in Hr. destruct Hr as (z & Hz & Hr). injection Hz as _ ->. contradiction.
           ++ left. exists q. rewrite Hoth by exact Hut. split; [exact Q1|]. split; [exact Q2|]. split; [exact Q3|].
              intros r Hr. apply in_app_iff in Hr. destruct Hr as [Hr|Hr]; [eapply Q4; exact Hr|]. apply Tm in Hr. destruct Hr. congruence.
        -- right. exists v. split; [exact Q1|]. split; [destruct Q2 as (r & Hr); exists r; apply in_app_iff; auto|].
           intros r Hr. apply in_app_iff in Hr. destruct Hr as [Hr|Hr]; [apply Q3; exact Hr|].
           apply Tm in Hr. destruct Hr as [-> _]. apply E1 in Q1. lia.
  - destruct (constructing (base w) t) as [n|] eqn:Hc; [|exact Same].
    destruct (stamp_of w n) as [v|] eqn:Hn; [exact Same|]. cbn [fst snd]. rewrite app_nil_r.
    assert (Ln : n < length (stamps w)).
    { unfold constructing in Hc. destruct (nth_error (thr (base w)) t) as [p|] eqn:Hp; [|discriminate]. destruct p; try discriminate.
      injection Hc as ->. rewrite L. eapply B; exact Hp. }
    constructor; cbn [base wall stamps]; auto.
    + rewrite set_nth_len. exact L.
    + intros a x u f b Htr. destruct (Ev a x u f b Htr) as [E1 E2]. unfold stamp_of in *. cbn [stamps].
      destruct (Nat.eq_dec n (so_far a)) as [->|Ne].
      * rewrite set_nth_same by exact Ln. split.
        -- intros v Hv. injection Hv as <-. split; [|lia]. eapply P. rewrite Htr. apply in_app_iff. right. left. reflexivity.
        -- destruct E2 as [(q & Q1 & Q2 & Q3 & Q4)|(v & Q1 & _)]; [|rewrite Hn in Q1; discriminate].
           left. exists q. split; [exact Q1|]. split; [exact Q2|]. split; [right; eexists; reflexivity|exact Q4].
      * rewrite set_nth_other by exact Ne. split; [exact E1|exact E2].
  - cbn [fst snd]. rewrite app_nil_r. constructor; cbn [base wall stamps]; auto.
    + intros x l H. apply P in H. lia.
    + intros a x u f b Htr. destruct (Ev a x u f b Htr) as [E1 E2].
      change (stamp_of (mkW (base w) (wall w + d) (stamps w)) (so_far a)) with (stamp_of w (so_far a)).
      split; [intros v Hv; apply E1 in Hv; lia|exact E2].
Qed.

Lemma wexec_app (w : wstate) a b : wexec C w (a ++ b) =
  (let '(w1, l1) := wexec C w a in let '(w2, l2) := wexec C w1 b in (w2, l1 ++ l2)).
Proof.
  revert w. induction a as [|m a IH]; intros w; cbn [app wexec]; [destruct (wexec C w b); reflexivity|].
  destruct (wstep C w m) as [w1 l1]. rewrite IH. destruct (wexec C w1 a) as [w2 l2]. destruct (wexec C w2 b) as [w3 l3].
  rewrite app_assoc. reflexivity.
Qed.

Lemma wreach_ok w tr : wreach C op clients w tr -> wok w tr.
Proof.
  intros (t0 & ms & He). revert w tr He. induction ms as [|m ms IH] using rev_ind; intros w tr He.
  - cbn in He. injection He as <- <-. constructor; cbn [stamps base wall winit acc init]; try reflexivity.
    + intros x l [].
    + intros a x l b y k c H. destruct a; discriminate.
    + intros t n e Ht. cbn [thr init] in Ht. exfalso. destruct t as [|t]; cbn in Ht.
      * destruct (c_lat0 C), op; discriminate.
      * assert (G : forall (m i : nat) p, nth_error (repeat (@Idle E) m) i = Some p -> p = Idle).
        { intros m i p H. apply nth_error_In, repeat_spec in H. exact H. }
        apply G in Ht. discriminate.
    + intros a x t e b y f c H. destruct a; discriminate.
    + intros a x t e b H. destruct a; discriminate.
  - rewrite wexec_app in He. destruct (wexec C (winit C op clients t0) ms) as [w1 l1] eqn:E1. cbn [wexec] in He.
    pose proof (wok_step w1 l1 m (IH w1 l1 eq_refl)) as H. destruct (wstep C w1 m) as [w2 l2]. rewrite app_nil_r in He.
    injection He as <- <-. exact H.
Qed.

(** ** The stamp lies in the call *)
Theorem stamp_in_call w tr a x t e b :
  wreach C op clients w tr -> tr = a ++ (x, LAccept t e) :: b ->
  (forall v, stamp_of w (so_far a) = Some v -> x <= v) /\
  (forall r, In (r, LReturn t) b -> exists v, stamp_of w (so_far a) = Some v /\ v <= r) /\
  (forall p l, In (p, l) a -> p <= x).
Proof.
  intros H Htr. apply wreach_ok in H. destruct (w_event w tr H a x t e b Htr) as [E1 E2]. split; [intros v Hv; apply E1; exact Hv|].
  split.
  - intros r Hr. destruct E2 as [(p & _ & _ & _ & Q)|(v & Q1 & _ & Q3)]; [exfalso; eapply Q; exact Hr|].
    exists v. split; [exact Q1|apply Q3; exact Hr].
  - intros p l Hp. apply in_split in Hp. destruct Hp as (a1 & a2 & ->).
    eapply (w_mono w tr H a1 p l a2 x (LAccept t e) b). rewrite Htr, <- app_assoc. reflexivity.
Qed.

(** A call that returned before another began: the stamps are in order. *)
Theorem apart_in_order w tr a x t e b y u f c b1 r b2 p l g b3 v v' :
  wreach C op clients w tr -> tr = a ++ (x, LAccept t e) :: b ++ (y, LAccept u f) :: c ->
  b = b1 ++ (r, LReturn t) :: b2 ++ (p, LPush u l g) :: b3 ->
  stamp_of w (so_far a) = Some v -> stamp_of w (so_far (a ++ (x, LAccept t e) :: b)) = Some v' -> v <= v'.
Proof.
  intros H Htr Hb Hv Hv'. destruct (stamp_in_call w tr a x t e _ H Htr) as (_ & R & _).
  destruct (R r) as (v0 & V0 & V1); [rewrite Hb; apply in_app_iff; left; apply in_app_iff; right; left; reflexivity|].
  rewrite Hv in V0. injection V0 as <-.
  destruct (stamp_in_call w tr (a ++ (x, LAccept t e) :: b) y u f c H) as (S & _ & T).
  { rewrite Htr, <- app_assoc. reflexivity. }
  apply S in Hv'. assert (r <= y); [|lia]. eapply (T r (LReturn t)). apply in_app_iff. right. right. rewrite Hb.
  apply in_app_iff. right. left. reflexivity.
Qed.

(** Events of one thread. *)
Theorem own_in_order w tr a x t e b y f c v v' :
  wreach C op clients w tr -> tr = a ++ (x, LAccept t e) :: b ++ (y, LAccept t f) :: c ->
  stamp_of w (so_far a) = Some v -> stamp_of w (so_far (a ++ (x, LAccept t e) :: b)) = Some v' -> v <= v'.
Proof.
  intros H Htr Hv Hv'. destruct (w_between w tr (wreach_ok w tr H) a x t e b y f c Htr) as (r & Hr).
  destruct (stamp_in_call w tr a x t e _ H Htr) as (_ & R & _).
  destruct (R r) as (v0 & V0 & V1); [apply in_app_iff; left; exact Hr|].
  rewrite Hv in V0. injection V0 as <-.
  destruct (stamp_in_call w tr (a ++ (x, LAccept t e) :: b) y t f c H) as (S & _ & T).
  { rewrite Htr, <- app_assoc. reflexivity. }
  apply S in Hv'. assert (r <= y); [|lia]. eapply (T r (LReturn t)). apply in_app_iff. right. right. exact Hr.
Qed.

(** Decomposition at the [n]-th acceptance. *)
Lemma nth_accept (tr : trace) : forall n, n < so_far tr ->
  exists a x t e b, tr = a ++ (x, LAccept t e) :: b /\ so_far a = n.
Proof.
  induction tr as [|[x l] tr IH]; intros n H; [unfold so_far in H; cbn in H; lia|].
  assert (D : (exists t e, l = LAccept t e) \/ forall b, so_far ((x, l) :: b) = so_far b).
  { destruct l; try (right; reflexivity). left. eauto. }
  destruct D as [(t & e & ->)|D].
  - destruct n as [|n]; [exists [], x, t, e, tr; auto|].
    destruct (IH n) as (a & y & u & f & b & -> & Hn).
    { replace (so_far ((x, LAccept t e) :: tr)) with (S (so_far tr)) in H by reflexivity. lia. }
    exists ((x, LAccept t e) :: a), y, u, f, b. split; [reflexivity|].
    replace (so_far ((x, LAccept t e) :: a)) with (S (so_far a)) by reflexivity. lia.
  - destruct (IH n) as (a & y & u & f & b & -> & Hn); [rewrite D in H; exact H|].
    exists ((x, l) :: a), y, u, f, b. split; [reflexivity|]. rewrite D. exact Hn.
Qed.

Theorem sorted_if_apart w tr : wreach C op clients w tr -> apart tr -> in_time_order (written_stamps w tr).
Proof.
  intros H Ap i j v v' Lt Hi Hj. unfold written_stamps in *.
  assert (G : forall n k (o : option nat), nth_error (firstn k (stamps w)) n = Some o -> nth_error (stamps w) n = Some o).
  { intros n k. generalize (stamps w). revert n. induction k as [|k IH]; intros [|n] [|z l] o Hn; cbn in Hn; try discriminate; auto.
    cbn. apply IH. exact Hn. }
  apply G in Hi. apply G in Hj.
  pose proof (wreach_ok w tr H) as Ok.
  assert (Lj : j < so_far tr).
  { rewrite <- (w_len w tr Ok). apply nth_error_Some. congruence. }
  assert (Si : stamp_of w i = Some v) by (unfold stamp_of; apply nth_error_nth; exact Hi).
  assert (Sj : stamp_of w j = Some v') by (unfold stamp_of; apply nth_error_nth; exact Hj).
  destruct (nth_accept tr j Lj) as (a2 & y & u & f & c & Htr & Hn2).
  destruct (nth_accept a2 i) as (a & x & t & e & b & Ha & Hn1); [lia|].
  assert (Htr' : tr = a ++ (x, LAccept t e) :: b ++ (y, LAccept u f) :: c) by (rewrite Htr, Ha, <- app_assoc; reflexivity).
  destruct (Ap a x t e b y u f c Htr') as (b1 & r & b2 & p & l & g & b3 & Hb).
  eapply (apart_in_order w tr a x t e b y u f c b1 r b2 p l g b3 v v' H Htr' Hb); [rewrite Hn1; exact Si|].
  rewrite <- Ha, Hn2. exact Sj.
Qed.

(** ** Down to the sink *)
Lemma wreach_base w tr : wreach C op clients w tr -> reach C op clients (base w) (map snd tr).
Proof.
  intros (t0 & ms & He). revert w tr He. induction ms as [|m ms IH] using rev_ind; intros w tr He.
  - cbn in He. injection He as <- <-. exists []. reflexivity.
  - rewrite wexec_app in He. destruct (wexec C (winit C op clients t0) ms) as [w1 l1] eqn:E1. cbn [wexec] in He.
    pose proof (IH w1 l1 eq_refl) as R. destruct (wstep C w1 m) as [w2 l2] eqn:Es. rewrite app_nil_r in He. injection He as <- <-.
    destruct m as [mv|t|d]; cbn [wstep] in Es.
    + destruct (wmay w1 mv); [|injection Es as <- <-; rewrite app_nil_r; exact R].
      pose proof (reach_step C op clients (base w1) (map snd l1) mv R) as R1.
      destruct (step C (base w1) mv) as [s ls]. injection Es as <- <-. cbn [base fst snd] in *.
      rewrite map_app, map_map. cbn [snd]. rewrite map_id. exact R1.
    + destruct (constructing (base w1) t) as [n|]; [destruct (stamp_of w1 n)|]; injection Es as <- <-; rewrite app_nil_r; exact R.
    + injection Es as <- <-. rewrite app_nil_r. exact R.
Qed.
End Stamp.

Section Written.
Context {E : Type}.
Variable C : cfg E.
Variable clients : nat.
Hypothesis sz : sizes_ok C.

(** Every record written has its stamp. *)
Theorem written_stamped w tr : wreach C true clients w tr ->
  written (map snd tr) = firstn (length (written (map snd tr))) (accepted (map snd tr)) /\
  Forall (fun o => o <> None) (written_stamps w tr) /\
  length (written_stamps w tr) = length (written (map snd tr)).
Proof.
  intros H. pose proof (wreach_base C true clients w tr H) as R.
  pose proof (wreach_ok C true clients w tr H) as Ok.
  assert (Hd : has_dest C true) by (right; reflexivity).
  destruct (opened_stays _ _ _ _ R) as (_ & Hl & _).
  pose proof (all_events C true clients _ _ sz Hd R) as Al. rewrite Hl in Al. cbn [app] in Al.
  assert (Ln : so_far tr = length (written (map snd tr)) + length (pending (base w))).
  { unfold so_far. rewrite Al, app_length. reflexivity. }
  assert (L1 : length (written_stamps w tr) = length (written (map snd tr))).
  { unfold written_stamps. rewrite firstn_length, (w_len w tr Ok), Ln. lia. }
  split; [rewrite Al, firstn_app, Nat.sub_diag, firstn_all; cbn; rewrite app_nil_r; reflexivity|].
  split; [|exact L1].
  apply Forall_forall. intros o Ho ->. apply In_nth_error in Ho. destruct Ho as (i & Hi).
  assert (Li : i < length (written (map snd tr))) by (rewrite <- L1; apply nth_error_Some; congruence).
  assert (Si : stamp_of w i = None).
  { unfold stamp_of, written_stamps in *. clear - Hi. revert i Hi. generalize (length (written (map snd tr))) as k.
    induction (stamps w) as [|z l IH]; intros [|k] [|i] Hi; cbn in Hi; try discriminate; cbn; [congruence|eapply IH; exact Hi]. }
  destruct (nth_accept tr i) as (a & x & t & e & b & Htr & Ha); [lia|].
  destruct (w_event w tr Ok a x t e b Htr) as [_ Ev]. rewrite Ha, Si in Ev.
  destruct Ev as [(p & Q1 & _ & [->|(v & Q3)] & _)|(v & Q & _)]; [|discriminate|discriminate].
  pose proof (reach_inv C true clients _ _ sz Hd R) as I.
  assert (Hin : In (i, e) (flat_map (@adding E) (thr (base w)))).
  { apply in_flat_map. exists (PAdd i e). split; [eapply nth_error_In; exact Q1|left; reflexivity]. }
  apply (I_add C _ I) in Hin. destruct (I_no C _ I) as (b0 & Hb & Hbl).
  assert (Hs : In i (map (@q_no E) (q (base w)))) by (apply in_map_iff; eexists; split; [|exact Hin]; reflexivity).
  rewrite Hb in Hs. apply in_seq in Hs.
  assert (length (q (base w)) <= length (pending (base w))).
  { unfold pending. rewrite app_length, map_length. lia. }
  rewrite (w_acc w tr Ok) in Hbl. lia.
Qed.
End Written.
