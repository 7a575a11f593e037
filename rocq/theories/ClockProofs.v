(** * Proofs about a sink with threads and a clock *)

From Coq Require Import List Arith NArith Bool Lia.
From Verif Require Import Base LevelModel SinkModel SinkSpec SinkProofs SinkLabels SinkLife SinkProps ClockModel ClockSpec.
Import ListNotations.

Section Class.
Context {E : Type}.
Variable C : cfg E.
Notation state := (state E).
Notation pc := (pc E).

(** ** What one step does to the counts *)

Definition midp (p : pc) : list unit := match p with FSub _ _ | FWrite _ _ => [tt] | _ => [] end.
Definition mid (s : state) : nat := length (flat_map midp (thr s)).
Definition hand (s : state) : nat := length (flat_map in_hand (thr s)).
Definition writing (s : state) (m : move E) : option (option E) :=
  match m with
  | MThread t _ => match nth_error (thr s) t with Some (FWrite _ oe) => Some oe | _ => None end
  | MDrain _ => None
  end.

Inductive kind (s : state) (m : move E) (s' : state) (ls : list (label E)) : Prop :=
| K_same : writing s m = None -> accepts ls = [] -> written ls = [] -> length (q s') = length (q s) ->
    hand s' = hand s -> mid s' = mid s -> kind s m s' ls
| K_accept t e : writing s m = None -> ls = [LAccept t e] -> length (q s') = S (length (q s)) ->
    hand s' = hand s -> mid s' = mid s -> kind s m s' ls
| K_pop : writing s m = None -> accepts ls = [] -> written ls = [] -> length (q s) = S (length (q s')) ->
    hand s = 0 -> hand s' = 1 -> mid s = 0 -> mid s' = 1 -> kind s m s' ls
| K_empty : writing s m = None -> accepts ls = [] -> written ls = [] -> q s = [] -> q s' = [] ->
    hand s = 0 -> hand s' = 0 -> mid s = 0 -> mid s' = 1 -> kind s m s' ls
| K_written t e : writing s m = Some (Some e) -> ls = [LWrite t e] -> length (q s') = length (q s) ->
    hand s = 1 -> hand s' = 0 -> mid s = 1 -> mid s' = 0 -> kind s m s' ls
| K_none : writing s m = Some None -> accepts ls = [] -> written ls = [] -> length (q s') = length (q s) ->
    hand s = 0 -> hand s' = 0 -> mid s = 1 -> mid s' = 0 -> kind s m s' ls.

Lemma accepts_ret t k : accepts (ret_label t k : list (label E)) = [].
Proof. destruct k; reflexivity. Qed.
Lemma written_ret t k : written (ret_label t k : list (label E)) = [].
Proof. destruct k; reflexivity. Qed.

Lemma mid_fl (l : list pc) : flat_map fl l = [] -> flat_map midp l = [] /\ flat_map in_hand l = [].
Proof.
  induction l as [|p l IH]; [auto|]. cbn. intros H. apply app_eq_nil in H as [H1 H2].
  destruct (IH H2) as [I1 I2]. rewrite I1, I2. destruct p as [| | | | | | | | | |? []| | | | | | | | | | | | | | |]; cbn in *; auto; discriminate.
Qed.

Lemma after_mid k : midp (after_flush k) = [] /\ in_hand (after_flush k : pc) = [].
Proof. destruct k; auto. Qed.

Lemma counts_upd s t p p' : nth_error (thr s) t = Some p ->
  length (flat_map midp (upd (thr s) t p')) + length (midp p) = mid s + length (midp p') /\
  length (flat_map in_hand (upd (thr s) t p')) + length (in_hand p) = hand s + length (in_hand p').
Proof.
  intros Hp. destruct (thr_split _ _ _ Hp) as (l1 & l2 & E1 & _ & E3).
  unfold mid, hand. rewrite E3, E1, !flat_map_app. cbn [flat_map]. rewrite !app_length. lia.
Qed.

Lemma alone s t p : Inv C s -> nth_error (thr s) t = Some p -> inflush p = true ->
  mid s = length (midp p) /\ hand s = length (in_hand p).
Proof.
  intros HI Hp Hf. destruct (thr_split _ _ _ Hp) as (l1 & l2 & E1 & _ & _).
  destruct (others_out C s l1 p l2 HI E1 Hf) as (O1 & O2 & _).
  destruct (mid_fl _ O1) as [A1 A2]. destruct (mid_fl _ O2) as [B1 B2].
  unfold mid, hand. rewrite E1, !flat_map_app. cbn [flat_map]. rewrite A1, A2, B1, B2, !app_nil_r. auto.
Qed.

(** A step that leaves the thread's counts alone. *)
Lemma kind_thr s m s' ls t p p' : nth_error (thr s) t = Some p -> thr s' = upd (thr s) t p' ->
  midp p = [] -> midp p' = [] -> in_hand p = [] -> in_hand p' = [] ->
  writing s m = None -> accepts ls = [] -> written ls = [] -> length (q s') = length (q s) -> kind s m s' ls.
Proof.
  intros Hp Ht M1 M2 H1 H2 W A Wr Q. destruct (counts_upd s t p p' Hp) as [X Y].
  rewrite M1, M2 in X. rewrite H1, H2 in Y. cbn in X, Y.
  apply K_same; auto; unfold hand, mid; rewrite Ht; unfold hand, mid in *; lia.
Qed.

Lemma kind_refl s m ls : writing s m = None -> accepts ls = [] -> written ls = [] -> kind s m s ls.
Proof. intros. apply K_same; auto. Qed.

Ltac thr_case Hp := eapply kind_thr; [exact Hp|reflexivity|..]; cbn;
  rewrite ?Hp, ?accepts_ret, ?written_ret, ?set_stage_len; try reflexivity; auto;
  try (apply after_mid).

Lemma step_kind s m : c_kind C <> KSyslog -> opened s = true -> Inv C s ->
  kind s m (fst (step C s m)) (snd (step C s m)).
Proof.
  intros Hk Ho HI. destruct m as [t c|n].
  2: { apply K_same; reflexivity. }
  cbn [step]. destruct (nth_error (thr s) t) as [p|] eqn:Hp.
  2: { apply kind_refl; cbn; rewrite ?Hp; reflexivity. }
  destruct p as [|e|n e|n e| | | |k|k|k e|k oe|k|k|k|k|k|k| | | | | | | | |]; cbn [step_thread].
  (* FWrite and FSub, FGet separately *)
  9: { destruct (alone s t _ HI Hp eq_refl) as [M H]. cbn in M, H.
       destruct (q s) as [|x rest] eqn:Hq.
       - set (p' := match c_kind C with KSyslog => FNtf k | _ => FWrite k None end).
         destruct (counts_upd s t _ p' Hp) as [X Y]. cbn in X, Y.
         apply K_empty; cbn; rewrite ?Hp, ?Hq; auto; unfold mid, hand in *; cbn [thr s_thr];
           unfold p' in *; destruct (c_kind C); try congruence; cbn in *; lia.
       - destruct (q_stage x).
         + apply kind_refl; cbn; rewrite ?Hp; reflexivity.
         + apply kind_refl; cbn; rewrite ?Hp; reflexivity.
         + destruct (counts_upd s t _ (FSub k (q_ev x)) Hp) as [X Y]. cbn in X, Y.
           apply K_pop; cbn; rewrite ?Hp, ?Hq; auto; unfold mid, hand in *; cbn in *; lia. }
  9: { destruct (alone s t _ HI Hp eq_refl) as [M H]. cbn in M, H.
       destruct (counts_upd s t _ (FWrite k (Some e)) Hp) as [X Y]. cbn in X, Y.
       destruct (c_kind C); try congruence;
         (apply K_same; cbn; rewrite ?Hp; auto; unfold mid, hand in *; cbn in *; lia). }
  9: { destruct (alone s t _ HI Hp eq_refl) as [M H]. destruct oe as [e|]; cbn in M, H.
       - rewrite Ho. destruct (counts_upd s t _ (FCasFlush k) Hp) as [X Y]. cbn in X, Y.
         eapply K_written; cbn; rewrite ?Hp; auto; unfold mid, hand in *; cbn in *; lia.
       - set (p' := match c_kind C with KFile => FCasRot k | _ => FClear k end).
         destruct (counts_upd s t _ p' Hp) as [X Y].
         apply K_none; cbn; rewrite ?Hp; auto; unfold mid, hand in *; cbn [thr s_thr];
           unfold p' in *; destruct (c_kind C); cbn in *; lia. }
  (* PPut *)
  2: { destruct (Nat.ltb _ _).
       - destruct (counts_upd s t _ (PAdd (length (acc s)) e) Hp) as [X Y]. cbn in X, Y.
         eapply K_accept; cbn; rewrite ?Hp, ?app_length; auto; unfold mid, hand in *; cbn in *; lia.
       - thr_case Hp. }
  all: repeat match goal with
    | |- context [match ?x with _ => _ end] =>
      match type of x with
      | choice _ => destruct x
      | bool => destruct x eqn:?
      | option _ => destruct x eqn:?
      | sink_kind => destruct x eqn:?
      | reopen => destruct x
      | SinkModel.pc _ => destruct x eqn:?
      end
    end.
  all: cbn [fst snd].
  all: first [ solve [apply kind_refl; cbn; rewrite ?Hp; reflexivity] | solve [thr_case Hp] | idtac ].
  all: try (destruct (q s); thr_case Hp; fail).
  all: destruct k; thr_case Hp.
Qed.
End Class.

Section Clock.
Context {E : Type}.
Variable T : tcfg E.
Notation C := (t_sink T).
Notation L := (t_lat T).
Notation tlabel := (nat * label E)%type.
Hypothesis Hsz : sizes_ok C.
Hypothesis Hk : c_kind C <> KSyslog.
Hypothesis Hl : c_lat0 C = false.

Lemma crun_reach n t h s tr : crun T (cstart T n t) h s tr -> reach C true n (base s) (labels tr).
Proof.
  induction 1 as [|h s tr ev s' ls R IH St]; [exists []; reflexivity|].
  unfold labels in *. rewrite map_app, map_map, map_id.
  inversion St; subst; cbn [base].
  - unfold cstep in H0. destruct (step C (base s) m) as [b l0] eqn:Hs. injection H0 as <- <-. cbn [base].
    pose proof (reach_step C true n _ _ m IH) as X. rewrite Hs in X. exact X.
  - rewrite app_nil_r. exact IH.
  - rewrite app_nil_r. exact IH.
Qed.

(** ** Counting *)

Definition nacc (tr : list tlabel) : nat := length (accepted (labels tr)).
Definition nwr (tr : list tlabel) : nat := length (written (labels tr)).

Lemma nwr_times tr : length (write_times tr) = nwr tr.
Proof.
  unfold nwr, write_times, labels. induction tr as [|[t l] tr IH]; [reflexivity|].
  cbn. rewrite !app_length, IH. destruct l; reflexivity.
Qed.
Lemma nacc_app a b : nacc (a ++ b) = nacc a + nacc b.
Proof. unfold nacc, labels, accepted, accepts. rewrite !map_app, flat_map_app, map_app, app_length. reflexivity. Qed.
Lemma nwr_app a b : nwr (a ++ b) = nwr a + nwr b.
Proof. unfold nwr, labels, written. rewrite map_app, flat_map_app, app_length. reflexivity. Qed.
Lemma times_app (a b : list tlabel) : write_times (a ++ b) = write_times a ++ write_times b.
Proof. apply flat_map_app. Qed.

Fixpoint stamps (a w : nat) (tr : list tlabel) : list (nat * nat) :=
  match tr with
  | [] => []
  | (t, LAccept _ _) :: tr' => (t, t + (a - w + 1) * L) :: stamps (S a) w tr'
  | (_, LWrite _ _) :: tr' => stamps a (S w) tr'
  | _ :: tr' => stamps a w tr'
  end.

Lemma stamps_app tr2 : forall tr a w, stamps a w (tr ++ tr2) = stamps a w tr ++ stamps (a + nacc tr) (w + nwr tr) tr2.
Proof.
  induction tr as [|[t l] tr IH]; intros a w.
  - unfold nacc, nwr. cbn. rewrite !Nat.add_0_r. reflexivity.
  - unfold nacc, nwr in *. destruct l; cbn [app stamps labels map accepted accepts written flat_map snd length] in *;
      try (rewrite IH; reflexivity).
    + rewrite IH. simpl. rewrite <- ?plus_n_Sm. reflexivity.
    + rewrite IH. simpl. rewrite <- ?plus_n_Sm. reflexivity.
Qed.

Lemma stamps_len : forall tr a w, length (stamps a w tr) = nacc tr.
Proof.
  induction tr as [|[t l] tr IH]; intros a w; [reflexivity|].
  unfold nacc in *. destruct l; cbn in *; rewrite ?IH; reflexivity.
Qed.

Lemma plain_labels t ls : accepts ls = [] -> written ls = [] ->
  nacc (map (fun l => (t, l)) ls) = 0 /\ nwr (map (fun l => (t, l)) ls) = 0 /\
  write_times (map (fun l : label E => (t, l)) ls) = [] /\ forall a w, stamps a w (map (fun l => (t, l)) ls) = [].
Proof.
  intros A W.
  assert (N : nacc (map (fun l => (t, l)) ls) = 0).
  { unfold nacc, labels, accepted. rewrite map_map, map_id, A. reflexivity. }
  assert (N2 : nwr (map (fun l => (t, l)) ls) = 0).
  { unfold nwr, labels. rewrite map_map, map_id, W. reflexivity. }
  split; [exact N|]. split; [exact N2|]. split.
  - apply length_zero_iff_nil. rewrite nwr_times. exact N2.
  - intros a w. apply length_zero_iff_nil. rewrite stamps_len. exact N.
Qed.

(** The event at [pre] has its stamp. *)
Lemma stamp_at pre t th e post :
  nth_error (stamps 0 0 (pre ++ (t, LAccept th e) :: post)) (nacc pre) = Some (t, t + (nacc pre - nwr pre + 1) * L).
Proof.
  rewrite stamps_app, nth_error_app2 by (rewrite stamps_len; lia).
  rewrite stamps_len, Nat.sub_diag. reflexivity.
Qed.

(** ** The worker's end *)

Lemma done_empty s : Life C true s -> nth_error (thr s) 0 = Some WDone -> q s = [] /\ mid s = 0 /\ hand s = 0.
Proof.
  intros (w & cs & Et & _ & _ & _ & _ & M) H. rewrite Et in H. injection H as ->.
  assert (Hw : hw C true = true) by (unfold hw; rewrite Hl; reflexivity).
  destruct M as [(_ & _ & N)|(l1 & p & l2 & -> & F1 & F2 & _ & D)]; [destruct (N Hw); reflexivity|].
  assert (Z : forall l : list (pc E), Forall (eq Idle) l -> flat_map midp l = [] /\ flat_map in_hand l = []).
  { induction 1 as [|x l <- _ [I1 I2]]; [auto|]. cbn. rewrite I1, I2. auto. }
  destruct (Z _ F1) as [A1 A2]. destruct (Z _ F2) as [B1 B2].
  unfold mid, hand. rewrite Et. cbn. rewrite !flat_map_app. cbn [flat_map]. rewrite A1, A2, B1, B2, !app_nil_r.
  unfold dcond in D. rewrite Hl in D. destruct p; try contradiction; cbn.
  - destruct D as [_ D]. destruct (D Hw); reflexivity.
  - destruct D as [_ D]. auto.
  - destruct D as [_ D]. auto.
  - destruct D as (_ & _ & D). auto.
  - destruct D as (_ & _ & D). auto.
Qed.

Lemma done_stays s m : nth_error (thr s) 0 = Some WDone -> nth_error (thr (fst (step C s m))) 0 = Some WDone.
Proof.
  intros H. destruct m as [t c|n]; [|exact H]. cbn [step].
  destruct (nth_error (thr s) t) as [p|] eqn:Hp; [|exact H].
  destruct t as [|t].
  { rewrite H in Hp. injection Hp as <-. cbn. exact H. }
  assert (U : forall p', nth_error (upd (thr s) (S t) p') 0 = Some WDone).
  { intros p'. destruct (thr s); [discriminate|]. cbn in *. exact H. }
  destruct p; cbn [step_thread];
  repeat match goal with
    | |- context [match ?x with _ => _ end] =>
      match type of x with
      | choice _ => destruct x
      | bool => destruct x eqn:?
      | option _ => destruct x eqn:?
      | list _ => destruct x eqn:?
      | stage => destruct x eqn:?
      | sink_kind => destruct x eqn:?
      | reopen => destruct x
      | SinkModel.pc _ => destruct x eqn:?
      end
    end; cbn [fst thr s_thr s_q s_acc s_flags s_out]; first [exact H|apply U|reflexivity|congruence|idtac].
Qed.

(** ** The invariant *)

Definition nx (s : cstate E) : nat := if Nat.eqb (mid (base s)) 0 then next s else now s + L.

Definition on_time (s : cstate E) (tr : list tlabel) (n : nat) (t d : nat) : Prop :=
  t <= now s /\
  (forall w, nth_error (write_times tr) n = Some w -> t <= w /\ w <= d) /\
  (n = nwr tr -> hand (base s) = 1 -> now s <= d) /\
  (nwr tr + hand (base s) <= n -> nx s + (n - (nwr tr + hand (base s))) * L <= d).

Record Good (s : cstate E) (tr : list tlabel) : Prop := mkGood {
  g_next : next s <= now s + L;
  g_wait : nth_error (thr (base s)) 0 <> Some WDone -> now s <= next s /\ forall u, until s = Some u -> now s <= u /\ u <= next s;
  g_time : forall n t d, nth_error (stamps 0 0 tr) n = Some (t, d) -> on_time s tr n t d
}.

Lemma counts n t h s tr : crun T (cstart T n t) h s tr -> nacc tr = nwr tr + hand (base s) + length (q (base s)).
Proof.
  intros R. destruct (output_is_accepted C n _ _ Hsz Hk (crun_reach _ _ _ _ _ R)) as (A & _ & _).
  unfold nacc, nwr, hand. rewrite A. unfold pending. rewrite !app_length, map_length. lia.
Qed.

Lemma not_done n t h s tr k x : crun T (cstart T n t) h s tr -> nth_error (stamps 0 0 tr) k = Some x -> nwr tr <= k ->
  nth_error (thr (base s)) 0 <> Some WDone.
Proof.
  intros R Hx Hw D. destruct (done_empty _ (reach_life C true n _ _ (crun_reach _ _ _ _ _ R)) D) as (Q & _ & H).
  assert (k < nacc tr) by (rewrite <- (stamps_len tr 0 0); apply nth_error_Some; congruence).
  pose proof (counts _ _ _ _ _ R). rewrite Q, H in *. cbn in *. lia.
Qed.

Lemma good_step n t h s tr ev s' ls : crun T (cstart T n t) h s tr -> cnext T s ev s' ls -> calm (s, ev) ->
  Good s tr -> Good s' (tr ++ map (fun l => (now s, l)) ls).
Proof.
  intros R St Ca [G1 G2 G3]. pose proof (crun_reach _ _ _ _ _ R) as Re.
  assert (Hd : has_dest C true) by (right; reflexivity).
  pose proof (reach_inv C _ _ _ _ Hsz Hd Re) as HI. pose proof (reach_life C true n _ _ Re) as HL.
  destruct (opened_stays C n _ _ Re) as (Ho & _ & _).
  pose proof (counts _ _ _ _ _ R) as Hc.
  assert (ND : forall k x, nth_error (stamps 0 0 tr) k = Some x -> nwr tr <= k -> now s <= next s).
  { intros k x Hx Hw. exact (proj1 (G2 (not_done _ _ _ _ _ _ _ R Hx Hw))). }
  inversion St; subst; clear St.
  - (* a step *)
    unfold cstep in H0. destruct (step C (base s) m) as [b l0] eqn:Hs. injection H0 as <- <-.
    pose proof (step_kind C (base s) m Hk Ho HI) as K. rewrite Hs in K. cbn [fst snd] in K.
    assert (WD : nth_error (thr b) 0 <> Some WDone -> nth_error (thr (base s)) 0 <> Some WDone).
    { intros A B. apply A. pose proof (done_stays (base s) m B) as X. rewrite Hs in X. exact X. }
    assert (NX : next_after T s m = match writing (base s) m with
        | Some (Some _) => now s + L
        | Some None => if t_tiny T || Nat.leb (next s) (now s) then now s + L else next s
        | None => next s end).
    { unfold next_after, writing, at_pc. destruct m; [|reflexivity]. destruct (nth_error (thr (base s)) t0) as [[]|]; try reflexivity. }
    assert (N1 : next s <= next_after T s m /\ next_after T s m <= now s + L).
    { rewrite NX. destruct (writing (base s) m) as [[?|]|]; [lia| |lia]. destruct (_ || _); lia. }
    assert (N2 : forall u, until_after s m = Some u -> until s = Some u).
    { unfold until_after. intros u. destruct m; [|auto]. destruct (at_pc (base s) t0) as [[]|]; auto; discriminate. }
    split; cbn [base now next until].
    + apply N1.
    + intros A. destruct (G2 (WD A)) as [B1 B2]. split; [lia|]. intros u Hu. destruct (B2 u (N2 u Hu)). lia.
    + intros k t0 d. rewrite stamps_app. cbn [Nat.add].
      destruct K as [W A Wr Q Hh Hm|th e W -> Q Hh Hm|W A Wr Q H0 H1 M0 M1|W A Wr Q0 Q1 H0 H1 M0 M1|th e W -> Q H0 H1 M0 M1|W A Wr Q H0 H1 M0 M1];
        rewrite W in NX; unfold on_time, nx; cbn [base now next until].
      * destruct (plain_labels (now s) l0 A Wr) as (P1 & P2 & P3 & P4).
        rewrite P4, app_nil_r, times_app, P3, app_nil_r, nwr_app, P2, Nat.add_0_r, Hh, Hm, NX. intros Hx.
        exact (G3 k t0 d Hx).
      * cbn [map stamps]. rewrite times_app, nwr_app. change (nwr [(now s, LAccept th e)]) with 0. change (write_times [(now s, LAccept th e)]) with (@nil nat).
        rewrite app_nil_r, Nat.add_0_r, Hh, Hm, NX. intros Hx.
        destruct (Nat.lt_ge_cases k (nacc tr)) as [Hlt|Hge].
        -- rewrite nth_error_app1 in Hx by (rewrite stamps_len; exact Hlt). exact (G3 k t0 d Hx).
        -- rewrite nth_error_app2, stamps_len in Hx by (rewrite stamps_len; exact Hge).
           destruct (k - nacc tr) as [|j] eqn:Hj; [|destruct j; discriminate]. cbn in Hx. injection Hx as <- <-.
           assert (k = nacc tr) by lia. subst k. split; [auto|]. split; [|split].
           ++ intros w Hw. assert (nacc tr < length (write_times tr)) by (apply nth_error_Some; congruence).
              rewrite nwr_times in *. lia.
           ++ intros; lia.
           ++ intros _. rewrite Nat.sub_add_distr. destruct (Nat.eqb (mid (base s)) 0); nia.
      * destruct (plain_labels (now s) l0 A Wr) as (P1 & P2 & P3 & P4).
        rewrite P4, app_nil_r, times_app, P3, app_nil_r, nwr_app, P2, Nat.add_0_r, H1, M1, NX. cbn [Nat.eqb]. intros Hx.
        destruct (G3 k t0 d Hx) as (B1 & B2 & B3 & B4). rewrite H0, Nat.add_0_r in *. unfold nx in B4. rewrite M0 in B4. cbn in B4.
        split; [auto|]. split; [auto|]. split.
        -- intros -> _. pose proof (ND _ _ Hx (le_n _)). specialize (B4 (le_n _)). lia.
        -- intros Hle. assert (Hle' : nwr tr <= k) by lia. pose proof (ND _ _ Hx Hle'). specialize (B4 Hle').
           replace (k - nwr tr) with (S (k - (nwr tr + 1))) in B4 by lia. nia.
      * destruct (plain_labels (now s) l0 A Wr) as (P1 & P2 & P3 & P4).
        rewrite P4, app_nil_r, times_app, P3, app_nil_r, nwr_app, P2, Nat.add_0_r, H1, M1, NX. intros Hx.
        destruct (G3 k t0 d Hx) as (B1 & B2 & B3 & B4).
        assert (k < nacc tr) by (rewrite <- (stamps_len tr 0 0); apply nth_error_Some; congruence).
        rewrite Hc, H0, Q0 in *. cbn in *.
        split; [auto|]. split; [auto|]. split; [intros; lia|]. intros; lia.
      * cbn [map stamps]. rewrite app_nil_r, times_app, nwr_app. change (nwr [(now s, LWrite th e)]) with 1. change (write_times [(now s, LWrite th e)]) with [now s].
        rewrite H1, M1, NX. cbn [Nat.eqb]. intros Hx.
        destruct (G3 k t0 d Hx) as (B1 & B2 & B3 & B4). rewrite H0 in *. unfold nx in B4. rewrite M0 in B4. cbn in B4.
        split; [auto|]. split; [|split].
        -- intros w Hw. destruct (Nat.lt_ge_cases k (length (write_times tr))) as [Hlt|Hge].
           ++ rewrite nth_error_app1 in Hw by exact Hlt. auto.
           ++ rewrite nth_error_app2 in Hw by exact Hge. rewrite nwr_times in *.
              destruct (k - nwr tr) as [|j] eqn:Hj; [|destruct j; discriminate]. cbn in Hw. injection Hw as <-.
              split; [auto|]. apply B3; [lia|reflexivity].
        -- intros; lia.
        -- rewrite Nat.add_0_r. intros Hle. exact (B4 Hle).
      * destruct (plain_labels (now s) l0 A Wr) as (P1 & P2 & P3 & P4).
        rewrite P4, app_nil_r, times_app, P3, app_nil_r, nwr_app, P2, Nat.add_0_r, H1, M1. cbn [Nat.eqb]. intros Hx.
        destruct (G3 k t0 d Hx) as (B1 & B2 & B3 & B4). rewrite H0 in *. unfold nx in B4. rewrite M0 in B4. cbn in B4.
        split; [auto|]. split; [auto|]. split; [intros; lia|]. intros Hle. specialize (B4 Hle). lia.
  - (* the worker reads the time *)
    rewrite app_nil_r. split; cbn [base now next until]; auto.
    intros A. destruct (G2 A) as [B _]. split; [exact B|]. intros u Hu. injection Hu as <-. auto.
  - (* time passes *)
    rewrite app_nil_r. unfold calm in Ca. cbn [fst snd] in Ca. destruct Ca as [->|[Fi Ca]].
    + rewrite Nat.add_0_r. destruct s. exact (mkGood _ _ G1 G2 G3).
    + pose proof (I_flag C _ HI) as F. rewrite Fi in F. destruct (mid_fl _ F) as [M0 H0].
      assert (M : mid (base s) = 0) by (unfold mid; rewrite M0; reflexivity).
      assert (H : hand (base s) = 0) by (unfold hand; rewrite H0; reflexivity).
      split; cbn [base now next until]; [lia| |].
      * intros A. destruct (until s) as [u|] eqn:Hu;
          destruct (nth_error (thr (base s)) 0) as [[]|] eqn:Hw; try contradiction; try congruence.
        destruct (G2 A) as [_ B].
        destruct (B u eq_refl) as [B1 B2]. split; [lia|]. intros u' Hu'. injection Hu' as <-. lia.
      * intros k t0 d0 Hx. destruct (G3 k t0 d0 Hx) as (B1 & B2 & B3 & B4).
        unfold on_time, nx in *. cbn [base now next until] in *. rewrite M, H in *. cbn in *.
        split; [lia|]. split; [auto|]. split; [intros; lia|auto].
Qed.

Lemma good_run n t h s tr : crun T (cstart T n t) h s tr -> quick h -> Good s tr.
Proof.
  induction 1 as [|h s tr ev s' ls R IH St]; intros Q.
  - split; cbn; [lia| |].
    + intros _. split; [auto|]. discriminate.
    + intros [|]; discriminate.
  - apply Forall_app in Q as [Q1 Q2]. inversion Q2; subst. eapply good_step; eauto.
Qed.

(** An event accepted at [t] behind [k] others is written at [t + (k + 1) * L] at the latest. *)
Lemma delay n t0 h s tr pre t th e post : crun T (cstart T n t0) h s tr -> quick h ->
  tr = pre ++ (t, LAccept th e) :: post ->
  let i := length (accepted (labels pre)) in
  let d := t + (i - length (written (labels pre)) + 1) * L in
  match nth_error (write_times tr) i with
  | Some w => t <= w /\ w <= d
  | None => t <= now s /\ now s <= d
  end.
Proof.
  intros R Q Etr. cbv zeta. fold (nacc pre). fold (nwr pre).
  assert (Hx : nth_error (stamps 0 0 tr) (nacc pre) = Some (t, t + (nacc pre - nwr pre + 1) * L)) by (rewrite Etr; apply stamp_at).
  destruct (good_run _ _ _ _ _ R Q) as [G1 G2 G3].
  destruct (G3 _ _ _ Hx) as (B1 & B2 & B3 & B4).
  destruct (nth_error (write_times tr) (nacc pre)) as [w|] eqn:Hw; [auto|].
  split; [exact B1|]. apply nth_error_None in Hw. rewrite nwr_times in Hw.
  pose proof (proj1 (G2 (not_done _ _ _ _ _ _ _ R Hx Hw))) as Hn.
  destruct (Nat.lt_ge_cases (nacc pre) (nwr tr + hand (base s))) as [Hlt|Hge].
  - assert (Hh : hand (base s) <= 1).
    { pose proof (reach_inv C _ _ _ _ Hsz (or_intror eq_refl) (crun_reach _ _ _ _ _ R)) as HI.
      pose proof (I_flag C _ HI) as F. unfold hand.
      assert (forall l : list (pc E), length (flat_map in_hand l) <= length (flat_map fl l)).
      { induction l as [|p l IH]; [auto|]. cbn. rewrite !app_length.
        assert (length (in_hand p) <= length (fl p)); [|lia].
        destruct p as [| | | | | | | | | |? []| | | | | | | | | | | | | | |]; cbn; lia. }
      pose proof (H (thr (base s))) as X. rewrite F in X. destruct (fip (base s)); cbn in X; lia. }
    apply B3; lia.
  - specialize (B4 Hge). unfold nx in B4. destruct (Nat.eqb (mid (base s)) 0); nia.
Qed.

End Clock.
