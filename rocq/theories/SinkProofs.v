(** * Invariants of the sink model *)
From Coq Require Import List Arith NArith Bool Lia.
From Verif Require Import Base LevelModel SinkModel.
Import ListNotations.

Section Proofs.
Context {E : Type}.
Variable C : cfg E.
Notation state := (state E).
Notation pc := (pc E).
Notation entry := (entry E).

(** ** Projections of control points *)

Definition inflush (p : pc) : bool :=
  match p with
  | FGet _ | FSub _ _ | FWrite _ _ | FCasFlush _ | FStream _ | FNtf _ | FCasRot _ | FReopen _
  | FClear _ => true
  | _ => false
  end.

Definition fl (p : pc) : list unit := if inflush p then [tt] else [].
Definition infl (p : pc) : list E :=
  match p with FSub _ e => [e] | FWrite _ (Some e) => [e] | _ => [] end.
Definition unsub (p : pc) : list E := match p with FSub _ e => [e] | _ => [] end.
Definition adding (p : pc) : list (nat * E) := match p with PAdd n e => [(n, e)] | _ => [] end.
Definition releasing (p : pc) : list (nat * E) := match p with PRel n e => [(n, e)] | _ => [] end.

Definition is_reserved (x : entry) : bool := match q_stage x with Reserved => true | _ => false end.
Definition sumN (l : list N) : N := fold_right N.add 0%N l.
Definition sized (l : list entry) : list E :=
  map (@q_ev E) (filter (fun x => negb (is_reserved x)) l).
Definition weight (l : list E) : N := sumN (map (c_msize C) l).

Record Inv (s : state) : Prop := {
  I_flag : flat_map fl (thr s) = if fip s then [tt] else [];
  I_all : map snd (acc s) =
          h_drop s ++ concat (h_closed s) ++ h_cur s ++ flat_map infl (thr s) ++ map (@q_ev E) (q s);
  I_closed : closed s = map (fun l => concat (map (c_render C) l)) (h_closed s);
  I_cur : cur s ++ obuf s = concat (map (c_render C) (h_cur s));
  I_no : exists base, map (@q_no E) (q s) = seq base (length (q s)) /\
                      base + length (q s) = length (acc s);
  I_add : forall n e, In (n, e) (flat_map adding (thr s)) <-> In (mkEntry n e Reserved) (q s);
  I_rel : forall n e, In (n, e) (flat_map releasing (thr s)) <-> In (mkEntry n e Sized) (q s);
  I_nd : NoDup (map fst (flat_map adding (thr s) ++ flat_map releasing (thr s)));
  I_size : size s = ((weight (sized (q s)) + weight (flat_map unsub (thr s))) mod M64)%N;
  I_cap : length (q s) <= c_cap C;
  I_open : opened s = false -> c_kind C = KFile /\ h_closed s = [] /\ h_cur s = []
}.

(** ** List lemmas *)

Lemma thr_split (l : list pc) : forall t p, nth_error l t = Some p ->
  exists l1 l2, l = l1 ++ p :: l2 /\ length l1 = t /\ forall p', upd l t p' = l1 ++ p' :: l2.
Proof.
  induction l as [|x l IH]; intros t p H; [destruct t; discriminate|].
  destruct t as [|t]; cbn in H.
  - injection H as ->. exists [], l. repeat split.
  - destruct (IH t p H) as (l1 & l2 & E1 & E2 & E3). exists (x :: l1), l2.
    split; [rewrite E1; reflexivity|]. split; [cbn; rewrite E2; reflexivity|].
    intros p'. cbn. rewrite E3. reflexivity.
Qed.

Lemma sumN_app a b : sumN (a ++ b) = (sumN a + sumN b)%N.
Proof. induction a as [|x a IH]; cbn; [reflexivity|]. unfold sumN in *. rewrite IH. lia. Qed.

Lemma weight_app a b : weight (a ++ b) = (weight a + weight b)%N.
Proof. unfold weight. rewrite map_app, sumN_app. reflexivity. Qed.

Lemma weight_cons x a : weight (x :: a) = (c_msize C x + weight a)%N.
Proof. reflexivity. Qed.

Lemma set_stage_no n st (l : list entry) : map (@q_no E) (set_stage n st l) = map (@q_no E) l.
Proof.
  unfold set_stage. rewrite map_map. apply map_ext. intros x.
  destruct (Nat.eqb (q_no x) n); reflexivity.
Qed.

Lemma set_stage_ev n st (l : list entry) : map (@q_ev E) (set_stage n st l) = map (@q_ev E) l.
Proof.
  unfold set_stage. rewrite map_map. apply map_ext. intros x.
  destruct (Nat.eqb (q_no x) n); reflexivity.
Qed.

Lemma set_stage_len n st (l : list entry) : length (set_stage n st l) = length l.
Proof. unfold set_stage. apply map_length. Qed.

Lemma set_stage_in n st (l : list entry) m e st' :
  In (mkEntry m e st') (set_stage n st l) <->
  (m = n /\ st' = st /\ exists st0, In (mkEntry n e st0) l) \/
  (m <> n /\ In (mkEntry m e st') l).
Proof.
  unfold set_stage. rewrite in_map_iff. split.
  - intros (x & Ex & Hx). destruct (Nat.eqb_spec (q_no x) n) as [En|En].
    + injection Ex as E1 E2 E3. left. subst. split; [reflexivity|]. split; [reflexivity|].
      exists (q_stage x). destruct x; exact Hx.
    + right. subst x. split; [exact En|exact Hx].
  - intros [(-> & -> & st0 & Hin)|(Hm & Hin)].
    + exists (mkEntry n e st0). cbn. rewrite Nat.eqb_refl. split; [reflexivity|exact Hin].
    + exists (mkEntry m e st'). cbn. destruct (Nat.eqb_spec m n); [contradiction|]. split; [reflexivity|exact Hin].
Qed.

Lemma set_stage_absent n st (l : list entry) : ~ In n (map (@q_no E) l) -> set_stage n st l = l.
Proof.
  unfold set_stage. induction l as [|x l IH]; intros H; [reflexivity|]. cbn.
  destruct (Nat.eqb_spec (q_no x) n) as [En|En]; [exfalso; apply H; left; exact En|].
  f_equal. apply IH. intros Hin. apply H. right. exact Hin.
Qed.

Lemma sized_cons x l : sized (x :: l) = if is_reserved x then sized l else q_ev x :: sized l.
Proof. unfold sized. cbn. destruct (is_reserved x); reflexivity. Qed.

Lemma sized_app a b : sized (a ++ b) = sized a ++ sized b.
Proof. unfold sized. rewrite filter_app, map_app. reflexivity. Qed.

Lemma sized_set n e (l : list entry) : NoDup (map (@q_no E) l) -> In (mkEntry n e Reserved) l ->
  weight (sized (set_stage n Sized l)) = (weight (sized l) + c_msize C e)%N.
Proof.
  induction l as [|x l IH]; intros Hn Hin; [destruct Hin|].
  cbn [map] in Hn. inversion Hn as [|y z Hx Hl]; subst.
  unfold set_stage. cbn [map]. fold (set_stage n Sized l).
  destruct Hin as [->|Hin].
  - cbn [q_no q_ev]. rewrite Nat.eqb_refl. rewrite set_stage_absent by exact Hx.
    rewrite !sized_cons. cbn. lia.
  - destruct (Nat.eqb_spec (q_no x) n) as [En|En].
    + exfalso. apply Hx. rewrite En. apply in_map_iff. exists (mkEntry n e Reserved).
      split; [reflexivity|exact Hin].
    + rewrite !sized_cons. destruct (is_reserved x).
      * apply IH; assumption.
      * rewrite !weight_cons, IH by assumption. lia.
Qed.

Lemma sized_publish n e (l : list entry) : NoDup (map (@q_no E) l) -> In (mkEntry n e Sized) l ->
  sized (set_stage n Published l) = sized l.
Proof.
  induction l as [|x l IH]; intros Hn Hin; [reflexivity|].
  cbn [map] in Hn. inversion Hn as [|y z Hx Hl]; subst.
  unfold set_stage. cbn [map]. fold (set_stage n Published l).
  destruct Hin as [->|Hin].
  - cbn [q_no q_ev]. rewrite Nat.eqb_refl. rewrite set_stage_absent by exact Hx.
    rewrite !sized_cons. reflexivity.
  - destruct (Nat.eqb_spec (q_no x) n) as [En|En].
    + exfalso. apply Hx. rewrite En. apply in_map_iff. exists (mkEntry n e Sized).
      split; [reflexivity|exact Hin].
    + rewrite !sized_cons, IH by assumption. reflexivity.
Qed.

Lemma inv_nodup s : Inv s -> NoDup (map (@q_no E) (q s)).
Proof. intros H. destruct (I_no s H) as (b & Hb & _). rewrite Hb. apply seq_NoDup. Qed.

Lemma inv_lt s x : Inv s -> In x (q s) -> q_no x < length (acc s).
Proof.
  intros H Hx. destruct (I_no s H) as (b & Hb & Hl).
  assert (Hin : In (q_no x) (seq b (length (q s)))).
  { rewrite <- Hb. apply in_map. exact Hx. }
  apply in_seq in Hin. lia.
Qed.

Lemma M64_eq : M64 = (2 ^ 64)%N.
Proof. reflexivity. Qed.

Lemma M64_pos : (M64 <> 0)%N.
Proof. discriminate. Qed.
Global Opaque M64.

Lemma mod_add_l a b : ((a mod M64 + b) mod M64 = (a + b) mod M64)%N.
Proof. apply N.add_mod_idemp_l. exact M64_pos. Qed.

Lemma sub_mod w m : (m <= M64 -> ((w + m) mod M64 + (M64 - m)) mod M64 = w mod M64)%N.
Proof.
  intros H. rewrite N.add_mod_idemp_l by exact M64_pos.
  replace (w + m + (M64 - m))%N with (w + 1 * M64)%N by lia.
  apply N.mod_add. exact M64_pos.
Qed.

(** ** Preservation *)

Hypothesis msize_bound : forall e, (c_msize C e <= M64)%N.

(** A step that changes only the control point of one thread, neutrally. *)
Lemma inv_pc s t p p' : Inv s -> nth_error (thr s) t = Some p ->
  fl p' = fl p -> infl p' = infl p -> unsub p' = unsub p -> adding p' = adding p ->
  releasing p' = releasing p -> Inv (s_thr s t p').
Proof.
  intros H Hp H1 H2 H3 H4 H5. destruct (thr_split _ _ _ Hp) as (l1 & l2 & Et & _ & Eu).
  destruct H. rewrite Et in *. rewrite !flat_map_app in *. cbn [flat_map] in *.
  constructor; cbn [s_thr thr fip acc h_drop h_closed h_cur q closed cur obuf size opened];
    rewrite ?Et, ?Eu, ?flat_map_app; cbn [flat_map]; rewrite ?H1, ?H2, ?H3, ?H4, ?H5; assumption.
Qed.

Lemma inv_flags s ntf' ntr' fin' : Inv s -> Inv (s_flags s (fip s) ntf' ntr' fin').
Proof. intros H. destruct H. constructor; assumption. Qed.

Lemma inv_lock s t k : Inv s -> nth_error (thr s) t = Some (FTas k) -> fip s = false ->
  Inv (s_thr (s_flags s true (ntf s) (ntr s) (fin s)) t (FGet k)).
Proof.
  intros H Hp Hf. destruct (thr_split _ _ _ Hp) as (l1 & l2 & Et & _ & Eu).
  destruct H. rewrite Et, Hf in *. rewrite !flat_map_app in *. cbn [flat_map fl inflush infl unsub adding releasing app] in *.
  constructor; cbn [s_thr s_flags thr fip acc h_drop h_closed h_cur q closed cur obuf size opened];
    rewrite ?Et, ?Eu, ?flat_map_app; cbn [flat_map fl inflush infl unsub adding releasing app]; try assumption.
  apply app_eq_nil in I_flag0. destruct I_flag0 as [-> ->]. reflexivity.
Qed.

Lemma inv_unlock s t k p' : Inv s -> nth_error (thr s) t = Some (FClear k) ->
  fl p' = [] -> infl p' = [] -> unsub p' = [] -> adding p' = [] -> releasing p' = [] ->
  Inv (s_thr (s_flags s false (ntf s) (ntr s) (fin s)) t p').
Proof.
  intros H Hp H1 H2 H3 H4 H5. destruct (thr_split _ _ _ Hp) as (l1 & l2 & Et & _ & Eu).
  destruct H. rewrite Et in *. rewrite !flat_map_app in *. cbn [flat_map fl inflush infl unsub adding releasing app] in *.
  constructor; cbn [s_thr s_flags thr fip acc h_drop h_closed h_cur q closed cur obuf size opened];
    rewrite ?Et, ?Eu, ?flat_map_app; cbn [flat_map]; rewrite ?H1, ?H2, ?H3, ?H4, ?H5; cbn [app]; try assumption.
  change (fl (FClear k)) with [tt] in I_flag0.
  destruct (flat_map fl l1) as [|u a]; destruct (flat_map fl l2) as [|v b];
    destruct (fip s); cbn in I_flag0; try discriminate; try reflexivity.
  - injection I_flag0 as _ E1. destruct a; discriminate.
  - injection I_flag0 as _ E1. destruct a; discriminate.
Qed.

Lemma inv_put s t e : Inv s -> nth_error (thr s) t = Some (PPut e) ->
  length (q s) < c_cap C ->
  Inv (s_thr (s_acc (s_q s (q s ++ [mkEntry (length (acc s)) e Reserved]) (size s)) (acc s ++ [(t, e)]))
             t (PAdd (length (acc s)) e)).
Proof.
  intros H Hp Hc. pose proof (inv_lt s) as Hlt. specialize (fun x => Hlt x H).
  destruct (thr_split _ _ _ Hp) as (l1 & l2 & Et & _ & Eu).
  destruct H. rewrite Et in *. rewrite !flat_map_app in *. cbn [flat_map fl inflush infl unsub adding releasing app] in *.
  constructor; cbn [s_thr s_acc s_q thr fip acc h_drop h_closed h_cur q closed cur obuf size opened];
    rewrite ?Et, ?Eu, ?flat_map_app; cbn [flat_map fl inflush infl unsub adding releasing app]; try assumption.
  - rewrite !map_app, I_all0. cbn. rewrite <- !app_assoc. reflexivity.
  - destruct I_no0 as (b & Hb & Hl). exists b. rewrite map_app, !app_length. cbn [length map].
    rewrite Nat.add_1_r, seq_S, Hb, Hl. split; [reflexivity|]. lia.
  - intros n x. rewrite in_app_iff. rewrite (in_app_iff (q s)). cbn [In].
    specialize (I_add0 n x). rewrite in_app_iff in I_add0. split.
    + intros [Hi|[Hi|Hi]]; [left; tauto|right; left; congruence|left; tauto].
    + intros [Hi|[Hi|[]]]; [tauto|]. right; left; congruence.
  - intros n x. rewrite in_app_iff. rewrite (in_app_iff (q s)). cbn [In].
    specialize (I_rel0 n x). rewrite in_app_iff in I_rel0. split.
    + intros Hi. left. tauto.
    + intros [Hi|[Hi|[]]]; [tauto|]. discriminate.
  - replace (map fst ((flat_map adding l1 ++ (length (acc s), e) :: flat_map adding l2) ++
                      flat_map releasing l1 ++ flat_map releasing l2))
      with (map fst (flat_map adding l1) ++ length (acc s) :: (map fst (flat_map adding l2) ++
            map fst (flat_map releasing l1 ++ flat_map releasing l2)))
      by (rewrite !map_app; cbn [map fst]; rewrite <- !app_assoc; reflexivity).
    apply NoDup_Add with (a := length (acc s)) (l := map fst (flat_map adding l1) ++ map fst (flat_map adding l2) ++ map fst (flat_map releasing l1 ++ flat_map releasing l2)).
    + apply Add_app.
    + split; [rewrite !map_app in *; rewrite <- !app_assoc in *; exact I_nd0|]. rewrite !in_app_iff, !in_map_iff.
      assert (HA : forall x, In x (flat_map adding l1 ++ flat_map adding l2) -> fst x < length (acc s)).
      { intros [n x] Hi. apply I_add0 in Hi. apply Hlt in Hi. exact Hi. }
      assert (HR : forall x, In x (flat_map releasing l1 ++ flat_map releasing l2) -> fst x < length (acc s)).
      { intros [n x] Hi. apply I_rel0 in Hi. apply Hlt in Hi. exact Hi. }
      intros [(x & Ex & Hi)|[(x & Ex & Hi)|(x & Ex & Hi)]].
      * specialize (HA x). rewrite in_app_iff in HA. specialize (HA (or_introl Hi)). lia.
      * specialize (HA x). rewrite in_app_iff in HA. specialize (HA (or_intror Hi)). lia.
      * specialize (HR x Hi). lia.
  - rewrite sized_app. change (sized [mkEntry (length (acc s)) e Reserved]) with (@nil E).
    rewrite app_nil_r. exact I_size0.
  - rewrite app_length. cbn. lia.
Qed.

Lemma nodup_move (a1 a2 r1 r2 : list (nat * E)) n e :
  NoDup (map fst ((a1 ++ (n, e) :: a2) ++ (r1 ++ r2))) ->
  NoDup (map fst ((a1 ++ a2) ++ (r1 ++ (n, e) :: r2))) /\
  ~ In n (map fst (a1 ++ a2)) /\ ~ In n (map fst (r1 ++ r2)).
Proof.
  intros H. rewrite <- app_assoc in H. cbn [app] in H. rewrite map_app in H. cbn [map fst] in H.
  apply NoDup_remove in H. destruct H as [H1 H2].
  rewrite <- map_app in H1, H2. split; [|split].
  - replace ((a1 ++ a2) ++ r1 ++ (n, e) :: r2) with ((a1 ++ a2 ++ r1) ++ (n, e) :: r2)
      by (rewrite <- !app_assoc; reflexivity).
    rewrite map_app. cbn [map fst].
    apply NoDup_Add with (a := n) (l := map fst (a1 ++ a2 ++ r1) ++ map fst r2); [apply Add_app|].
    rewrite <- map_app. rewrite <- !app_assoc. split; assumption.
  - intros Hi. apply H2. rewrite !map_app in *. rewrite !in_app_iff in *. tauto.
  - intros Hi. apply H2. rewrite !map_app in *. rewrite !in_app_iff in *. tauto.
Qed.

Lemma inv_add s t n e : Inv s -> nth_error (thr s) t = Some (PAdd n e) ->
  Inv (s_thr (s_q s (set_stage n Sized (q s)) ((size s + c_msize C e) mod M64)%N) t (PRel n e)).
Proof.
  intros H Hp. pose proof (inv_nodup s H) as Hnd.
  destruct (thr_split _ _ _ Hp) as (l1 & l2 & Et & _ & Eu).
  destruct H. rewrite Et in *. rewrite !flat_map_app in *. cbn [flat_map fl inflush infl unsub adding releasing app] in *.
  destruct (nodup_move _ _ _ _ _ _ I_nd0) as (ND & N1 & N2).
  assert (Hin : In (mkEntry n e Reserved) (q s)).
  { apply I_add0. rewrite in_app_iff. right. left. reflexivity. }
  constructor; cbn [s_thr s_acc s_q thr fip acc h_drop h_closed h_cur q closed cur obuf size opened];
    rewrite ?Et, ?Eu, ?flat_map_app; cbn [flat_map fl inflush infl unsub adding releasing app];
    rewrite ?set_stage_ev, ?set_stage_no, ?set_stage_len; try assumption.
  - intros m x. rewrite set_stage_in. specialize (I_add0 m x). rewrite in_app_iff in *. cbn [In] in I_add0. split.
    + intros Hi. right. assert (m <> n).
      { intros ->. apply N1. apply in_map_iff. exists (n, x). rewrite in_app_iff. auto. }
      split; [assumption|]. tauto.
    + intros [(-> & D & _)|(Hm & Hi)]; [discriminate|].
      apply I_add0 in Hi. destruct Hi as [Hi|[Hi|Hi]]; [tauto| |tauto]. congruence.
  - intros m x. rewrite set_stage_in. specialize (I_rel0 m x). rewrite in_app_iff in *. cbn [In]. split.
    + intros [Hi|[Hi|Hi]].
      * right. assert (m <> n). { intros ->. apply N2. apply in_map_iff. exists (n, x). rewrite in_app_iff. auto. } tauto.
      * injection Hi as <- <-. left. split; [reflexivity|]. split; [reflexivity|]. exists Reserved. exact Hin.
      * right. assert (m <> n). { intros ->. apply N2. apply in_map_iff. exists (n, x). rewrite in_app_iff. auto. } tauto.
    + intros [(-> & _ & st0 & Hi)|(Hm & Hi)]; [|tauto].
      right. left. f_equal.
      assert (Ee : mkEntry n e Reserved = mkEntry n x st0).
      { revert Hi Hin Hnd. clear. induction (q s) as [|y l IH]; intros Hi Hin Hnd; [destruct Hi|].
        cbn in Hnd. inversion Hnd as [|a b Hy Hl]; subst.
        destruct Hi as [->|Hi], Hin as [Hin|Hin].
        - congruence.
        - exfalso. apply Hy. cbn. apply in_map_iff. exists (mkEntry n e Reserved). auto.
        - subst y. exfalso. apply Hy. cbn. apply in_map_iff. exists (mkEntry n x st0). auto.
        - auto. }
      congruence.
  - rewrite (sized_set n e) by assumption. rewrite I_size0, mod_add_l. f_equal. lia.
Qed.

Lemma inv_rel s t n e : Inv s -> nth_error (thr s) t = Some (PRel n e) ->
  Inv (s_thr (s_q s (set_stage n Published (q s)) (size s)) t PDecide).
Proof.
  intros H Hp. pose proof (inv_nodup s H) as Hnd.
  destruct (thr_split _ _ _ Hp) as (l1 & l2 & Et & _ & Eu).
  destruct H. rewrite Et in *. rewrite !flat_map_app in *. cbn [flat_map fl inflush infl unsub adding releasing app] in *.
  assert (Hin : In (mkEntry n e Sized) (q s)).
  { apply I_rel0. rewrite in_app_iff. right. left. reflexivity. }
  assert (ND : NoDup (map fst ((flat_map adding l1 ++ flat_map adding l2) ++
                               (flat_map releasing l1 ++ flat_map releasing l2))) /\
               ~ In n (map fst (flat_map adding l1 ++ flat_map adding l2)) /\
               ~ In n (map fst (flat_map releasing l1 ++ flat_map releasing l2))).
  { rewrite app_assoc, map_app in I_nd0. cbn [map fst] in I_nd0. apply NoDup_remove in I_nd0.
    destruct I_nd0 as [A B]. rewrite <- map_app, <- app_assoc in A, B. split; [exact A|].
    rewrite map_app, in_app_iff in B. tauto. }
  destruct ND as (ND & N1 & N2).
  constructor; cbn [s_thr s_acc s_q thr fip acc h_drop h_closed h_cur q closed cur obuf size opened];
    rewrite ?Et, ?Eu, ?flat_map_app; cbn [flat_map fl inflush infl unsub adding releasing app];
    rewrite ?set_stage_ev, ?set_stage_no, ?set_stage_len; try assumption.
  - intros m x. rewrite set_stage_in. specialize (I_add0 m x). split.
    + intros Hi. right. assert (m <> n).
      { intros ->. apply N1. apply in_map_iff. exists (n, x). auto. } tauto.
    + intros [(-> & D & _)|(Hm & Hi)]; [discriminate|tauto].
  - intros m x. rewrite set_stage_in. specialize (I_rel0 m x). rewrite in_app_iff in *. cbn [In] in I_rel0. split.
    + intros Hi. right. assert (m <> n).
      { intros ->. apply N2. apply in_map_iff. exists (n, x). rewrite in_app_iff. auto. } tauto.
    + intros [(-> & D & _)|(Hm & Hi)]; [discriminate|]. apply I_rel0 in Hi.
      destruct Hi as [Hi|[Hi|Hi]]; [tauto|congruence|tauto].
  - rewrite (sized_publish n e) by assumption. exact I_size0.
Qed.

(** Mutual exclusion: nobody else is in flush(). *)
Lemma others_out s l1 p l2 : Inv s -> thr s = l1 ++ p :: l2 -> inflush p = true ->
  flat_map fl l1 = [] /\ flat_map fl l2 = [] /\ fip s = true.
Proof.
  intros H Et Hp. pose proof (I_flag s H) as F. rewrite Et, flat_map_app in F. cbn [flat_map] in F.
  unfold fl at 2 in F. rewrite Hp in F. destruct (fip s).
  - destruct (flat_map fl l1) as [|u a]; cbn in F.
    + injection F as F. auto.
    + injection F as _ F. destruct a; discriminate.
  - destruct (flat_map fl l1); discriminate.
Qed.

Lemma fl_infl l : flat_map fl l = [] -> flat_map infl l = [] /\ flat_map unsub l = [].
Proof.
  induction l as [|p l IH]; cbn; intros H; [auto|]. apply app_eq_nil in H. destruct H as [H1 H2].
  destruct (IH H2) as [A B]. rewrite A, B.
  destruct p as [| | | | | | | | | | ? [?|] | | | | | | | | | | | | | | | ]; cbn in *; try discriminate; auto.
Qed.

Lemma inv_get s t k x rest : Inv s -> nth_error (thr s) t = Some (FGet k) -> q s = x :: rest ->
  q_stage x = Published -> Inv (s_thr (s_q s rest (size s)) t (FSub k (q_ev x))).
Proof.
  intros H Hp Hq Hs. destruct (thr_split _ _ _ Hp) as (l1 & l2 & Et & _ & Eu).
  destruct (others_out s l1 (FGet k) l2 H Et eq_refl) as (O1 & O2 & Of).
  destruct (fl_infl _ O1) as [O3 O4]. destruct (fl_infl _ O2) as [O5 O6].
  destruct H. rewrite Et, Hq in *. rewrite !flat_map_app in *.
  cbn [flat_map fl inflush infl unsub adding releasing app] in *.
  rewrite O3, O4, O5, O6 in *.
  constructor; cbn [s_thr s_acc s_q thr fip acc h_drop h_closed h_cur q closed cur obuf size opened];
    rewrite ?Et, ?Eu, ?flat_map_app; cbn [flat_map fl inflush infl unsub adding releasing app];
    rewrite ?O3, ?O4, ?O5, ?O6; try assumption.
  - destruct I_no0 as (b & Hb & Hl). exists (S b). cbn [map length seq] in *.
    injection Hb as _ Hb. split; [exact Hb|]. lia.
  - intros n e. rewrite I_add0. cbn [In]. split; [|auto]. intros [->|Hi]; [discriminate|exact Hi].
  - intros n e. rewrite I_rel0. cbn [In]. split; [|auto]. intros [->|Hi]; [discriminate|exact Hi].
  - rewrite I_size0, sized_cons. unfold is_reserved. rewrite Hs. cbn [app]. rewrite !weight_cons.
    f_equal. lia.
  - cbn [length] in I_cap0. lia.
Qed.

Lemma inv_sub s t k e : Inv s -> nth_error (thr s) t = Some (FSub k e) ->
  Inv (s_thr (s_q s (q s) ((size s + (M64 - c_msize C e)) mod M64)%N) t (FWrite k (Some e))).
Proof.
  intros H Hp. destruct (thr_split _ _ _ Hp) as (l1 & l2 & Et & _ & Eu).
  destruct (others_out s l1 (FSub k e) l2 H Et eq_refl) as (O1 & O2 & Of).
  destruct (fl_infl _ O1) as [O3 O4]. destruct (fl_infl _ O2) as [O5 O6].
  destruct H. rewrite Et in *. rewrite !flat_map_app in *.
  cbn [flat_map fl inflush infl unsub adding releasing app] in *.
  rewrite O3, O4, O5, O6 in *.
  constructor; cbn [s_thr s_acc s_q thr fip acc h_drop h_closed h_cur q closed cur obuf size opened];
    rewrite ?Et, ?Eu, ?flat_map_app; cbn [flat_map fl inflush infl unsub adding releasing app];
    rewrite ?O3, ?O4, ?O5, ?O6; try assumption.
  rewrite I_size0. cbn [app]. rewrite weight_cons.
  replace (weight (sized (q s)) + (c_msize C e + weight []))%N with
    (weight (sized (q s)) + weight [] + c_msize C e)%N by lia.
  rewrite sub_mod by apply msize_bound. reflexivity.
Qed.

Lemma inv_write s t k e p' : Inv s -> nth_error (thr s) t = Some (FWrite k (Some e)) ->
  opened s = true ->
  fl p' = [tt] -> infl p' = [] -> unsub p' = [] -> adding p' = [] -> releasing p' = [] ->
  Inv (s_thr (s_out s (opened s) (closed s) (cur s) (obuf s ++ c_render C e)
                      (h_closed s) (h_cur s ++ [e]) (h_drop s)) t p').
Proof.
  intros H Hp Ho H1 H2 H3 H4 H5. destruct (thr_split _ _ _ Hp) as (l1 & l2 & Et & _ & Eu).
  destruct (others_out s l1 _ l2 H Et eq_refl) as (O1 & O2 & Of).
  destruct (fl_infl _ O1) as [O3 O4]. destruct (fl_infl _ O2) as [O5 O6].
  destruct H. rewrite Et in *. rewrite !flat_map_app in *.
  cbn [flat_map fl inflush infl unsub adding releasing app] in *.
  rewrite O3, O4, O5, O6 in *.
  constructor; cbn [s_thr s_out thr fip acc h_drop h_closed h_cur q closed cur obuf size opened];
    rewrite ?Et, ?Eu, ?flat_map_app; cbn [flat_map]; rewrite ?H1, ?H2, ?H3, ?H4, ?H5;
    rewrite ?O1, ?O2, ?O3, ?O4, ?O5, ?O6; cbn [app]; try assumption.
  - rewrite Of. reflexivity.
  - rewrite I_all0. cbn [app]. rewrite <- !app_assoc. reflexivity.
  - rewrite map_app, concat_app, <- I_cur0. cbn. rewrite app_nil_r, app_assoc. reflexivity.
  - intros F. congruence.
Qed.

(** Same, when the file could not be opened. *)
Lemma inv_write_closed s t k e p' : Inv s -> nth_error (thr s) t = Some (FWrite k (Some e)) ->
  opened s = false ->
  fl p' = [tt] -> infl p' = [] -> unsub p' = [] -> adding p' = [] -> releasing p' = [] ->
  Inv (s_thr (s_out s (opened s) (closed s) (cur s) (obuf s)
                      (h_closed s) (h_cur s) (h_drop s ++ [e])) t p').
Proof.
  intros H Hp Ho H1 H2 H3 H4 H5. destruct (thr_split _ _ _ Hp) as (l1 & l2 & Et & _ & Eu).
  destruct (others_out s l1 _ l2 H Et eq_refl) as (O1 & O2 & Of).
  destruct (fl_infl _ O1) as [O3 O4]. destruct (fl_infl _ O2) as [O5 O6].
  destruct H. rewrite Et in *. rewrite !flat_map_app in *.
  cbn [flat_map fl inflush infl unsub adding releasing app] in *.
  rewrite O3, O4, O5, O6 in *.
  constructor; cbn [s_thr s_out thr fip acc h_drop h_closed h_cur q closed cur obuf size opened];
    rewrite ?Et, ?Eu, ?flat_map_app; cbn [flat_map]; rewrite ?H1, ?H2, ?H3, ?H4, ?H5;
    rewrite ?O1, ?O2, ?O3, ?O4, ?O5, ?O6; cbn [app]; try assumption.
  - rewrite Of. reflexivity.
  - rewrite I_all0. destruct (I_open0 Ho) as (_ & -> & ->). cbn [concat app].
    rewrite <- !app_assoc. reflexivity.
Qed.

(** Syslog: accounting and delivery in one step, then the next event. *)
Lemma inv_sub_sys s t k e : Inv s -> nth_error (thr s) t = Some (FSub k e) -> c_kind C = KSyslog ->
  Inv (s_thr (s_out (s_q s (q s) ((size s + (M64 - c_msize C e)) mod M64)%N)
                    (opened s) (closed s) (cur s) (obuf s ++ c_render C e)
                    (h_closed s) (h_cur s ++ [e]) (h_drop s)) t (FGet k)).
Proof.
  intros H Hp Hk. destruct (thr_split _ _ _ Hp) as (l1 & l2 & Et & _ & Eu).
  destruct (others_out s l1 _ l2 H Et eq_refl) as (O1 & O2 & Of).
  destruct (fl_infl _ O1) as [O3 O4]. destruct (fl_infl _ O2) as [O5 O6].
  destruct H. rewrite Et in *. rewrite !flat_map_app in *.
  cbn [flat_map fl inflush infl unsub adding releasing app] in *.
  rewrite O3, O4, O5, O6 in *.
  constructor; cbn [s_thr s_out s_q thr fip acc h_drop h_closed h_cur q closed cur obuf size opened];
    rewrite ?Et, ?Eu, ?flat_map_app; cbn [flat_map fl inflush infl unsub adding releasing app];
    rewrite ?O1, ?O2, ?O3, ?O4, ?O5, ?O6; cbn [app]; try assumption.
  - rewrite Of. reflexivity.
  - rewrite I_all0. cbn [app]. rewrite <- !app_assoc. reflexivity.
  - rewrite map_app, concat_app, <- I_cur0. cbn. rewrite app_nil_r, app_assoc. reflexivity.
  - rewrite I_size0. cbn [app]. rewrite weight_cons.
    replace (weight (sized (q s)) + (c_msize C e + weight []))%N with
      (weight (sized (q s)) + weight [] + c_msize C e)%N by lia.
    rewrite sub_mod by apply msize_bound. reflexivity.
  - intros F. destruct (I_open0 F) as (F' & _). congruence.
Qed.

(** The stream hands bytes to the operating system. *)
Lemma inv_drain s cu ob : Inv s -> cu ++ ob = cur s ++ obuf s ->
  Inv (s_out s (opened s) (closed s) cu ob (h_closed s) (h_cur s) (h_drop s)).
Proof.
  intros H Hc. destruct H. constructor; cbn [s_out thr fip acc h_drop h_closed h_cur q closed cur obuf size opened];
    try assumption. rewrite Hc. assumption.
Qed.

Lemma inv_same s : Inv s ->
  Inv (s_out s true (closed s) (cur s ++ obuf s) [] (h_closed s) (h_cur s) (h_drop s)).
Proof.
  intros H. destruct H. constructor; cbn [s_out thr fip acc h_drop h_closed h_cur q closed cur obuf size opened];
    try assumption; [rewrite app_nil_r; assumption|discriminate].
Qed.

Lemma inv_fresh s : Inv s ->
  Inv (s_out s true (closed s ++ [cur s ++ obuf s]) [] [] (h_closed s ++ [h_cur s]) [] (h_drop s)).
Proof.
  intros H. destruct H. constructor; cbn [s_out thr fip acc h_drop h_closed h_cur q closed cur obuf size opened];
    try assumption.
  - rewrite I_all0, concat_app. cbn. rewrite app_nil_r, <- !app_assoc. reflexivity.
  - rewrite map_app, I_closed0, I_cur0. reflexivity.
  - reflexivity.
  - discriminate.
Qed.

Lemma inv_reopen0 s : Inv s ->
  Inv (s_out s true (closed s) (cur s) (obuf s) (h_closed s) (h_cur s) (h_drop s)).
Proof.
  intros H. destruct H. constructor; cbn [s_out thr fip acc h_drop h_closed h_cur q closed cur obuf size opened];
    try assumption. discriminate.
Qed.

Lemma step_inv s m : Inv s -> Inv (fst (step C s m)).
Proof.
  intros H. destruct m as [t c|n]; cbn [step].
  2:{ cbn [fst]. apply inv_drain; [exact H|].
      rewrite <- app_assoc, firstn_skipn. reflexivity. }
  destruct (nth_error (thr s) t) as [p|] eqn:Hp; [|exact H].
  assert (N : forall p', fl p' = fl p -> infl p' = infl p -> unsub p' = unsub p ->
     adding p' = adding p -> releasing p' = releasing p -> Inv (s_thr s t p'))
    by (intros; eapply inv_pc; eassumption).
  assert (NF : forall p' a b d, fl p' = fl p -> infl p' = infl p -> unsub p' = unsub p ->
     adding p' = adding p -> releasing p' = releasing p -> Inv (s_thr (s_flags s (fip s) a b d) t p'))
    by (intros; eapply inv_pc; [apply inv_flags; exact H|exact Hp|..]; assumption).
  destruct p as [ |e|n e|n e| | | |k|k|k e|k oe|k|k|k|k|k|k| | | | | | | | | ]; cbn [step_thread].
  - (* Idle *)
    destruct c as [l e| | | | |b| |b|r]; cbn [fst]; try exact H.
    + destruct (alive s && negb (t =? 0)); [|exact H].
      destruct (admits (c_level C) l); [|exact H]. apply N; reflexivity.
    + destruct (alive s && negb (t =? 0)); [|exact H]. apply N; reflexivity.
    + destruct (alive s && negb (t =? 0)); [|exact H]. apply N; reflexivity.
    + destruct (alive s && negb (t =? 0)); [|exact H].
      destruct (c_kind C); try exact H. apply N; reflexivity.
    + destruct (clients_idle s && negb (t =? 0)); [|exact H].
      apply N; destruct (c_lat0 C); reflexivity.
  - destruct (Nat.ltb_spec (length (q s)) (c_cap C)) as [Hl|Hl].
    + apply inv_put; assumption.
    + apply N; reflexivity.
  - apply inv_add; assumption.
  - cbn [fst]. eapply inv_rel; eassumption.
  - destruct (c_lat0 C); [apply N; reflexivity|].
    destruct (N.leb _ _); [apply NF|apply N]; reflexivity.
  - apply NF; reflexivity.
  - destruct (c_lat0 C); [apply N|apply NF]; reflexivity.
  - destruct (fip s) eqn:Hf.
    + apply N; destruct k; reflexivity.
    + apply inv_lock; assumption.
  - destruct (q s) as [|x rest] eqn:Hq.
    + apply N; destruct (c_kind C); reflexivity.
    + destruct (q_stage x) eqn:Hs; try exact H. cbn [fst]. apply inv_get; assumption.
  - destruct (c_kind C) eqn:Hk; cbn [fst]; try (apply inv_sub; assumption).
    apply inv_sub_sys; assumption.
  - destruct oe as [e|].
    + destruct (opened s) eqn:Ho; cbn [fst].
      * rewrite <- Ho. eapply inv_write; try eassumption; reflexivity.
      * rewrite <- Ho. eapply inv_write_closed; try eassumption; reflexivity.
    + apply N; destruct (c_kind C); reflexivity.
  - destruct c; try exact H; [destruct spurious; [|destruct (ntf s)];
      [apply N|apply NF|apply N]; destruct (c_kind C); reflexivity|destruct (ntf s); [apply N; reflexivity|exact H]].
  - cbn [fst]. eapply inv_pc; [apply inv_drain; [exact H|rewrite app_nil_r; reflexivity]|exact Hp|..];
      destruct (c_kind C); reflexivity.
  - apply NF; reflexivity.
  - destruct c; try exact H; [destruct spurious; [|destruct (ntr s)];
      [apply N|apply NF|apply N]; reflexivity|destruct (ntr s); [apply N; reflexivity|exact H]].
  - destruct c; try exact H. destruct r; cbn [fst].
    + apply N; reflexivity.
    + eapply inv_pc; [apply inv_same; exact H|exact Hp|..]; reflexivity.
    + destruct (opened s); cbn [fst].
      * eapply inv_pc; [apply inv_fresh; exact H|exact Hp|..]; reflexivity.
      * eapply inv_pc; [apply inv_reopen0; exact H|exact Hp|..]; reflexivity.
  - eapply inv_unlock; [exact H|exact Hp|..]; destruct k; reflexivity.
  - destruct c; try exact H. destruct timeout; [|destruct (ntf s || fin s)]; try exact H; apply N; reflexivity.
  - destruct c; try (apply N; destruct (fin s); reflexivity). destruct spurious; [apply N; reflexivity|apply N; destruct (fin s); reflexivity].
  - apply N; destruct (q s); reflexivity.
  - exact H.
  - apply NF; reflexivity.
  - apply NF; reflexivity.
  - destruct (nth_error (thr s) 0) as [[]|]; try exact H. apply N; reflexivity.
  - destruct (c_kind C); cbn [fst]; [|apply N; reflexivity|apply N; reflexivity].
    eapply inv_pc; [apply inv_drain; [exact H|rewrite app_nil_r; reflexivity]|exact Hp|..]; reflexivity.
  - exact H.
Qed.

Lemma init_inv op n : c_kind C = KFile \/ op = true -> Inv (init C op n).
Proof.
  intros Hk.
  assert (Hz : forall (X : Type) (f : pc -> list X), f Idle = [] ->
     f WDone = [] -> f WWait = [] -> flat_map f (thr (init C op n)) = []).
  { intros X f H1 H2 H3. cbn [init thr flat_map].
    assert (Hr : flat_map f (repeat Idle n) = []).
    { induction n as [|k IH]; [reflexivity|]. cbn. rewrite H1, IH. reflexivity. }
    rewrite Hr, app_nil_r. destruct (c_lat0 C), op; assumption. }
  constructor; rewrite ?Hz by reflexivity; try reflexivity.
  - exists 0. split; reflexivity.
  - cbn. constructor.
  - cbn. lia.
  - cbn. intros ->. destruct Hk as [Hk|Hk]; [|discriminate]. auto.
Qed.

Lemma exec_inv ms : forall s, Inv s -> Inv (fst (exec C s ms)).
Proof.
  induction ms as [|m ms IH]; intros s H; [exact H|]. cbn [exec].
  pose proof (step_inv s m H) as H1. destruct (step C s m) as [s1 l1]. cbn [fst] in H1.
  specialize (IH s1 H1). destruct (exec C s1 ms). exact IH.
Qed.

End Proofs.
