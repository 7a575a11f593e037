(** * Proofs for C119: fair executions finish every call and every destruction *)
From Coq Require Import List Arith NArith Bool Lia.
From Verif Require Import Base LevelModel SinkModel SinkSpec TreeSpec TreeProofs PoolModel PoolSpec.
From Verif Require Import SinkProofs SinkLabels SinkLife SinkProps SinkProgress SinkReturn SinkFair SinkEnd PoolProofs PoolFair.
From Verif Require TreeModel.
Import ListNotations.

Section PoolEnd.
Context {E : Type}.
Variable K : nat.
Variable cf : nat -> cfg E.
Variable op : nat -> bool.
Variable n : nat.

Notation pstep := (pstep K cf n).
Notation pexec := (pexec K cf n).
Notation preach := (preach K cf op n).
Notation PInv := (PInv K cf op n).
Notation resting := (resting K).
Notation place := (place K).

Hypothesis cap_pos : forall id, id < K -> 1 <= c_cap (cf id).
Hypothesis sz : forall id, id < K -> sizes_ok (cf id).
Hypothesis dest : forall id, id < K -> has_dest (cf id) (op id).

(** ** One leaf sink *)
Definition Psi (id : nat) (x : state E) : nat := if alive x then Phi (cf id) x else delta (cf id) x.
Definition KeyX (id k : nat) (x : state E) : Prop := if alive x then Key (cf id) k x else KeyD k x.

Lemma inv_of id x ls : id < K -> reach (cf id) (op id) n x ls -> Inv (cf id) x.
Proof. intros Hid Hr. exact (reach_inv (cf id) (op id) n x ls (sz id Hid) (dest id Hid) Hr). Qed.

Lemma leaf_step id x ls m : id < K -> reach (cf id) (op id) n x ls -> no_call m ->
  let x' := fst (step (cf id) x m) in
  Psi id x' < Psi id x \/
  (Psi id x' = Psi id x /\ forall k, KeyX id k x -> KeyX id k x' /\ nth_error (thr x') k = nth_error (thr x) k) \/
  (spurious m = true /\ alive x = false /\ Psi id x' < Psi id x + 100).
Proof.
  intros Hid Hr Hm x'. unfold Psi, KeyX. destruct (alive x) eqn:Ha.
  - assert (Ha' : alive x' = true) by (apply (alive_step (cf id) (op id)); [exact (reach_life _ _ _ _ _ Hr)|exact Ha|exact Hm]). rewrite Ha'.
    destruct (step_phi (cf id) (cap_pos id Hid) x m (inv_of id x ls Hid Hr) Hm) as [D|[D1 D2]]; [left; exact D|right; left; auto].
  - destruct (end_step (cf id) (cap_pos id Hid) (sz id Hid) (op id) (dest id Hid) n x ls m Hr Hm Ha) as [Ha' D]. fold x' in Ha', D. rewrite Ha'.
    destruct D as [D|[D|[D1 D2]]]; auto.
Qed.

Lemma leaf_bounded id x ls : id < K -> reach (cf id) (op id) n x ls -> Psi id x <= leaf_rounds cf n id.
Proof.
  intros Hid Hr. unfold Psi, leaf_rounds. pose proof (I_cap _ _ (inv_of id x ls Hid Hr)) as Q. pose proof (len_reach n (cf id) _ _ _ Hr) as L.
  set (w := 200 + 100 * S n) in *. destruct (alive x) eqn:Ha.
  - pose proof (Phi_bound (cf id) (cap_pos id Hid) x) as B. rewrite L in B. fold w in B.
    assert (w * (1 + 2 * S n + length (q x)) <= w * (1 + 2 * S n + c_cap (cf id))) by (apply Nat.mul_le_mono_l; lia). lia.
  - pose proof (delta_bound (cf id) (cap_pos id Hid) (op id) n x ls Hr Ha) as B.
    assert (300 * (3 + c_cap (cf id)) <= w * (1 + 2 * S n + c_cap (cf id))) by (apply Nat.mul_le_mono; unfold w; lia). lia.
Qed.

Lemma keyx_moves id k x ls : id < K -> reach (cf id) (op id) n x ls -> KeyX id k x ->
  (exists c, calls c = false /\ (alive x = true \/ c <> CGo true) /\ nth_error (thr (fst (step (cf id) x (MThread k c)))) k <> nth_error (thr x) k) /\
  k <= n /\ free_in x k = false.
Proof.
  intros Hid Hr HK. unfold KeyX in HK. pose proof (len_reach n (cf id) _ _ _ Hr) as L. destruct (alive x) eqn:Ha.
  - destruct (key_moves (cf id) (cap_pos id Hid) k x (inv_of id x ls Hid Hr) HK) as [(c & H0 & H1) H2]. split; [exists c; auto|].
    destruct HK as (p & Hp & _). assert (k < length (thr x)) by (apply nth_error_Some; congruence). split; [lia|].
    unfold free_in. rewrite Hp in *. destruct p; try reflexivity; [congruence|]. exfalso. apply H1. cbn [step]. rewrite Hp. cbn. exact Hp.
  - destruct (keyd_moves (cf id) (sz id Hid) (op id) (dest id Hid) n x ls k Hr Ha HK) as [(c & H0 & H1 & H2) (p & Hp & P1 & P2)]. split; [exists c; auto|].
    assert (k < length (thr x)) by (apply nth_error_Some; congruence). split; [lia|]. unfold free_in. rewrite Hp. destruct p; congruence.
Qed.

Lemma busy_keyx id x ls t : id < K -> reach (cf id) (op id) n x ls -> 1 <= t <= n -> free_in x t = false -> exists k, KeyX id k x.
Proof.
  intros Hid Hr Ht Hf. pose proof (len_reach n (cf id) _ _ _ Hr) as L. pose proof (reach_life _ _ _ _ _ Hr) as HL.
  destruct (nth_error (thr x) t) as [p|] eqn:Hp; [|apply nth_error_None in Hp; lia]. unfold free_in in Hf. rewrite Hp in Hf.
  unfold KeyX. destruct (alive x) eqn:Ha.
  - assert (Ci : clients_idle x = false).
    { destruct (clients_idle x) eqn:Ci; [|reflexivity]. exfalso. unfold clients_idle in Ci. destruct HL as (w & cs & Et & _). rewrite Et in *.
      destruct t as [|t]; [lia|]. cbn [nth_error tl] in *. rewrite forallb_forall in Ci. specialize (Ci _ (nth_error_In _ _ Hp)). destruct p; discriminate. }
    destruct (busy_key (cf id) (cap_pos id Hid) (op id) x (inv_of id x ls Hid Hr) HL Ha Ci) as (k & HK & _). eauto.
  - destruct (destroyer_is (cf id) (op id) x HL Ha) as (u & y & Hu & Hd).
    assert (U0 : u <> 0) by (destruct (life_destroyer (cf id) (op id) x u y HL Hu Hd) as (G & _); exact G).
    destruct (Nat.eq_dec t u) as [->|Hn].
    + rewrite Hu in Hp. injection Hp as <-. apply (keyd_exists (cf id) (op id) n x ls u y Hr Hu Hd). intros ->. discriminate.
    + rewrite (destroyer_others (cf id) (op id) x u y t p HL Hu Hd Hp Hn) in Hf by lia. discriminate.
Qed.

(** ** The measure *)
Definition psis (s : pstate E) : nat := list_sum (map (fun id => Psi id (leaf s id)) (seq 0 K)).
Definition ME (s : pstate E) : nat := calls_left n s * (all_leaves K cf n + 1) + psis s.

Lemma psis_bound s tr : PInv s tr -> psis s <= all_leaves K cf n.
Proof. intros HV. apply sum_le. intros id Hid. apply in_seq in Hid. apply (leaf_bounded id _ (leaf_trace id tr)); [lia|]. apply (V_leaf _ _ _ _ s tr HV). lia. Qed.
Lemma ME_bound s tr : PInv s tr -> ME s < enough K cf n s.
Proof. intros HV. pose proof (psis_bound s tr HV). unfold ME, enough. lia. Qed.

Inductive why (s : pstate E) : agent -> Prop :=
| y_key k id : id < K -> KeyX id k (leaf s id) -> why s (if Nat.eqb k 0 then Worker id else Client k)
| y_next t : todo s t <> [] -> 1 <= t <= n -> (forall u id, 1 <= u <= n -> id < K -> free_in (leaf s id) u = true) -> why s (Client t).

Lemma why_agent s tr a : PInv s tr -> why s a -> In a (agents K n).
Proof.
  intros HV HR. unfold agents. apply in_or_app. destruct HR as [k id Hid HK|t Ht H1 H2].
  - destruct (Nat.eqb_spec k 0) as [->|Hk]; [right; apply in_map, in_seq; lia|left; apply in_map, in_seq].
    destruct (keyx_moves id k _ _ Hid (V_leaf _ _ _ _ s tr HV id Hid) HK) as (_ & G & _). lia.
  - left. apply in_map, in_seq. lia.
Qed.

(** A spurious failure in a sink that is being destroyed. *)
Definition harm (s : pstate E) (m : pmove E) : bool := match m with XLeaf id _ => negb (alive (leaf s id)) && weak m | _ => false end.

Lemma step_ME s tr m : PInv s tr -> goes_on m ->
  ME (fst (pstep s m)) < ME s \/
  (ME (fst (pstep s m)) = ME s /\ forall a, why s a -> why (fst (pstep s m)) a /\ place (fst (pstep s m)) a = place s a) \/
  (weak m = true /\ harm s m = true /\ ME (fst (pstep s m)) < ME s + 100).
Proof.
  intros HV Hm. assert (STAY : forall a, why s a -> why s a /\ place s a = place s a) by auto.
  pose proof (step_pinv K cf op n s tr m HV) as HV'. destruct m as [t o|t|id m|id t]; try destruct Hm; cbn [PoolModel.pstep weak] in *.
  - destruct (todo s t) as [|c cs] eqn:Td; [right; auto|]. destruct (free K s t) eqn:Gf; [|right; auto]. left.
    assert (Ht : 1 <= t <= n).
    { destruct (le_dec 1 t); [destruct (le_dec t n)|]; [lia| |]; rewrite (V_who _ _ _ _ s tr HV t) in Td by lia; discriminate. }
    match goal with |- ME (fst ?x) < _ => set (r := x) in * end.
    assert (TD : todo (fst r) = fun u => if Nat.eqb u t then cs else todo s u).
    { subst r. destruct (Nat.ltb _ _); [rewrite in_leaf_eq|]; reflexivity. }
    assert (CL : calls_left n (fst r) + 1 = calls_left n s).
    { unfold calls_left. pose proof (sum_one (fun u => length (todo s u)) (fun u => length (todo (fst r) u)) (seq 1 n) t (seq_NoDup _ _)) as S.
      cbv beta in S. rewrite TD in S |- *. rewrite Nat.eqb_refl, Td in S. cbn [length] in S.
      assert (In t (seq 1 n)) by (apply in_seq; lia). specialize (S H).
      assert (G : forall y, y <> t -> length (if Nat.eqb y t then cs else todo s y) = length (todo s y)).
      { intros y Hy. destruct (Nat.eqb_spec y t); [contradiction|reflexivity]. }
      specialize (S G). lia. }
    pose proof (psis_bound _ _ HV') as PB. unfold ME. rewrite <- CL. rewrite Nat.mul_add_distr_r. lia.
  - destruct (Nat.ltb_spec id K) as [Hid|Hid]; [|right; auto]. destruct (begins m) eqn:Hb; [right; auto|]. cbn [negb andb] in *.
    rewrite in_leaf_eq in *. cbn [fst] in *. set (x := fst (step (cf id) (leaf s id) m)) in *.
    assert (CL : calls_left n (set_leaf s id x) = calls_left n s) by reflexivity.
    pose proof (sum_one (fun i => Psi i (leaf s i)) (fun i => Psi i (leaf (set_leaf s id x) i)) (seq 0 K) id (seq_NoDup _ _)) as S.
    assert (In id (seq 0 K)) as Hin by (apply in_seq; lia). specialize (S Hin).
    assert (G : forall y, y <> id -> Psi y (leaf (set_leaf s id x) y) = Psi y (leaf s y)) by (intros y Hy; rewrite set_other by exact Hy; reflexivity).
    specialize (S G). cbv beta in S. rewrite set_same in S. fold (psis s) in S. fold (psis (set_leaf s id x)) in S.
    pose proof (leaf_step id (leaf s id) _ m Hid (V_leaf _ _ _ _ s tr HV id Hid) (begins_no_call m Hb)) as D. cbv zeta in D. fold x in D.
    destruct D as [D|[[D1 D2]|[D1 [D3 D2]]]].
    + left. unfold ME. rewrite CL. lia.
    + right. left. split; [unfold ME; rewrite CL; lia|]. intros a HR.
      assert (PL : forall t, 1 <= t <= n -> nth_error (thr x) t = nth_error (thr (leaf s id)) t -> place (set_leaf s id x) (Client t) = place s (Client t)).
      { intros t _ H. apply place_client_same; [reflexivity|]. intros i _. rewrite set_cases. destruct (Nat.eqb_spec i id) as [->|]; [exact H|reflexivity]. }
      destruct HR as [k j Hj HK|t Ht T1 Hf].
      * destruct (keyx_moves j k _ _ Hj (V_leaf _ _ _ _ s tr HV j Hj) HK) as (_ & Kn & Kb). destruct (Nat.eq_dec j id) as [->|Hne].
        -- destruct (D2 k HK) as [D3 D4]. split; [apply (y_key _ k id Hid); rewrite set_same; exact D3|].
           destruct (Nat.eqb_spec k 0) as [->|Hk]; [cbn [PoolSpec.place]; rewrite set_same, D4; reflexivity|apply PL; [lia|exact D4]].
        -- split; [apply (y_key _ k j Hj); rewrite set_other by exact Hne; exact HK|].
           destruct (Nat.eqb_spec k 0) as [->|Hk]; [cbn [PoolSpec.place]; rewrite set_other by exact Hne; reflexivity|]. apply PL; [lia|].
           apply own_place; [exact Hb|]. destruct (free_in (leaf s id) k) eqn:F; [reflexivity|]. exfalso. apply Hne.
           apply (V_one _ _ _ _ s tr HV k j id); auto. lia.
      * split; [|apply PL; [exact T1|apply own_place; [exact Hb|apply Hf; assumption]]]. apply y_next; [exact Ht|exact T1|].
        intros u i Hu Hi. rewrite set_cases. destruct (Nat.eqb_spec i id) as [->|]; [apply free_kept; auto|auto].
    + right. right. split; [exact D1|]. split; [cbn [harm weak]; rewrite D3, D1; reflexivity|]. unfold ME. rewrite CL. lia.
Qed.

Definition weaks (ms : list (pmove E)) : nat := length (filter weak ms).
Lemma weaks_cons m ms : weaks (m :: ms) = (if weak m then 1 else 0) + weaks ms.
Proof. unfold weaks. cbn [filter]. destruct (weak m); reflexivity. Qed.

Lemma exec_ME ms : forall s tr, PInv s tr -> Forall goes_on ms -> ME (fst (pexec s ms)) <= ME s + 100 * weaks ms.
Proof.
  induction ms as [|m ms IH]; intros s tr HV Hm; cbn [PoolModel.pexec]; [cbn; lia|]. inversion Hm as [|? ? M1 M2]; subst.
  pose proof (step_pinv K cf op n s tr m HV) as HV'. pose proof (step_ME s tr m HV M1) as S. rewrite weaks_cons.
  destruct (pstep s m) as [s1 l1] eqn:E1. cbn [fst snd] in *. specialize (IH s1 _ HV' M2). destruct (pexec s1 ms) as [s2 l2]. cbn [fst] in *.
  destruct S as [S|[[S _]|[W [_ S]]]]; [| |rewrite W]; lia.
Qed.

Lemma why_goes s tr a : PInv s tr -> why s a -> can_go K cf n a s /\ ~ (exists t, a = Client t /\ resting s t).
Proof.
  intros HV HR. destruct HR as [k id Hid HK|t Ht T1 Hf].
  - destruct (keyx_moves id k _ _ Hid (V_leaf _ _ _ _ s tr HV id Hid) HK) as [(c & Hc & Hs & H1) [_ Kb]]. split.
    + exists (XLeaf id (MThread k c)). split; [exact I|]. cbn [PoolModel.pstep]. destruct (Nat.ltb_spec id K); [|lia]. rewrite begins_calls, Hc. cbn [negb andb].
      rewrite in_leaf_eq. cbn [fst]. destruct (Nat.eqb_spec k 0) as [->|Hk].
      * cbn [PoolSpec.place]. rewrite set_same. intros G. injection G as G. contradiction.
      * intros G. apply (place_client_leaf K _ _ _ id Hid) in G. rewrite set_same in G. contradiction.
    + intros (t & Ea & _ & R). destruct (Nat.eqb_spec k 0) as [->|Hk]; [discriminate|]. injection Ea as <-. rewrite (R id Hid) in Kb. discriminate.
  - assert (Gf : free K s t = true) by (apply free_all; intros id Hid; apply Hf; assumption). split.
    + exists (XNext t). split; [exact I|]. cbn [PoolModel.pstep]. destruct (todo s t) as [|c cs] eqn:Td; [congruence|]. rewrite Gf.
      intros G. assert (G1 := f_equal fst G). cbn [PoolSpec.place fst] in G1.
      assert (G2 : todo (fst (if target c <? K then in_leaf cf (set_todo s t cs) (target c) (MThread t (begin_call c)) else (set_todo s t cs, []))) t = cs).
      { destruct (Nat.ltb _ _); [rewrite in_leaf_eq|]; cbn [fst todo set_leaf set_todo]; rewrite Nat.eqb_refl; reflexivity. }
      rewrite G2, Td in G1. apply (f_equal (@length _)) in G1. cbn in G1. lia.
    + intros (u & Ea & R & _). injection Ea as <-. contradiction.
Qed.

Lemma turn_ME a s ms : turn K cf n a s ms -> forall tr, PInv s tr -> Forall goes_on ms -> why s a -> ME (fst (pexec s ms)) < ME s + 101 * weaks ms.
Proof.
  induction 1 as [s ms H|s m ms H|s m ms H IH]; intros tr HV Hm HR.
  - destruct (why_goes s tr a HV HR) as [G1 G2]. tauto.
  - inversion Hm as [|? ? M1 M2]; subst. pose proof (step_pinv K cf op n s tr m HV) as HV'. pose proof (step_ME s tr m HV M1) as S. rewrite weaks_cons.
    cbn [PoolModel.pexec]. destruct (pstep s m) as [s1 l1] eqn:E1. cbn [fst snd] in *. pose proof (exec_ME ms s1 _ HV' M2) as L.
    destruct (pexec s1 ms) as [s2 l2]. cbn [fst] in *. destruct S as [S|[[_ S]|[W [_ S]]]]; [lia| |rewrite W; lia]. destruct (S a HR) as [_ S2]. contradiction.
  - inversion Hm as [|? ? M1 M2]; subst. pose proof (step_pinv K cf op n s tr m HV) as HV'. pose proof (step_ME s tr m HV M1) as S. rewrite weaks_cons.
    cbn [PoolModel.pexec]. destruct (pstep s m) as [s1 l1] eqn:E1. cbn [fst snd] in *. pose proof (exec_ME ms s1 _ HV' M2) as L.
    specialize (IH _ HV' M2). destruct (pexec s1 ms) as [s2 l2]. cbn [fst] in *. destruct S as [S|[[S1 S2]|[W [_ S]]]]; [lia| |rewrite W; lia].
    destruct (S2 a HR) as [S3 _]. specialize (IH S3). lia.
Qed.

Lemma why_or_rest s tr : PInv s tr -> all_rest K n s \/ exists a, why s a.
Proof.
  intros HV.
  destruct (list_dec (fun t => free K s t) (seq 1 n)) as [F|(t & T1 & T2)].
  - assert (FF : forall u id, 1 <= u <= n -> id < K -> free_in (leaf s id) u = true).
    { intros u id Hu Hid. assert (In u (seq 1 n)) as I1 by (apply in_seq; lia). specialize (F u I1). apply (proj1 (free_all K s u) F id Hid). }
    destruct (list_dec (fun t => is_nil (todo s t)) (seq 1 n)) as [T|(t & T1 & T2)].
    + left. intros t Ht. split; [|intros id Hid; apply FF; assumption]. assert (In t (seq 1 n)) as I1 by (apply in_seq; lia). specialize (T t I1).
      destruct (todo s t); [reflexivity|discriminate].
    + right. exists (Client t). apply in_seq in T1. apply y_next; [destruct (todo s t); discriminate|lia|exact FF].
  - right. apply in_seq in T1. destruct (list_dec (fun id => free_in (leaf s id) t) (seq 0 K)) as [F|(id & I1 & I2)].
    + exfalso. assert (free K s t = true); [|congruence]. apply free_all. intros id Hid. apply F. apply in_seq. lia.
    + apply in_seq in I1. assert (Hid : id < K) by lia.
      destruct (busy_keyx id _ _ t Hid (V_leaf _ _ _ _ s tr HV id Hid) ltac:(lia) I2) as (k & HK). eexists. apply (y_key s k id Hid HK).
Qed.

Lemma weaks_app a b : weaks (a ++ b) = weaks a + weaks b.
Proof. unfold weaks. rewrite filter_app, app_length. reflexivity. Qed.

Lemma ends_rounds k s ms : prounds K cf n k s ms -> forall tr, PInv s tr ->
  all_rest K n (fst (pexec s ms)) \/ ME (fst (pexec s ms)) + k <= ME s + 101 * weaks ms.
Proof.
  induction 1 as [s|k s ms ms' [HN HT] HR IH]; intros tr HV; [right; cbn; lia|].
  pose proof (exec_pinv K cf op n ms s tr HV) as HV'. destruct (exec_kept K cf op n ms s tr HV HN) as [_ S2].
  pose proof (why_or_rest s tr HV) as RR. rewrite weaks_app.
  assert (TM : forall a, why s a -> ME (fst (pexec s ms)) < ME s + 101 * weaks ms).
  { intros a Ha. apply (turn_ME a s ms) with (tr := tr); auto. apply HT. apply (why_agent s tr a HV Ha). }
  rewrite pexec_app. destruct (pexec s ms) as [s1 l1] eqn:E1. cbn [fst snd] in *. specialize (IH _ HV').
  pose proof (exec_kept K cf op n ms' s1 _ HV' (prounds_on K cf n _ _ _ HR)) as [_ S3].
  destruct (pexec s1 ms') as [s2 l2] eqn:E2. cbn [fst] in *. destruct IH as [IH|IH]; [left; exact IH|].
  destruct RR as [RR|(a & Ha)]; [left; auto|]. specialize (TM a Ha). right. lia.
Qed.

Theorem all_end s tr k ms s' l : preach s tr -> prounds K cf n k s ms -> enough K cf n s + 101 * length (filter weak ms) <= k ->
  pexec s ms = (s', l) -> forall t, 1 <= t <= n -> resting s' t.
Proof.
  intros Hr HR Hk He. pose proof (reach_pinv K cf op n s tr Hr) as HV. pose proof (ends_rounds k s ms HR tr HV) as G. rewrite He in G. cbn [fst] in G.
  destruct G as [G|G]; [exact G|]. pose proof (ME_bound s tr HV). unfold weaks in G. lia.
Qed.

(** ** A way to the end *)
Lemma why_move s tr a : PInv s tr -> why s a -> exists m, goes_on m /\ ME (fst (pstep s m)) < ME s.
Proof.
  intros HV HR. assert (G : exists m, goes_on m /\ harm s m = false /\ place (fst (pstep s m)) a <> place s a).
  { destruct HR as [k id Hid HK|t Ht T1 Hf].
    - destruct (keyx_moves id k _ _ Hid (V_leaf _ _ _ _ s tr HV id Hid) HK) as [(c & Hc & Hs & H1) [_ Kb]].
      exists (XLeaf id (MThread k c)). split; [exact I|]. split.
      { cbn [harm weak spurious]. destruct Hs as [->|Hs]; [reflexivity|]. apply andb_false_iff. right. destruct c as [| | | | |[|]| | |]; try reflexivity. congruence. }
      cbn [PoolModel.pstep]. destruct (Nat.ltb_spec id K); [|lia]. rewrite begins_calls, Hc. cbn [negb andb].
      rewrite in_leaf_eq. cbn [fst]. destruct (Nat.eqb_spec k 0) as [->|Hk].
      + cbn [PoolSpec.place]. rewrite set_same. intros G. injection G as G. contradiction.
      + intros G. apply (place_client_leaf K _ _ _ id Hid) in G. rewrite set_same in G. contradiction.
    - assert (Gf : free K s t = true) by (apply free_all; intros id Hid; apply Hf; assumption).
      exists (XNext t). split; [exact I|]. split; [reflexivity|]. cbn [PoolModel.pstep]. destruct (todo s t) as [|c cs] eqn:Td; [congruence|]. rewrite Gf.
      intros G. assert (G1 := f_equal fst G). cbn [PoolSpec.place fst] in G1.
      assert (G2 : todo (fst (if target c <? K then in_leaf cf (set_todo s t cs) (target c) (MThread t (begin_call c)) else (set_todo s t cs, []))) t = cs).
      { destruct (Nat.ltb _ _); [rewrite in_leaf_eq|]; cbn [fst todo set_leaf set_todo]; rewrite Nat.eqb_refl; reflexivity. }
      rewrite G2, Td in G1. apply (f_equal (@length _)) in G1. cbn in G1. lia. }
  destruct G as (m & G1 & G2 & G3). exists m. split; [exact G1|].
  destruct (step_ME s tr m HV G1) as [S|[[_ S]|[_ [S _]]]]; [exact S| |congruence]. destruct (S a HR) as [_ S2]. contradiction.
Qed.

Lemma all_complete N : forall s tr, ME s <= N -> PInv s tr -> exists ms, Forall goes_on ms /\ all_rest K n (fst (pexec s ms)).
Proof.
  induction N as [|N IH]; intros s tr HN HV; (destruct (why_or_rest s tr HV) as [R|(a & Ha)]; [exists []; split; [constructor|exact R]|]);
    destruct (why_move s tr a HV Ha) as (m & M1 & M2); [lia|].
  pose proof (step_pinv K cf op n s tr m HV) as HV'. destruct (IH (fst (pstep s m)) _ ltac:(lia) HV') as (ms & I1 & I2).
  exists (m :: ms). split; [constructor; assumption|]. cbn [PoolModel.pexec]. destruct (pstep s m) as [s1 l1]. cbn [fst] in *.
  destruct (pexec s1 ms) as [s2 l2]. exact I2.
Qed.

Theorem completable_end s tr : preach s tr -> exists ms s' l, Forall goes_on ms /\ pexec s ms = (s', l) /\ forall t, 1 <= t <= n -> resting s' t.
Proof.
  intros Hr. destruct (all_complete (ME s) s tr (le_n _) (reach_pinv K cf op n s tr Hr)) as (ms & H1 & H2).
  exists ms, (fst (pexec s ms)), (snd (pexec s ms)). split; [exact H1|]. split; [apply surjective_pairing|exact H2].
Qed.

Lemma gone_step s m id : gone s id -> gone (fst (pstep s m)) id.
Proof.
  intros (u & Hu).
  assert (IN : forall (s0 : pstate E) i mv, leaf s0 = leaf s -> gone (set_leaf s0 i (fst (step (cf i) (leaf s0 i) mv))) id).
  { intros s0 i mv E0. exists u. rewrite set_cases. destruct (Nat.eqb_spec id i) as [->|]; [apply dead_stays|]; rewrite E0; exact Hu. }
  assert (ST : forall s0 : pstate E, leaf s0 = leaf s -> gone s0 id) by (intros s0 E0; exists u; rewrite E0; exact Hu).
  destruct m as [t o|t|i m|i t]; cbn [PoolModel.pstep].
  - destruct (is_thread n t && is_nil (todo s t) && free K s t && usable K cf s (sink_of o)); [destruct (plan o)|]; apply ST; reflexivity.
  - destruct (todo s t) as [|c cs]; [apply ST; reflexivity|]. destruct (free K s t); [|apply ST; reflexivity].
    destruct (Nat.ltb _ _); [rewrite in_leaf_eq; cbn [fst]; apply IN; reflexivity|apply ST; reflexivity].
  - destruct (Nat.ltb i K && negb (begins m)); [rewrite in_leaf_eq; cbn [fst]; apply IN; reflexivity|apply ST; reflexivity].
  - destruct (is_thread n t && is_nil (todo s t) && free K s t && Nat.ltb i K && unused n s i); [rewrite in_leaf_eq; cbn [fst]; apply IN; reflexivity|apply ST; reflexivity].
Qed.
Lemma gone_exec ms : forall s id, gone s id -> gone (fst (pexec s ms)) id.
Proof.
  induction ms as [|m ms IH]; intros s id H; [exact H|]. cbn [PoolModel.pexec]. pose proof (gone_step s m id H) as H1.
  destruct (pstep s m) as [s1 l1]. specialize (IH s1 id H1). destruct (pexec s1 ms). exact IH.
Qed.

(** A sink that is no longer alive and in which no client is busy is destroyed. *)
Lemma rest_gone s tr id : PInv s tr -> id < K -> all_rest K n s -> alive (leaf s id) = false -> gone s id.
Proof.
  intros HV Hid HR Ha. pose proof (V_leaf _ _ _ _ s tr HV id Hid) as Hr. pose proof (reach_life _ _ _ _ _ Hr) as HL. pose proof (len_reach n (cf id) _ _ _ Hr) as L.
  destruct (destroyer_is (cf id) (op id) _ HL Ha) as (t & p & Hp & Hd). destruct (life_destroyer _ _ _ _ _ HL Hp Hd) as (Ht & _).
  assert (t < length (thr (leaf s id))) by (apply nth_error_Some; congruence).
  destruct (HR t ltac:(lia)) as [_ R]. specialize (R id Hid). unfold free_in in R. rewrite Hp in R. exists t. destruct p; try discriminate. exact Hp.
Qed.

Lemma destroy_begins s tr id : PInv s tr -> id < K -> 1 <= n -> all_rest K n s -> alive (leaf s id) = true ->
  alive (leaf (fst (pstep s (XDestroy id 1))) id) = false.
Proof.
  intros HV Hid Hn HR Ha. pose proof (V_leaf _ _ _ _ s tr HV id Hid) as Hr. pose proof (reach_life _ _ _ _ _ Hr) as HL. pose proof (len_reach n (cf id) _ _ _ Hr) as L.
  cbn [PoolModel.pstep]. assert (B : is_thread n 1 && is_nil (todo s 1) && free K s 1 && Nat.ltb id K && unused n s id = true).
  { destruct (HR 1 ltac:(lia)) as [R1 R2]. rewrite R1. unfold is_thread. destruct (Nat.leb_spec 1 n); [|lia]. cbn [Nat.leb is_nil andb].
    rewrite (proj2 (free_all K s 1) R2). destruct (Nat.ltb_spec id K); [|lia]. cbn [andb]. unfold unused. apply forallb_forall. intros t T.
    apply in_seq in T. destruct (HR t ltac:(lia)) as [-> _]. reflexivity. }
  rewrite B, in_leaf_eq. cbn [fst]. rewrite set_same.
  assert (Ci : clients_idle (leaf s id) = true).
  { unfold clients_idle. apply forallb_forall. intros p Hp. apply In_nth_error in Hp. destruct Hp as (i & Hp).
    assert (Hp1 : nth_error (thr (leaf s id)) (S i) = Some p) by (destruct (thr (leaf s id)); [destruct i; discriminate|exact Hp]).
    assert (S i < length (thr (leaf s id))) by (apply nth_error_Some; congruence).
    destruct (HR (S i) ltac:(lia)) as [_ R]. specialize (R id Hid). unfold free_in in R. rewrite Hp1 in R. destruct p; try discriminate; [reflexivity|].
    rewrite (not_alive (cf id) (op id) _ (S i) Dead HL Hp1 eq_refl) in Ha. discriminate. }
  assert (H1 : nth_error (thr (leaf s id)) 1 = Some Idle).
  { destruct (nth_error (thr (leaf s id)) 1) as [p|] eqn:Hp; [|apply nth_error_None in Hp; lia]. unfold clients_idle in Ci. rewrite forallb_forall in Ci.
    destruct (thr (leaf s id)) as [|w cs]; [discriminate|]. cbn [nth_error tl] in *. specialize (Ci p (nth_error_In cs 0 Hp)). destruct p; try discriminate. reflexivity. }
  pose proof (step_life (cf id) (op id) _ (MThread 1 CDestroy) HL) as HL'.
  apply (not_alive (cf id) (op id) _ 1 (if c_lat0 (cf id) then FTas KDestroy else DStore) HL').
  - cbn [step]. rewrite H1. cbn [step_thread]. rewrite Ci. cbn [Nat.eqb negb andb fst s_thr thr]. apply nth_error_upd. lia.
  - destruct (c_lat0 (cf id)); reflexivity.
Qed.

Lemma stays_down ms : forall s tr k, k < K -> PInv s tr -> alive (leaf s k) = false -> Forall goes_on ms -> alive (leaf (fst (pexec s ms)) k) = false.
Proof.
  induction ms as [|m ms IHm]; intros s2 l k Hk V D C1; [exact D|]. inversion C1 as [|? ? M1 M2]; subst.
  pose proof (step_pinv K cf op n s2 l m V) as V'.
  assert (D' : alive (leaf (fst (pstep s2 m)) k) = false).
  { pose proof (V_leaf _ _ _ _ s2 l V k ltac:(lia)) as Hr. pose proof (reach_life _ _ _ _ _ Hr) as HL.
    destruct m as [t o|t|i m|i t]; try destruct M1; cbn [PoolModel.pstep].
    - destruct (todo s2 t) as [|c cs] eqn:Td; [exact D|]. destruct (free K s2 t) eqn:Gf; [|exact D]. destruct (Nat.ltb_spec (target c) K) as [Hc|]; [|exact D].
      rewrite in_leaf_eq. cbn [fst]. rewrite set_cases. destruct (Nat.eqb_spec k (target c)) as [Hkc|]; [|exact D]. exfalso.
      pose proof (V_alive _ _ _ _ s2 l V t c ltac:(rewrite Td; apply in_eq) Hc) as G. rewrite <- Hkc in G. congruence.
    - destruct (Nat.ltb_spec i K) as [Hi|]; [|exact D]. destruct (begins m) eqn:Hb; [exact D|]. cbn [negb andb]. rewrite in_leaf_eq. cbn [fst].
      rewrite set_cases. destruct (Nat.eqb_spec k i) as [<-|]; [|exact D].
      destruct (end_step (cf k) (cap_pos k ltac:(lia)) (sz k ltac:(lia)) (op k) (dest k ltac:(lia)) n _ _ m Hr (begins_no_call m Hb) D) as [G _]. exact G. }
  cbn [PoolModel.pexec]. destruct (pstep s2 m) as [a la]. cbn [fst snd] in *. specialize (IHm a _ k Hk V' D' M2). destruct (pexec a ms). exact IHm.
Qed.

Lemma all_closed : 1 <= n -> forall k s tr, k <= K -> PInv s tr ->
  exists ms, Forall closing ms /\ all_rest K n (fst (pexec s ms)) /\ forall id, id < k -> gone (fst (pexec s ms)) id.
Proof.
  intros Hn. induction k as [|k IH]; intros s tr Hk HV.
  - destruct (all_complete (ME s) s tr (le_n _) HV) as (ms & H1 & H2). exists ms. split; [|split; [exact H2|intros id Hid; lia]].
    eapply Forall_impl; [|exact H1]. intros [| | |]; cbn; auto.
  - destruct (IH s tr ltac:(lia) HV) as (ms & I1 & I2 & I3). pose proof (exec_pinv K cf op n ms s tr HV) as V1.
    set (s1 := fst (pexec s ms)) in *.
    destruct (alive (leaf s1 k)) eqn:Ha.
    + pose proof (step_pinv K cf op n s1 _ (XDestroy k 1) V1) as V2. pose proof (destroy_begins s1 _ k V1 ltac:(lia) Hn I2 Ha) as D.
      set (s2 := fst (pstep s1 (XDestroy k 1))) in *.
      destruct (all_complete (ME s2) s2 _ (le_n _) V2) as (ms2 & C1 & C2). pose proof (exec_pinv K cf op n ms2 s2 _ V2) as V3.
      assert (EE : fst (pexec s (ms ++ XDestroy k 1 :: ms2)) = fst (pexec s2 ms2)).
      { rewrite pexec_app. unfold s2, s1. destruct (pexec s ms) as [a la]. cbn [fst]. cbn [PoolModel.pexec]. destruct (pstep a (XDestroy k 1)) as [b lb]. cbn [fst].
        destruct (pexec b ms2) as [c lc]. reflexivity. }
      exists (ms ++ XDestroy k 1 :: ms2). rewrite EE. split.
      { apply Forall_app. split; [exact I1|]. constructor; [exact I|]. eapply Forall_impl; [|exact C1]. intros [| | |]; cbn; auto. }
      split; [exact C2|]. intros id Hid. destruct (Nat.eq_dec id k) as [->|Hne].
      * assert (A3 : alive (leaf (fst (pexec s2 ms2)) k) = false).
        { exact (stays_down ms2 s2 _ k ltac:(lia) V2 D C1). }
        exact (rest_gone _ _ k V3 ltac:(lia) C2 A3).
      * apply gone_exec. unfold s2. apply gone_step. apply I3. lia.
    + exists ms. split; [exact I1|]. split; [exact I2|]. intros id Hid. destruct (Nat.eq_dec id k) as [->|Hne]; [|apply I3; lia].
      exact (rest_gone s1 _ k V1 ltac:(lia) I2 Ha).
Qed.

Theorem can_close s tr : 1 <= n -> preach s tr ->
  exists ms s' l, Forall closing ms /\ pexec s ms = (s', l) /\ (forall t, 1 <= t <= n -> resting s' t) /\ forall id, id < K -> gone s' id.
Proof.
  intros Hn Hr. destruct (all_closed Hn K s tr (le_n _) (reach_pinv K cf op n s tr Hr)) as (ms & H1 & H2 & H3).
  exists ms, (fst (pexec s ms)), (snd (pexec s ms)). split; [exact H1|]. split; [apply surjective_pairing|]. auto.
Qed.

End PoolEnd.

(** What is destroyed has been seen to be. *)
Lemma classic_dead {E : Type} (p : pc E) : p = Dead \/ p <> Dead.
Proof. destruct p; auto; right; discriminate. Qed.
Ltac split_step :=
  repeat match goal with
  | |- context [match ?x with _ => _ end] =>
      match type of x with
      | choice _ => destruct x
      | bool => destruct x eqn:?
      | list _ => destruct x eqn:?
      | option _ => destruct x eqn:?
      | stage => destruct x eqn:?
      | sink_kind => destruct x eqn:?
      | reopen => destruct x
      | SinkModel.pc _ => destruct x eqn:?
      end
  end.
Lemma dead_label {E : Type} (C : cfg E) op n t s ls : reach C op n s ls -> nth_error (thr s) t = Some Dead -> In (LDestroyed t) ls.
Proof.
  revert s ls. apply (reach_ind C op n (fun s ls => nth_error (thr s) t = Some Dead -> In (LDestroyed t) ls)).
  - intros H. cbn [init thr] in H. exfalso. destruct t as [|t]; cbn [nth_error] in H.
    + destruct (c_lat0 C); [discriminate|]. destruct op; discriminate.
    + apply nth_error_In, repeat_spec in H. discriminate.
  - intros s ls m _ IH H. apply in_or_app. destruct m as [u c|k]; [|left; apply IH; exact H].
    cbn [step] in *. destruct (nth_error (thr s) u) as [p|] eqn:Hp; [|left; apply IH; exact H].
    destruct (Nat.eq_dec t u) as [->|Hn].
    2:{ left. apply IH. destruct (step_own C s u c p Hp) as (_ & p' & Ep). rewrite Ep, nth_error_upd_other in H by exact Hn. exact H. }
    assert (Hlt : u < length (thr s)) by (apply nth_error_Some; congruence).
    destruct (classic_dead p) as [->|Hd]; [left; apply IH; exact Hp|]. right.
    assert (G : forall p', thr (fst (step_thread C s u c p)) = upd (thr s) u p' -> p' = Dead).
    { intros p' Ep. rewrite Ep, nth_error_upd in H by exact Hlt. congruence. }
    clear IH. revert G H. destruct p as [ |e|x e|x e| | | |k|k|k e|k oe|k|k|k|k|k|k| | | | | | | | | ]; try congruence; cbn [step_thread]; split_step;
      cbn [fst snd s_thr s_q s_acc s_flags s_out thr]; intros G H; try (right; left; reflexivity); try (left; reflexivity); exfalso;
      first [ congruence
            | specialize (G _ eq_refl); first [discriminate | destruct k; discriminate | destruct (c_kind C); discriminate | destruct (fin s); discriminate | destruct (c_lat0 C); discriminate]
            | rewrite Hp in H; discriminate ].
Qed.
