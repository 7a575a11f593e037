(** * Proofs for C102: fair executions finish every call on composites *)
From Coq Require Import List Arith NArith Bool Lia.
From Verif Require Import Base LevelModel SinkModel SinkSpec TreeSpec TreeProofs PoolModel PoolSpec.
From Verif Require Import SinkProofs SinkLabels SinkLife SinkProps SinkProgress SinkReturn SinkFair PoolProofs.
From Verif Require TreeModel.
Import ListNotations.

Section PoolFair.
Context {E : Type}.
Variable K : nat.
Variable cf : nat -> cfg E.
Variable op : nat -> bool.
Variable n : nat.

Notation pstep := (pstep K cf n).
Notation pexec := (pexec K cf n).
Notation preach := (preach K cf op n).
Notation PInv := (PInv K cf op n).
Notation resting := (resting K).
Notation place := (place K).

Hypothesis cap_pos : forall id, id < K -> 1 <= c_cap (cf id).
Hypothesis sz : forall id, id < K -> sizes_ok (cf id).
Hypothesis dest : forall id, id < K -> has_dest (cf id) (op id).

(** ** Sums *)
Lemma sum_le (f g : nat -> nat) l : (forall x, In x l -> f x <= g x) -> list_sum (map f l) <= list_sum (map g l).
Proof using Type.
  induction l as [|x l IH]; intros H; [reflexivity|]. cbn [map list_sum fold_right]. unfold list_sum in *. cbn.
  pose proof (H x (or_introl eq_refl)). specialize (IH (fun y Hy => H y (or_intror Hy))). lia.
Qed.
(** Only one summand changes. *)
Lemma sum_one (f g : nat -> nat) l x : NoDup l -> In x l -> (forall y, y <> x -> g y = f y) ->
  list_sum (map g l) + f x = list_sum (map f l) + g x.
Proof using Type.
  induction l as [|a l IH]; intros ND Hx H; [destruct Hx|]. inversion ND as [|? ? N1 N2]; subst. cbn. unfold list_sum in *.
  destruct Hx as [->|Hx].
  - assert (G : map g l = map f l). { apply map_ext_in. intros y Hy. apply H. intros ->. contradiction. } rewrite G. lia.
  - specialize (IH N2 Hx H). rewrite (H a) by (intros ->; contradiction). lia.
Qed.
Lemma sum_same (f g : nat -> nat) l : (forall y, In y l -> g y = f y) -> list_sum (map g l) = list_sum (map f l).
Proof using Type. intros H. f_equal. apply map_ext_in. exact H. Qed.

(** ** The measure *)
Definition phis (s : pstate E) : nat := list_sum (map (fun id => Phi (cf id) (leaf s id)) (seq 0 K)).
Definition M (s : pstate E) : nat := calls_left n s * (all_leaves K cf n + 1) + phis s.

Lemma leaf_bound s tr id : PInv s tr -> id < K -> Phi (cf id) (leaf s id) <= leaf_rounds cf n id.
Proof.
  intros HV Hid. pose proof (V_leaf _ _ _ _ s tr HV id Hid) as HL. pose proof (Phi_bound (cf id) (cap_pos id Hid) (leaf s id)) as B.
  pose proof (len_reach n (cf id) _ _ _ HL) as L. pose proof (I_cap _ _ (reach_inv (cf id) (op id) n _ _ (sz id Hid) (dest id Hid) HL)) as Q.
  rewrite L in B. unfold leaf_rounds. set (w := 200 + 100 * S n) in *.
  assert (w * (1 + 2 * S n + length (q (leaf s id))) <= w * (1 + 2 * S n + c_cap (cf id))) by (apply Nat.mul_le_mono_l; lia). lia.
Qed.
Lemma phis_bound s tr : PInv s tr -> phis s <= all_leaves K cf n.
Proof. intros HV. apply sum_le. intros id Hid. apply in_seq in Hid. apply (leaf_bound s tr id HV). lia. Qed.
Lemma M_bound s tr : PInv s tr -> M s < enough K cf n s.
Proof. intros HV. pose proof (phis_bound s tr HV). unfold M, enough. lia. Qed.

(** ** What keeps the system waiting *)
Definition busy (s : pstate E) (t : nat) (id : nat) : Prop := id < K /\ free_in (leaf s id) t = false.

Inductive reason (s : pstate E) : agent -> Prop :=
| r_key k id : id < K -> Key (cf id) k (leaf s id) -> reason s (if Nat.eqb k 0 then Worker id else Client k)
| r_next t : todo s t <> [] -> 1 <= t <= n -> (forall u id, 1 <= u <= n -> id < K -> free_in (leaf s id) u = true) -> reason s (Client t).

Lemma place_client_leaf (s s' : pstate E) t id : id < K -> place s' (Client t) = place s (Client t) ->
  nth_error (thr (leaf s' id)) t = nth_error (thr (leaf s id)) t.
Proof using Type.
  intros Hid H. cbn [PoolSpec.place] in H. injection H as _ H. 
  assert (G := f_equal (fun l => nth_error l id) H). cbv beta in G. rewrite !nth_error_map in G.
  rewrite (nth_error_nth' _ 0) in G by (rewrite seq_length; exact Hid). rewrite seq_nth in G by exact Hid. cbn in G. injection G as G. exact G.
Qed.

Lemma place_client_same (s s' : pstate E) t : todo s' t = todo s t ->
  (forall id, id < K -> nth_error (thr (leaf s' id)) t = nth_error (thr (leaf s id)) t) -> place s' (Client t) = place s (Client t).
Proof using Type.
  intros H1 H2. cbn [PoolSpec.place]. rewrite H1. f_equal. apply map_ext_in. intros id Hid. apply in_seq in Hid. apply H2. lia.
Qed.

Lemma own_place C (x : state E) m t : begins m = false -> free_in x t = true ->
  nth_error (thr (fst (step C x m))) t = nth_error (thr x) t.
Proof using Type.
  intros Hb Hf. destruct m as [u c|k]; [|reflexivity]. destruct (Nat.eq_dec t u) as [->|Hn]; [|apply other_place; exact Hn].
  rewrite free_stays; [reflexivity|rewrite <- (begins_calls u); exact Hb|exact Hf].
Qed.

Lemma leaf_inv s tr id : PInv s tr -> id < K -> Inv (cf id) (leaf s id).
Proof. intros HV Hid. apply (reach_inv (cf id) (op id) n _ _ (sz id Hid) (dest id Hid) (V_leaf _ _ _ _ s tr HV id Hid)). Qed.
Lemma leaf_life s tr id : PInv s tr -> id < K -> Life (cf id) (op id) (leaf s id).
Proof. intros HV Hid. apply (reach_life (cf id) (op id) n _ _ (V_leaf _ _ _ _ s tr HV id Hid)). Qed.

Lemma key_busy s tr k id : PInv s tr -> id < K -> Key (cf id) k (leaf s id) -> k <= n /\ free_in (leaf s id) k = false.
Proof.
  intros HV Hid HK. destruct (key_moves (cf id) (cap_pos id Hid) k (leaf s id) (leaf_inv s tr id HV Hid) HK) as [(c & _ & H1) H2].
  destruct HK as (p & Hp & _). split.
  - assert (k < length (thr (leaf s id))) by (apply nth_error_Some; congruence). rewrite (len_reach n (cf id) _ _ _ (V_leaf _ _ _ _ s tr HV id Hid)) in H. lia.
  - unfold free_in. rewrite Hp in *. destruct p; try reflexivity; [congruence|]. exfalso. apply H1. cbn [step]. rewrite Hp. cbn. exact Hp.
Qed.

Lemma reason_agent s tr a : PInv s tr -> reason s a -> In a (agents K n).
Proof.
  intros HV HR. unfold agents. apply in_or_app. destruct HR as [k id Hid HK|t Ht H1 H2].
  - destruct (Nat.eqb_spec k 0) as [->|Hk]; [right; apply in_map, in_seq; lia|left; apply in_map, in_seq].
    destruct (key_busy s tr k id HV Hid HK). lia.
  - left. apply in_map, in_seq. lia.
Qed.

Lemma step_M s tr m : PInv s tr -> goes_on m ->
  M (fst (pstep s m)) < M s \/
  (M (fst (pstep s m)) = M s /\ forall a, reason s a -> reason (fst (pstep s m)) a /\ place (fst (pstep s m)) a = place s a).
Proof.
  intros HV Hm. assert (STAY : forall a, reason s a -> reason s a /\ place s a = place s a) by auto.
  pose proof (step_pinv K cf op n s tr m HV) as HV'. destruct m as [t o|t|id m|id t]; try destruct Hm; cbn [PoolModel.pstep] in *.
  - destruct (todo s t) as [|c cs] eqn:Td; [right; auto|]. destruct (free K s t) eqn:Gf; [|right; auto]. left.
    assert (Ht : 1 <= t <= n).
    { destruct (le_dec 1 t); [destruct (le_dec t n)|]; [lia| |]; rewrite (V_who _ _ _ _ s tr HV t) in Td by lia; discriminate. }
    match goal with |- M (fst ?x) < _ => set (r := x) in * end.
    assert (TD : todo (fst r) = fun u => if Nat.eqb u t then cs else todo s u).
    { subst r. destruct (Nat.ltb _ _); [rewrite in_leaf_eq|]; reflexivity. }
    assert (CL : calls_left n (fst r) + 1 = calls_left n s).
    { unfold calls_left. pose proof (sum_one (fun u => length (todo s u)) (fun u => length (todo (fst r) u)) (seq 1 n) t (seq_NoDup _ _)) as S.
      cbv beta in S. rewrite TD in S |- *. rewrite Nat.eqb_refl, Td in S. cbn [length] in S.
      assert (In t (seq 1 n)) by (apply in_seq; lia). specialize (S H).
      assert (G : forall y, y <> t -> length (if Nat.eqb y t then cs else todo s y) = length (todo s y)).
      { intros y Hy. destruct (Nat.eqb_spec y t); [contradiction|reflexivity]. }
      specialize (S G). lia. }
    pose proof (phis_bound _ _ HV') as PB. unfold M. rewrite <- CL. rewrite Nat.mul_add_distr_r. lia.
  - destruct (Nat.ltb_spec id K) as [Hid|Hid]; [|right; auto]. destruct (begins m) eqn:Hb; [right; auto|]. cbn [negb andb] in *.
    rewrite in_leaf_eq in *. cbn [fst] in *. set (x := fst (step (cf id) (leaf s id) m)) in *.
    assert (CL : calls_left n (set_leaf s id x) = calls_left n s) by reflexivity.
    pose proof (sum_one (fun i => Phi (cf i) (leaf s i)) (fun i => Phi (cf i) (leaf (set_leaf s id x) i)) (seq 0 K) id (seq_NoDup _ _)) as S.
    assert (In id (seq 0 K)) as Hin by (apply in_seq; lia). specialize (S Hin).
    assert (G : forall y, y <> id -> Phi (cf y) (leaf (set_leaf s id x) y) = Phi (cf y) (leaf s y)) by (intros y Hy; rewrite set_other by exact Hy; reflexivity).
    specialize (S G). cbv beta in S. rewrite set_same in S. fold (phis s) in S. fold (phis (set_leaf s id x)) in S.
    pose proof (step_phi (cf id) (cap_pos id Hid) (leaf s id) m (leaf_inv s tr id HV Hid) (begins_no_call m Hb)) as D. fold x in D.
    destruct D as [D|[D1 D2]].
    + left. unfold M. rewrite CL. lia.
    + right. split; [unfold M; rewrite CL; lia|]. intros a HR.
      assert (PL : forall t, 1 <= t <= n -> nth_error (thr x) t = nth_error (thr (leaf s id)) t -> place (set_leaf s id x) (Client t) = place s (Client t)).
      { intros t _ H. apply place_client_same; [reflexivity|]. intros i _. rewrite set_cases. destruct (Nat.eqb_spec i id) as [->|]; [exact H|reflexivity]. }
      destruct HR as [k j Hj HK|t Ht T1 Hf].
      * pose proof (key_busy s tr k j HV Hj HK) as [Kn Kb]. destruct (Nat.eq_dec j id) as [->|Hne].
        -- destruct (D2 k HK) as [D3 D4]. split; [apply (r_key _ k id Hid); rewrite set_same; exact D3|].
           destruct (Nat.eqb_spec k 0) as [->|Hk]; [cbn [PoolSpec.place]; rewrite set_same, D4; reflexivity|apply PL; [lia|exact D4]].
        -- split; [apply (r_key _ k j Hj); rewrite set_other by exact Hne; exact HK|].
           destruct (Nat.eqb_spec k 0) as [->|Hk]; [cbn [PoolSpec.place]; rewrite set_other by exact Hne; reflexivity|]. apply PL; [lia|].
           apply own_place; [exact Hb|]. destruct (free_in (leaf s id) k) eqn:F; [reflexivity|]. exfalso. apply Hne.
           apply (V_one _ _ _ _ s tr HV k j id); auto. lia.
      * split; [|apply PL; [exact T1|apply own_place; [exact Hb|apply Hf; assumption]]]. apply r_next; [exact Ht|exact T1|].
        intros u i Hu Hi. rewrite set_cases. destruct (Nat.eqb_spec i id) as [->|]; [apply free_kept; auto|auto].
Qed.

Lemma exec_M ms : forall s tr, PInv s tr -> Forall goes_on ms -> M (fst (pexec s ms)) <= M s.
Proof.
  induction ms as [|m ms IH]; intros s tr HV Hm; cbn [PoolModel.pexec]; [cbn; lia|]. inversion Hm as [|? ? M1 M2]; subst.
  pose proof (step_pinv K cf op n s tr m HV) as HV'. pose proof (step_M s tr m HV M1) as S.
  destruct (pstep s m) as [s1 l1] eqn:E1. cbn [fst snd] in *. specialize (IH s1 _ HV' M2). destruct (pexec s1 ms) as [s2 l2]. cbn [fst] in *.
  destruct S as [S|[S _]]; lia.
Qed.

Lemma reason_goes s tr a : PInv s tr -> reason s a -> can_go K cf n a s /\ ~ (exists t, a = Client t /\ resting s t).
Proof.
  intros HV HR. destruct HR as [k id Hid HK|t Ht T1 Hf].
  - destruct (key_moves (cf id) (cap_pos id Hid) k (leaf s id) (leaf_inv s tr id HV Hid) HK) as [(c & Hc & H1) _]. pose proof (key_busy s tr k id HV Hid HK) as [_ Kb]. split.
    + exists (XLeaf id (MThread k c)). split; [exact I|]. cbn [PoolModel.pstep]. destruct (Nat.ltb_spec id K); [|lia]. rewrite begins_calls, Hc. cbn [negb andb].
      rewrite in_leaf_eq. cbn [fst]. destruct (Nat.eqb_spec k 0) as [->|Hk].
      * cbn [PoolSpec.place]. rewrite set_same. intros G. injection G as G. contradiction.
      * intros G. apply (place_client_leaf _ _ _ id Hid) in G. rewrite set_same in G. contradiction.
    + intros (t & Ea & _ & R). destruct (Nat.eqb_spec k 0) as [->|Hk]; [discriminate|]. injection Ea as <-. rewrite (R id Hid) in Kb. discriminate.
  - assert (Gf : free K s t = true) by (apply free_all; intros id Hid; apply Hf; assumption). split.
    + exists (XNext t). split; [exact I|]. cbn [PoolModel.pstep]. destruct (todo s t) as [|c cs] eqn:Td; [congruence|]. rewrite Gf.
      intros G. assert (G1 := f_equal fst G). cbn [PoolSpec.place fst] in G1. 
      assert (G2 : todo (fst (if target c <? K then in_leaf cf (set_todo s t cs) (target c) (MThread t (begin_call c)) else (set_todo s t cs, []))) t = cs).
      { destruct (Nat.ltb _ _); [rewrite in_leaf_eq|]; cbn [fst todo set_leaf set_todo]; rewrite Nat.eqb_refl; reflexivity. }
      rewrite G2, Td in G1. apply (f_equal (@length _)) in G1. cbn in G1. lia.
    + intros (u & Ea & R & _). injection Ea as <-. contradiction.
Qed.

Lemma turn_M a s ms : turn K cf n a s ms -> forall tr, PInv s tr -> Forall goes_on ms -> reason s a -> M (fst (pexec s ms)) < M s.
Proof.
  induction 1 as [s ms H|s m ms H|s m ms H IH]; intros tr HV Hm HR.
  - destruct (reason_goes s tr a HV HR) as [G1 G2]. tauto.
  - inversion Hm as [|? ? M1 M2]; subst. pose proof (step_pinv K cf op n s tr m HV) as HV'. pose proof (step_M s tr m HV M1) as S.
    cbn [PoolModel.pexec]. destruct (pstep s m) as [s1 l1] eqn:E1. cbn [fst snd] in *. pose proof (exec_M ms s1 _ HV' M2) as L.
    destruct (pexec s1 ms) as [s2 l2]. cbn [fst] in *. destruct S as [S|[_ S]]; [lia|]. destruct (S a HR) as [_ S2]. contradiction.
  - inversion Hm as [|? ? M1 M2]; subst. pose proof (step_pinv K cf op n s tr m HV) as HV'. pose proof (step_M s tr m HV M1) as S.
    cbn [PoolModel.pexec]. destruct (pstep s m) as [s1 l1] eqn:E1. cbn [fst snd] in *. pose proof (exec_M ms s1 _ HV' M2) as L.
    specialize (IH _ HV' M2). destruct (pexec s1 ms) as [s2 l2]. cbn [fst] in *. destruct S as [S|[S1 S2]]; [lia|].
    destruct (S2 a HR) as [S3 _]. specialize (IH S3). lia.
Qed.

(** ** As long as a call is running, somebody is waited for *)
Definition all_rest (s : pstate E) : Prop := forall t, 1 <= t <= n -> resting s t.

Lemma list_dec {A} (f : A -> bool) l : (forall x, In x l -> f x = true) \/ exists x, In x l /\ f x = false.
Proof using Type.
  induction l as [|a l [IH|(x & IH)]]; [left; intros x []| |right; exists x; split; [right|]; tauto].
  destruct (f a) eqn:Fa; [left; intros x [<-|Hx]; auto|right; exists a; split; [left; reflexivity|exact Fa]].
Qed.

Lemma busy_alive s tr t id : PInv s tr -> settled K s -> id < K -> 1 <= t <= n -> free_in (leaf s id) t = false ->
  alive (leaf s id) = true /\ clients_idle (leaf s id) = false.
Proof using Type.
  intros HV HS Hid Ht Hf. pose proof (V_leaf _ _ _ _ s tr HV id Hid) as HL. pose proof (reach_life _ _ _ _ _ HL) as HLf.
  destruct (nth_error (thr (leaf s id)) t) as [p|] eqn:Hp; [|apply nth_error_None in Hp; rewrite (len_reach n (cf id) _ _ _ HL) in Hp; lia].
  unfold free_in in Hf. rewrite Hp in Hf. split.
  - destruct (HS id Hid) as [A|(u & Hu)]; [exact A|]. exfalso.
    assert (U0 : u <> 0).
    { intros ->. destruct HLf as (w & cs & Et & Hw & _). rewrite Et in Hu. injection Hu as ->. discriminate. }
    destruct (Nat.eq_dec t u) as [->|Hn]; [rewrite Hu in Hp; injection Hp as <-; discriminate|].
    rewrite (destroyer_others (cf id) (op id) (leaf s id) u Dead t p HLf Hu eq_refl Hp Hn) in Hf by lia. discriminate.
  - destruct (clients_idle (leaf s id)) eqn:Ci; [|reflexivity]. exfalso. unfold clients_idle in Ci. destruct HLf as (w & cs & Et & _). rewrite Et in *.
    destruct t as [|t]; [lia|]. cbn [nth_error tl] in *. rewrite forallb_forall in Ci. specialize (Ci _ (nth_error_In _ _ Hp)). destruct p; discriminate.
Qed.

Lemma reason_or_rest s tr : PInv s tr -> settled K s -> all_rest s \/ exists a, reason s a.
Proof.
  intros HV HS.
  destruct (list_dec (fun t => free K s t) (seq 1 n)) as [F|(t & T1 & T2)].
  - assert (FF : forall u id, 1 <= u <= n -> id < K -> free_in (leaf s id) u = true).
    { intros u id Hu Hid. assert (In u (seq 1 n)) as I1 by (apply in_seq; lia). specialize (F u I1). apply (proj1 (free_all K s u) F id Hid). }
    destruct (list_dec (fun t => is_nil (todo s t)) (seq 1 n)) as [T|(t & T1 & T2)].
    + left. intros t Ht. split; [|intros id Hid; apply FF; assumption]. assert (In t (seq 1 n)) as I1 by (apply in_seq; lia). specialize (T t I1).
      destruct (todo s t); [reflexivity|discriminate].
    + right. exists (Client t). apply in_seq in T1. apply r_next; [destruct (todo s t); discriminate|lia|exact FF].
  - right. apply in_seq in T1. destruct (list_dec (fun id => free_in (leaf s id) t) (seq 0 K)) as [F|(id & I1 & I2)].
    + exfalso. assert (free K s t = true); [|congruence]. apply free_all. intros id Hid. apply F. apply in_seq. lia.
    + apply in_seq in I1. assert (Hid : id < K) by lia. destruct (busy_alive s tr t id HV HS Hid ltac:(lia) I2) as [A1 A2].
      destruct (busy_key (cf id) (cap_pos id Hid) (op id) (leaf s id) (leaf_inv s tr id HV Hid) (leaf_life s tr id HV Hid) A1 A2) as (k & HK & _).
      eexists. apply (r_key s k id Hid HK).
Qed.

(** ** Preserved *)
Lemma dead_stays C (x : state E) m u : nth_error (thr x) u = Some Dead -> nth_error (thr (fst (step C x m))) u = Some Dead.
Proof using Type.
  intros H. destruct m as [t c|k]; [|exact H]. destruct (Nat.eq_dec u t) as [->|Hn]; [cbn [step]; rewrite H; exact H|rewrite other_place by exact Hn; exact H].
Qed.

Lemma settled_step s tr m : PInv s tr -> settled K s -> goes_on m -> settled K (fst (pstep s m)).
Proof using Type.
  intros HV HS Hm. assert (IN : forall (s0 : pstate E) id mv, leaf s0 = leaf s -> id < K ->
    (alive (leaf s id) = true -> alive (fst (step (cf id) (leaf s id) mv)) = true) -> settled K (set_leaf s0 id (fst (step (cf id) (leaf s id) mv)))).
  { intros s0 id mv H0 Hid HA i Hi. rewrite set_cases, H0. destruct (Nat.eqb_spec i id) as [->|]; [|apply HS; exact Hi].
    destruct (HS id Hid) as [A|(u & Hu)]; [left; auto|right; exists u; apply dead_stays; exact Hu]. }
  destruct m as [t o|t|id m|id t]; try destruct Hm; cbn [PoolModel.pstep].
  - destruct (todo s t) as [|c cs] eqn:Td; [exact HS|]. destruct (free K s t) eqn:Gf; [|exact HS]. destruct (Nat.ltb_spec (target c) K) as [Hk|]; [|exact HS].
    rewrite in_leaf_eq. cbn [fst]. apply IN; [reflexivity|exact Hk|]. intros A.
    apply (alive_call (cf (target c)) (op (target c))); [apply (reach_life _ _ _ _ _ (V_leaf _ _ _ _ s tr HV _ Hk))|exact A|apply (proj1 (free_all K s t) Gf _ Hk)|destruct c; discriminate].
  - destruct (Nat.ltb_spec id K) as [Hid|]; [|exact HS]. destruct (begins m) eqn:Hb; [exact HS|]. cbn [negb andb]. rewrite in_leaf_eq. cbn [fst].
    apply IN; [reflexivity|exact Hid|]. intros A. apply (alive_step (cf id) (op id)); [apply (reach_life _ _ _ _ _ (V_leaf _ _ _ _ s tr HV _ Hid))|exact A|apply begins_no_call; exact Hb].
Qed.

Lemma rest_step s m : all_rest s -> goes_on m -> (forall t, ~ (1 <= t <= n) -> todo s t = []) -> all_rest (fst (pstep s m)).
Proof using Type.
  intros HR Hm HW. destruct m as [t o|t|id m|id t]; try destruct Hm; cbn [PoolModel.pstep].
  - assert (T : todo s t = []). { destruct (le_dec 1 t); [destruct (le_dec t n)|]; [apply HR; lia|apply HW; lia|apply HW; lia]. } rewrite T. exact HR.
  - destruct (Nat.ltb_spec id K) as [Hid|]; [|exact HR]. destruct (begins m) eqn:Hb; [exact HR|]. cbn [negb andb]. rewrite in_leaf_eq. cbn [fst].
    intros t Ht. destruct (HR t Ht) as [R1 R2]. split; [exact R1|]. intros i Hi. rewrite set_cases. destruct (Nat.eqb_spec i id) as [->|]; [apply free_kept; auto|auto].
Qed.

Lemma exec_kept ms : forall s tr, PInv s tr -> Forall goes_on ms ->
  (settled K s -> settled K (fst (pexec s ms))) /\ (all_rest s -> all_rest (fst (pexec s ms))).
Proof using Type.
  induction ms as [|m ms IH]; intros s tr HV Hm; cbn [PoolModel.pexec]; [auto|]. inversion Hm as [|? ? M1 M2]; subst.
  pose proof (step_pinv K cf op n s tr m HV) as HV'. pose proof (settled_step s tr m HV) as S1. pose proof (rest_step s m) as S2.
  destruct (pstep s m) as [s1 l1] eqn:E1. cbn [fst snd] in *. destruct (IH s1 _ HV' M2) as [I1 I2]. destruct (pexec s1 ms) as [s2 l2]. cbn [fst] in *.
  split; intros H; [apply I1, S1; auto|apply I2, S2; auto; apply (V_who _ _ _ _ s tr HV)].
Qed.

Lemma prounds_on k s ms : prounds K cf n k s ms -> Forall goes_on ms.
Proof using Type. induction 1 as [|k s ms ms' [H _] _ IH]; [constructor|apply Forall_app; auto]. Qed.

Lemma prounds_finish k s ms : prounds K cf n k s ms -> forall tr, PInv s tr -> settled K s ->
  all_rest (fst (pexec s ms)) \/ M (fst (pexec s ms)) + k <= M s.
Proof.
  induction 1 as [s|k s ms ms' [HN HT] HR IH]; intros tr HV HS; [right; cbn; lia|].
  pose proof (exec_pinv K cf op n ms s tr HV) as HV'. destruct (exec_kept ms s tr HV HN) as [S1 S2]. specialize (S1 HS).
  pose proof (reason_or_rest s tr HV HS) as RR.
  assert (TM : forall a, reason s a -> M (fst (pexec s ms)) < M s).
  { intros a Ha. apply (turn_M a s ms) with (tr := tr); auto. apply HT. apply (reason_agent s tr a HV Ha). }
  rewrite pexec_app. destruct (pexec s ms) as [s1 l1] eqn:E1. cbn [fst snd] in *. specialize (IH _ HV' S1).
  pose proof (exec_kept ms' s1 _ HV' (prounds_on _ _ _ HR)) as [_ S3].
  destruct (pexec s1 ms') as [s2 l2] eqn:E2. cbn [fst] in *. destruct IH as [IH|IH]; [left; exact IH|].
  destruct RR as [RR|(a & Ha)]; [left; auto|]. specialize (TM a Ha). right. lia.
Qed.

Theorem fair_calls_return s tr k ms s' l : preach s tr -> settled K s -> prounds K cf n k s ms -> enough K cf n s <= k ->
  pexec s ms = (s', l) -> forall t, 1 <= t <= n -> resting s' t.
Proof.
  intros Hr HS HR Hk He. pose proof (reach_pinv K cf op n s tr Hr) as HV. pose proof (prounds_finish k s ms HR tr HV HS) as G. rewrite He in G. cbn [fst] in G.
  destruct G as [G|G]; [exact G|]. pose proof (M_bound s tr HV). lia.
Qed.

(** ** Rounds exist *)
Lemma pturn_app a s ms ms' : turn K cf n a s ms -> turn K cf n a s (ms ++ ms').
Proof using Type. induction 1; cbn [app]; [apply t_now; assumption|apply t_move; assumption|apply t_later; assumption]. Qed.
Lemma pturn_after a ms ms' : forall s, turn K cf n a (fst (pexec s ms)) ms' -> turn K cf n a s (ms ++ ms').
Proof using Type.
  induction ms as [|m ms IH]; intros s H; [exact H|]. cbn [app]. apply t_later. apply IH.
  cbn [PoolModel.pexec] in H. destruct (pstep s m) as [s1 l1]. cbn [fst]. destruct (pexec s1 ms) as [s2 l2]. exact H.
Qed.

(** Only its own moves move an agent. *)
Lemma worker_only s id m : id < K -> goes_on m -> place (fst (pstep s m)) (Worker id) <> place s (Worker id) -> (forall u, todo s u <> [] -> 1 <= u) ->
  can_move (cf id) 0 (leaf s id).
Proof using Type.
  intros Hid Hm H HW. destruct m as [t o|t|i m|i t]; try destruct Hm; cbn [PoolModel.pstep] in H.
  - destruct (todo s t) as [|c cs] eqn:Td; [exfalso; apply H; reflexivity|]. destruct (free K s t); [|exfalso; apply H; reflexivity]. exfalso. apply H.
    destruct (Nat.ltb _ _); [|reflexivity]. rewrite in_leaf_eq. cbn [fst PoolSpec.place]. rewrite set_cases. destruct (Nat.eqb_spec id (target c)) as [->|]; [|reflexivity].
    change (leaf (set_todo s t cs)) with (leaf s). rewrite other_place; [reflexivity|]. assert (todo s t <> []) as N by congruence. apply HW in N. lia.
  - destruct (Nat.ltb i K); [|exfalso; apply H; reflexivity]. destruct (begins m) eqn:Hb; [exfalso; apply H; reflexivity|]. cbn [negb andb] in H. rewrite in_leaf_eq in H. cbn [fst PoolSpec.place] in H.
    rewrite set_cases in H. destruct (Nat.eqb_spec id i) as [<-|]; [|congruence]. destruct m as [u c|k]; [|exfalso; apply H; reflexivity].
    destruct (Nat.eq_dec u 0) as [->|Hu]; [exists c; congruence|]. rewrite other_place in H by congruence. congruence.
Qed.

Lemma client_only s tr t id m : PInv s tr -> id < K -> 1 <= t <= n -> free_in (leaf s id) t = false -> goes_on m ->
  place (fst (pstep s m)) (Client t) <> place s (Client t) -> can_move (cf id) t (leaf s id).
Proof using Type.
  intros HV Hid Ht Hf Hm H. destruct m as [u o|u|i m|i u]; try destruct Hm; cbn [PoolModel.pstep] in H.
  - destruct (todo s u) as [|c cs] eqn:Td; [exfalso; apply H; reflexivity|]. destruct (free K s u) eqn:Gf; [|exfalso; apply H; reflexivity].
    assert (Hut : t <> u) by (intros ->; rewrite (proj1 (free_all K s u) Gf id Hid) in Hf; discriminate).
    exfalso. apply H. apply place_client_same.
    + destruct (Nat.ltb _ _); [rewrite in_leaf_eq|]; cbn [fst todo set_leaf set_todo]; destruct (Nat.eqb_spec t u); congruence.
    + intros j Hj. destruct (Nat.ltb _ _); [|reflexivity]. rewrite in_leaf_eq. cbn [fst]. rewrite set_cases. destruct (Nat.eqb_spec j (target c)) as [->|]; [|reflexivity].
      change (leaf (set_todo s u cs)) with (leaf s). apply other_place. exact Hut.
  - destruct (Nat.ltb_spec i K) as [Hi|]; [|exfalso; apply H; reflexivity]. destruct (begins m) eqn:Hb; [exfalso; apply H; reflexivity|]. cbn [negb andb] in H. rewrite in_leaf_eq in H. cbn [fst] in H.
    destruct (Nat.eq_dec i id) as [->|Hn].
    + destruct m as [u c|k].
      * destruct (Nat.eq_dec u t) as [->|Hu].
        -- exists c. intros G. apply H. apply place_client_same; [reflexivity|]. intros j Hj. rewrite set_cases. destruct (Nat.eqb_spec j id) as [->|]; [exact G|reflexivity].
        -- exfalso. apply H. apply place_client_same; [reflexivity|]. intros j Hj. rewrite set_cases. destruct (Nat.eqb_spec j id) as [->|]; [apply other_place; congruence|reflexivity].
      * exfalso. apply H. apply place_client_same; [reflexivity|]. intros j Hj. rewrite set_cases. destruct (Nat.eqb_spec j id) as [->|]; reflexivity.
    + exfalso. apply H. apply place_client_same; [reflexivity|]. intros j Hj. rewrite set_cases. destruct (Nat.eqb_spec j i) as [->|]; [|reflexivity].
      apply own_place; [exact Hb|]. destruct (free_in (leaf s i) t) eqn:F; [reflexivity|]. exfalso. apply Hn. apply (V_one _ _ _ _ s tr HV t i id Hi Hid Ht F Hf).
Qed.

Lemma pturn_exists a s tr : PInv s tr -> In a (agents K n) -> exists ms, Forall goes_on ms /\ turn K cf n a s ms.
Proof using Type.
  intros HV Ha. assert (NOW : (exists t, a = Client t /\ resting s t) \/ ~ can_go K cf n a s -> exists ms, Forall goes_on ms /\ turn K cf n a s ms).
  { intros H. exists []. split; [constructor|apply t_now; exact H]. }
  assert (MOV : forall m, goes_on m -> place (fst (pstep s m)) a <> place s a -> exists ms, Forall goes_on ms /\ turn K cf n a s ms).
  { intros m H1 H2. exists [m]. split; [constructor; [exact H1|constructor]|apply t_move; exact H2]. }
  assert (LF : forall id t p, id < K -> nth_error (thr (leaf s id)) t = Some p -> p <> Idle ->
    (exists c, begins (@MThread E t c) = false /\ nth_error (thr (fst (step (cf id) (leaf s id) (MThread t c)))) t <> nth_error (thr (leaf s id)) t) \/
    ~ can_move (cf id) t (leaf s id)).
  { intros id t p Hid Hp Hn. destruct (move_or_not (cf id) (leaf s id) t p Hp Hn) as [(c & H1 & H2)|H]; [left; exists c; rewrite begins_calls; auto|right; exact H]. }
  unfold agents in Ha. apply in_app_iff in Ha. destruct Ha as [Ha|Ha]; apply in_map_iff in Ha; destruct Ha as (t & <- & Ht); apply in_seq in Ht.
  - assert (T : 1 <= t <= n) by lia. clear Ht. destruct (list_dec (fun id => free_in (leaf s id) t) (seq 0 K)) as [F|(id & I1 & I2)].
    + assert (FF : forall id, id < K -> free_in (leaf s id) t = true) by (intros id Hid; apply F, in_seq; lia).
      destruct (todo s t) as [|c cs] eqn:Td; [apply NOW; left; exists t; split; [reflexivity|split; assumption]|].
      apply (MOV (XNext t)); [exact I|]. cbn [PoolModel.pstep]. rewrite Td. rewrite (proj2 (free_all K s t) FF). intros G. assert (G1 := f_equal fst G).
      cbn [PoolSpec.place fst] in G1.
      assert (G2 : todo (fst (if target c <? K then in_leaf cf (set_todo s t cs) (target c) (MThread t (begin_call c)) else (set_todo s t cs, []))) t = cs).
      { destruct (Nat.ltb _ _); [rewrite in_leaf_eq|]; cbn [fst todo set_leaf set_todo]; rewrite Nat.eqb_refl; reflexivity. }
      rewrite G2, Td in G1. apply (f_equal (@length _)) in G1. cbn in G1. lia.
    + apply in_seq in I1. assert (Hid : id < K) by lia. clear I1.
      destruct (nth_error (thr (leaf s id)) t) as [p|] eqn:Hp; [|apply nth_error_None in Hp; rewrite (len_reach n (cf id) _ _ _ (V_leaf _ _ _ _ s tr HV id Hid)) in Hp; lia].
      destruct (LF id t p Hid Hp) as [(c & C1 & C2)|N].
      * intros ->. unfold free_in in I2. rewrite Hp in I2. discriminate.
      * apply (MOV (XLeaf id (MThread t c))); [exact I|]. cbn [PoolModel.pstep]. destruct (Nat.ltb_spec id K); [|lia]. rewrite C1. cbn [negb andb]. rewrite in_leaf_eq. cbn [fst].
        intros G. apply (place_client_leaf _ _ _ id Hid) in G. rewrite set_same in G. contradiction.
      * apply NOW. right. intros (m & M1 & M2). apply N. apply (client_only s tr t id m); assumption.
  - assert (Hid : t < K) by lia. rename t into id. pose proof (V_leaf _ _ _ _ s tr HV id Hid) as HL. pose proof (reach_life _ _ _ _ _ HL) as (w & cs & Et & Hw & _).
    assert (Hp : nth_error (thr (leaf s id)) 0 = Some w) by (rewrite Et; reflexivity).
    destruct (LF id 0 w Hid Hp) as [(c & C1 & C2)|N].
    + intros ->. discriminate.
    + apply (MOV (XLeaf id (MThread 0 c))); [exact I|]. cbn [PoolModel.pstep]. destruct (Nat.ltb_spec id K); [|lia]. rewrite C1. cbn [negb andb]. rewrite in_leaf_eq. cbn [fst PoolSpec.place].
      rewrite set_same. intros G. injection G as G. contradiction.
    + apply NOW. right. intros (m & M1 & M2). apply N. apply (worker_only s id m Hid M1 M2). intros u Hu. destruct u as [|u]; [|lia].
      exfalso. apply Hu. apply (V_who _ _ _ _ s tr HV). lia.
Qed.

Lemma pround_exists s tr : PInv s tr -> exists ms, pround K cf n s ms.
Proof using Type.
  intros HV. assert (G : forall l, incl l (agents K n) -> exists ms, Forall goes_on ms /\ forall a, In a l -> turn K cf n a s ms).
  { induction l as [|b l IH]; intros Hl; [exists []; split; [constructor|intros a []]|].
    destruct IH as (ms & M1 & M2); [intros x Hx; apply Hl; right; exact Hx|].
    destruct (pturn_exists b (fst (pexec s ms)) _ (exec_pinv K cf op n ms s tr HV)) as (ms' & M3 & M4); [apply Hl; left; reflexivity|].
    exists (ms ++ ms'). split; [apply Forall_app; auto|]. intros a [<-|Ha]; [apply pturn_after; exact M4|apply pturn_app; apply M2; exact Ha]. }
  destruct (G (agents K n) (incl_refl _)) as (ms & H). exists ms. exact H.
Qed.

Theorem prounds_exist k : forall s tr, PInv s tr -> exists ms, prounds K cf n k s ms.
Proof using Type.
  induction k as [|k IH]; intros s tr HV; [exists []; constructor|]. destruct (pround_exists s tr HV) as (ms & H).
  destruct (IH _ _ (exec_pinv K cf op n ms s tr HV)) as (ms' & H'). exists (ms ++ ms'). apply pr_S; assumption.
Qed.
Theorem fair_exists k s tr : preach s tr -> exists ms, prounds K cf n k s ms.
Proof using Type. intros Hr. apply (prounds_exist k s tr). apply (reach_pinv K cf op n s tr Hr). Qed.

Theorem pool_completable s tr : preach s tr -> settled K s -> exists ms s' l, Forall goes_on ms /\ pexec s ms = (s', l) /\ forall t, 1 <= t <= n -> resting s' t.
Proof.
  intros Hr HS. destruct (fair_exists (enough K cf n s) s tr Hr) as (ms & H). destruct (pexec s ms) as [s' l] eqn:He. exists ms, s', l.
  split; [apply (prounds_on _ _ _ H)|]. split; [exact He|]. apply (fair_calls_return s tr _ ms s' l Hr HS H (le_n _) He).
Qed.

End PoolFair.
