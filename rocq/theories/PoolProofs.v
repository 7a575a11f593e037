(** * Proofs for C101: every leaf sink of a composite gets what it has to *)
From Coq Require Import List Arith NArith Bool Lia.
From Verif Require Import Base LevelModel SinkModel SinkSpec TreeSpec TreeProofs PoolModel PoolSpec.
From Verif Require Import SinkProofs SinkLabels SinkLife SinkProps SinkProgress SinkReturn SinkFair.
From Verif Require TreeModel.
Import ListNotations.

Section Pool.
Context {E : Type}.
Variable K : nat.
Variable cf : nat -> cfg E.
Variable op : nat -> bool.
Variable n : nat.

Notation pstep := (pstep K cf n).
Notation pexec := (pexec K cf n).
Notation preach := (preach K cf op n).
Notation call := (TreeModel.call E).

(** ** Lists *)
Lemma leaf_trace_app id (a b : list (plabel E)) : leaf_trace id (a ++ b) = leaf_trace id a ++ leaf_trace id b.
Proof. apply flat_map_app. Qed.
Lemma started_app t (a b : list (plabel E)) : started t (a ++ b) = started t a ++ started t b.
Proof. apply flat_map_app. Qed.
Lemma leaf_trace_map id i (ls : list (label E)) : leaf_trace id (map (PLeaf i) ls) = if Nat.eqb i id then ls else [].
Proof.
  induction ls as [|x ls IH]; [destruct (Nat.eqb i id); reflexivity|]. cbn [map leaf_trace flat_map].
  change (flat_map _ (map (PLeaf i) ls)) with (leaf_trace id (map (PLeaf i) ls)). rewrite IH. destruct (Nat.eqb i id); reflexivity.
Qed.
Lemma started_map t i (ls : list (label E)) : started t (map (PLeaf i) ls) = [].
Proof. induction ls as [|x ls IH]; [reflexivity|]. exact IH. Qed.

(** What a list of calls on leaf sinks puts into one of them. *)
Definition puts (id : nat) (cs : list call) : list (level * E) :=
  flat_map (fun c => match c with TreeModel.Put i l e => if Nat.eqb i id then [(l, e)] else [] | _ => [] end) cs.
Lemma puts_app id a b : puts id (a ++ b) = puts id a ++ puts id b.
Proof. apply flat_map_app. Qed.
Definition ordered (o : order E) : list call := match plan o with TreeModel.Done cs => cs | TreeModel.UB => [] end.

(** ** One step inside a leaf sink *)
Section Leaf.
Variable C : cfg E.

Lemma quiet_step (s : state E) t c p : calls c = false \/ c = CFlush \/ c = CAsync \/ c = CRotate \/ c = CDestroy ->
  forall u, pushes_by u (snd (step_thread C s t c p)) = [].
Proof.
  intros Hc u. destruct p as [ |e|x e|x e| | | |kk|kk|kk e|kk oe|kk|kk|kk|kk|kk|kk| | | | | | | | | ]; cbn [step_thread].
  { destruct c; try (destruct Hc as [Hc|[Hc|[Hc|[Hc|Hc]]]]; discriminate Hc); try reflexivity;
      try (destruct (alive s && negb (Nat.eqb t 0)); [|reflexivity]); try (destruct (clients_idle s && negb (Nat.eqb t 0)); [|reflexivity]);
      try reflexivity; destruct (c_kind C); reflexivity. }
  all: clear Hc; try reflexivity.
  - destruct (Nat.ltb _ _); reflexivity.
  - destruct (c_lat0 C); [|destruct (N.leb _ _)]; reflexivity.
  - destruct (c_lat0 C); reflexivity.
  - destruct (fip s), kk; reflexivity.
  - destruct (q s) as [|y r]; [reflexivity|]. destruct (q_stage y); reflexivity.
  - destruct (c_kind C); reflexivity.
  - destruct oe; [destruct (opened s)|]; reflexivity.
  - destruct c; try reflexivity; [destruct spurious|]; try destruct (ntf s); reflexivity.
  - destruct c; try reflexivity; [destruct spurious|]; try destruct (ntr s); reflexivity.
  - destruct c; try reflexivity. destruct r; try reflexivity. destruct (opened s); reflexivity.
  - destruct kk; reflexivity.
  - destruct c; try reflexivity. destruct timeout; [reflexivity|]. destruct (ntf s || fin s); reflexivity.
  - destruct c; try reflexivity. destruct spurious; reflexivity.
  - destruct (nth_error (thr s) 0) as [w|]; [destruct w|]; reflexivity.
  - destruct (c_kind C); reflexivity.
Qed.

Lemma other_place (s : state E) t c u : u <> t -> nth_error (thr (fst (step C s (MThread t c)))) u = nth_error (thr s) u.
Proof.
  intros Hu. cbn [step]. destruct (nth_error (thr s) t) as [p|] eqn:Hp; [|reflexivity].
  destruct (step_own C s t c p Hp) as [_ (p' & ->)]. apply nth_error_upd_other. exact Hu.
Qed.

Lemma free_stays (s : state E) t c : calls c = false -> free_in s t = true -> fst (step C s (MThread t c)) = s.
Proof.
  intros Hc Hf. unfold free_in in Hf. cbn [step]. destruct (nth_error (thr s) t) as [p|]; [|reflexivity].
  destruct p; try discriminate Hf; [|reflexivity]. destruct c; try discriminate Hc; reflexivity.
Qed.

Lemma len_step (s : state E) m : length (thr (fst (step C s m))) = length (thr s).
Proof.
  destruct m as [t c|k]; cbn [step]; [|reflexivity]. destruct (nth_error (thr s) t) as [p|] eqn:Hp; [|reflexivity].
  destruct (step_own C s t c p Hp) as [_ (p' & ->)]. apply upd_length.
Qed.
Lemma len_reach o s ls : reach C o n s ls -> length (thr s) = S n.
Proof.
  intros H. refine (reach_ind C o n (fun a _ => length (thr a) = S n) _ _ s ls H).
  - cbn [init thr length]. rewrite repeat_length. reflexivity.
  - intros s0 l0 m _ IH. rewrite len_step. exact IH.
Qed.
Lemma reach_step o s ls m : reach C o n s ls -> reach C o n (fst (step C s m)) (ls ++ snd (step C s m)).
Proof.
  intros (ms & H). exists (ms ++ [m]). rewrite exec_app, H. cbn [exec]. destruct (step C s m) as [s1 l1]. cbn [fst snd].
  rewrite app_nil_r. reflexivity.
Qed.
End Leaf.

Lemma begins_calls t c : begins (@MThread E t c) = calls c.
Proof. destruct c; reflexivity. Qed.
Lemma begins_no_call (m : move E) : begins m = false -> no_call m.
Proof. destruct m as [t c|k]; [rewrite begins_calls; auto|intros _; exact I]. Qed.

(** ** The invariant *)
Record PInv (s : pstate E) (tr : list (plabel E)) : Prop := {
  V_leaf : forall id, id < K -> reach (cf id) (op id) n (leaf s id) (leaf_trace id tr);
  V_puts : forall t id, id < K ->
    puts id (flat_map ordered (started t tr)) = pushes_by t (leaf_trace id tr) ++ puts id (todo s t);
  V_who : forall t, ~ (1 <= t <= n) -> todo s t = [];
  V_one : forall t i j, i < K -> j < K -> 1 <= t <= n -> free_in (leaf s i) t = false -> free_in (leaf s j) t = false -> i = j;
  V_alive : forall t c, In c (todo s t) -> target c < K -> alive (leaf s (target c)) = true;
  V_fit : forall t id x, id < K -> In x (puts id (flat_map ordered (started t tr))) -> for_sink (c_level (cf id)) (fst x) = true
}.

Lemma set_same s id x : leaf (set_leaf s id x : pstate E) id = x.
Proof. cbn [leaf set_leaf]. rewrite Nat.eqb_refl. reflexivity. Qed.
Lemma set_other s id x i : i <> id -> leaf (set_leaf s id x : pstate E) i = leaf s i.
Proof. intros H. cbn [leaf set_leaf]. destruct (Nat.eqb_spec i id); [contradiction|reflexivity]. Qed.

Lemma in_leaf_eq (s : pstate E) id m : in_leaf cf s id m =
  (set_leaf s id (fst (step (cf id) (leaf s id) m)), map (PLeaf id) (snd (step (cf id) (leaf s id) m))).
Proof. unfold in_leaf. destruct (step (cf id) (leaf s id) m). reflexivity. Qed.

Lemma free_all (s : pstate E) t : free K s t = true <-> forall id, id < K -> free_in (leaf s id) t = true.
Proof.
  unfold free. rewrite forallb_forall. split; intros H id Hid.
  - apply H. apply in_seq. lia.
  - apply in_seq in Hid. apply H. lia.
Qed.

Lemma rest_free (s : pstate E) t : todo s t = [] -> free K s t = true -> resting K s t.
Proof. intros H1 H2. split; [exact H1|apply free_all; exact H2]. Qed.

(** ** What a call on a composite asks of the leaf sinks *)
Lemma flush_target d : forall c : call, In c (TreeModel.flush d) -> In (target c) (leaves d).
Proof.
  induction d as [id lv|id|lv ms IH] using tree_ind'; intros c Hc.
  - destruct Hc as [<-|[]]. left. reflexivity.
  - destruct Hc as [<-|[]]. left. reflexivity.
  - cbn [TreeModel.flush] in Hc. cbn [leaves]. apply in_flat_map. rewrite Forall_forall in IH. apply in_app_iff in Hc. destruct Hc as [Hc|Hc]; apply in_flat_map in Hc; destruct Hc as (m & M1 & M2).
    + exists m. split; [exact M1|]. destruct m as [i l|i|l ms']; cbn in M2; try contradiction; destruct M2 as [M2|[]]; subst c; left; reflexivity.
    + exists m. split; [exact M1|]. apply IH; assumption.
Qed.

Lemma reached_leaves l d : forall id, In (Some id) (reached l d) -> In id (leaves d).
Proof.
  induction d as [i lv|i|lv ms IH] using tree_ind'; intros id H.
  - unfold reached in H. cbn [paths filter] in H. destruct (open_path l ([lv], Some i)); [|destruct H]. destruct H as [H|[]]. injection H as ->. left. reflexivity.
  - unfold reached in H. cbn [paths filter] in H. destruct (open_path l ([OFF], Some i)); [|destruct H]. destruct H as [H|[]]. injection H as ->. left. reflexivity.
  - destruct ms as [|m ms].
    + unfold reached in H. cbn [paths filter] in H. destruct (open_path l ([lv], None)); [|destruct H]. destruct H as [H|[]]. discriminate.
    + rewrite reached_multi in H. destruct (passes_b l lv); [|destruct H]. apply in_flat_map in H. destruct H as (x & X1 & X2).
      cbn [leaves]. apply in_flat_map. exists x. split; [exact X1|]. rewrite Forall_forall in IH. apply IH; assumption.
Qed.

Lemma reached_level (s : pstate E) l d : forall id, usable K cf s d = true -> In (Some id) (reached l d) -> id < K ->
  for_sink (c_level (cf id)) l = true.
Proof.
  induction d as [i lv|i|lv ms IH] using tree_ind'; intros id U H Hid.
  - unfold reached in H. cbn [paths filter] in H. destruct (open_path l ([lv], Some i)) eqn:O; [|destruct H]. destruct H as [H|[]]. injection H as ->.
    unfold open_path in O. cbn [fst forallb] in O. rewrite andb_true_r in O. cbn [usable] in U. apply andb_prop in U as [U _]. apply andb_prop in U as [_ U].
    unfold leqb in U. apply Nat.eqb_eq in U. unfold passes_b in O. unfold for_sink. rewrite <- U. exact O.
  - unfold reached in H. cbn [paths filter] in H. destruct (open_path l ([OFF], Some i)); [|destruct H]. destruct H as [H|[]]. injection H as ->.
    cbn [usable] in U. apply Nat.leb_le in U. lia.
  - destruct ms as [|m ms].
    + unfold reached in H. cbn [paths filter] in H. destruct (open_path l ([lv], None)); [|destruct H]. destruct H as [H|[]]. discriminate.
    + rewrite reached_multi in H. destruct (passes_b l lv); [|destruct H]. apply in_flat_map in H. destruct H as (x & X1 & X2).
      cbn [usable] in U. rewrite forallb_forall in U. rewrite Forall_forall in IH. apply (IH x X1 id (U x X1) X2 Hid).
Qed.

Lemma usable_alive (s : pstate E) d : forall id, usable K cf s d = true -> In id (leaves d) -> id < K -> alive (leaf s id) = true.
Proof.
  induction d as [i lv|i|lv ms IH] using tree_ind'; intros id U H Hid.
  - destruct H as [<-|[]]. cbn [usable] in U. apply andb_prop in U as [_ U]. exact U.
  - destruct H as [<-|[]]. cbn [usable] in U. apply Nat.leb_le in U. lia.
  - cbn [leaves] in H. apply in_flat_map in H. destruct H as (x & X1 & X2). cbn [usable] in U. rewrite forallb_forall in U.
    rewrite Forall_forall in IH. apply (IH x X1 id (U x X1) X2 Hid).
Qed.

Lemma log_plan lv d l (e : E) cs : plan (OLog lv d l e) = TreeModel.Done cs ->
  cs = if passes_b l lv then flat_map (fun p => match p with Some id => [TreeModel.Put id l e] | None => [] end) (reached l d) ++ TreeModel.flush d else [].
Proof.
  cbn [plan]. intros H. destruct (passes_b l lv) eqn:P.
  - rewrite (logger_passes lv d l e P) in H. rewrite push_result in H. unfold result in H. destruct (existsb _ _); [discriminate|].
    cbn [TreeModel.andthen] in H. injection H as <-. reflexivity.
  - rewrite (logger_rejects lv d l e P) in H. injection H as <-. reflexivity.
Qed.

Lemma plan_target (o : order E) cs : plan o = TreeModel.Done cs -> forall c, In c cs -> In (target c) (leaves (sink_of o)).
Proof.
  intros H c Hc. destruct o as [lv d l e|d|d]; cbn [sink_of].
  - apply log_plan in H. subst cs. destruct (passes_b l lv); [|destruct Hc]. apply in_app_iff in Hc. destruct Hc as [Hc|Hc]; [|apply flush_target; exact Hc].
    apply in_flat_map in Hc. destruct Hc as (p & P1 & P2). destruct p as [id|]; [|destruct P2]. destruct P2 as [<-|[]]. cbn [target]. eapply reached_leaves. exact P1.
  - cbn [plan] in H. injection H as <-. apply flush_target. exact Hc.
  - cbn [plan] in H. injection H as <-. rewrite rotate_leaves in Hc. apply in_map_iff in Hc. destruct Hc as (i & <- & Hi). exact Hi.
Qed.

Lemma puts_flush id d : puts id (TreeModel.flush d) = [].
Proof.
  destruct (@flush_leaves E d) as (_ & H & _). revert H. generalize (@TreeModel.flush E d). intros cs. induction cs as [|c cs IH]; [reflexivity|].
  unfold putted, puts in *. cbn [flat_map]. destruct c; cbn [app]; try exact IH. discriminate.
Qed.
Lemma puts_rotate id d : puts id (TreeModel.rotate d) = [].
Proof. rewrite rotate_leaves. induction (leaves d) as [|x r IH]; [reflexivity|]. exact IH. Qed.

Lemma puts_reached id l (e : E) r :
  puts id (flat_map (fun p => match p with Some i => [TreeModel.Put i l e] | None => [] end) r) =
  repeat (l, e) (length (filter (is_it id) r)).
Proof.
  induction r as [|x r IH]; [reflexivity|]. cbn [flat_map filter]. rewrite puts_app, IH. destruct x as [i|]; [|reflexivity].
  cbn [is_it]. unfold puts. cbn [flat_map]. destruct (Nat.eqb i id); reflexivity.
Qed.

Lemma plan_puts (o : order E) cs id : plan o = TreeModel.Done cs -> map snd (puts id cs) = copies id o.
Proof.
  intros H. destruct o as [lv d l e|d|d]; cbn [copies].
  - apply log_plan in H. subst cs. destruct (passes_b l lv); [|reflexivity]. rewrite puts_app, puts_flush, app_nil_r, puts_reached.
    generalize (length (filter (is_it id) (reached l d))). intros k. induction k as [|k IH]; [reflexivity|]. cbn [repeat map snd]. rewrite IH. reflexivity.
  - injection H as <-. rewrite puts_flush. reflexivity.
  - injection H as <-. rewrite puts_rotate. reflexivity.
Qed.

Lemma plan_fit (s : pstate E) (o : order E) cs id x : plan o = TreeModel.Done cs -> usable K cf s (sink_of o) = true -> id < K ->
  In x (puts id cs) -> for_sink (c_level (cf id)) (fst x) = true.
Proof.
  intros H U Hid Hx. destruct o as [lv d l e|d|d].
  - apply log_plan in H. subst cs. destruct (passes_b l lv); [|destruct Hx]. rewrite puts_app, puts_flush, app_nil_r, puts_reached in Hx.
    assert (G : In (Some id) (reached l d)).
    { destruct (filter (is_it id) (reached l d)) as [|y r] eqn:F; [destruct Hx|]. assert (In y (filter (is_it id) (reached l d))) as Y by (rewrite F; left; reflexivity).
      apply filter_In in Y. destruct Y as [Y1 Y2]. destruct y as [i|]; [|discriminate]. cbn in Y2. apply Nat.eqb_eq in Y2. subst i. exact Y1. }
    apply repeat_spec in Hx. subst x. cbn [fst]. eapply reached_level; eassumption.
  - injection H as <-. rewrite puts_flush in Hx. destruct Hx.
  - injection H as <-. rewrite puts_rotate in Hx. destruct Hx.
Qed.

(** ** The invariant holds *)
Definition act (s : pstate E) (id : nat) (m : move E) := step (cf id) (leaf s id) m.

Lemma set_cases (s : pstate E) id x i : leaf (set_leaf s id x) i = if Nat.eqb i id then x else leaf s i.
Proof. reflexivity. Qed.

Lemma act_inv s tr id m td : PInv s tr -> id < K ->
  (forall u i, i < K -> puts i (flat_map ordered (started u tr)) =
     (pushes_by u (leaf_trace i tr) ++ (if Nat.eqb id i then pushes_by u (snd (act s id m)) else [])) ++ puts i (td u)) ->
  (forall u, ~ (1 <= u <= n) -> td u = []) ->
  (forall t i j, i < K -> j < K -> 1 <= t <= n -> free_in (leaf (set_leaf s id (fst (act s id m))) i) t = false ->
     free_in (leaf (set_leaf s id (fst (act s id m))) j) t = false -> i = j) ->
  (forall u c, In c (td u) -> target c < K -> alive (leaf (set_leaf s id (fst (act s id m))) (target c)) = true) ->
  PInv (mkP (leaf (set_leaf s id (fst (act s id m)))) td) (tr ++ map (PLeaf id) (snd (act s id m))).
Proof.
  intros HV Hid H1 H2 H3 H4. constructor; cbn [leaf todo] in *.
  - intros i Hi. rewrite set_cases, leaf_trace_app, leaf_trace_map. destruct (Nat.eqb_spec id i) as [<-|Hn].
    + rewrite Nat.eqb_refl. apply reach_step. apply (V_leaf s tr HV). exact Hid.
    + destruct (Nat.eqb_spec i id) as [->|_]; [congruence|]. rewrite app_nil_r. apply (V_leaf s tr HV). exact Hi.
  - intros u i Hi. rewrite started_app, started_map, app_nil_r, leaf_trace_app, leaf_trace_map, (H1 u i Hi).
    f_equal. destruct (Nat.eqb id i).
    + unfold pushes_by. rewrite flat_map_app. reflexivity.
    + rewrite !app_nil_r. reflexivity.
  - exact H2.
  - exact H3.
  - exact H4.
  - intros u i x Hi. rewrite started_app, started_map, app_nil_r. apply (V_fit s tr HV u i x Hi).
Qed.

Lemma pushes_quiet C (x : state E) m : begins m = false -> forall u, pushes_by u (snd (step C x m)) = [].
Proof.
  intros Hb u. destruct m as [t c|k]; cbn [step]; [|reflexivity]. destruct (nth_error (thr x) t) as [p|]; [|reflexivity].
  apply quiet_step. left. rewrite <- (begins_calls t). exact Hb.
Qed.

(** Who is free stays free unless a call begins. *)
Lemma free_kept C (x : state E) m u : begins m = false -> free_in x u = true -> free_in (fst (step C x m)) u = true.
Proof.
  intros Hb Hf. destruct m as [t c|k]; [|exact Hf]. rewrite begins_calls in Hb. destruct (Nat.eq_dec u t) as [->|Hn].
  - rewrite (free_stays C x t c Hb Hf). exact Hf.
  - unfold free_in in *. rewrite other_place by exact Hn. exact Hf.
Qed.

Lemma alive_call C o (x : state E) t c : Life C o x -> alive x = true -> free_in x t = true -> c <> CDestroy -> alive (fst (step C x (MThread t c))) = true.
Proof.
  intros HL Ha Hf Hc. destruct (calls c) eqn:Ec; [|apply (alive_step C o x (MThread t c) HL Ha Ec)].
  destruct HL as (w & cs & Et & Hw & _). unfold free_in in Hf. cbn [step].
  destruct (nth_error (thr x) t) as [p|] eqn:Hp; [|discriminate]. destruct t as [|t].
  { rewrite Et in Hp. injection Hp as ->. destruct p; try discriminate Hf; discriminate Hw. }
  assert (K0 : forall p', destroying p' = false -> alive (s_thr x (S t) p') = true).
  { intros p' Hd. unfold alive in *. cbn [s_thr thr]. rewrite Et in *. cbn [upd tl] in *. apply forallb_forall. rewrite forallb_forall in Ha.
    assert (Fx : Forall (fun y => negb (destroying y) = true) (upd cs t p')) by (apply upd_Forall; [apply Forall_forall; exact Ha|rewrite Hd; reflexivity]).
    rewrite Forall_forall in Fx. exact Fx. }
  destruct p; try discriminate Hf; [|exact Ha]. destruct c; try discriminate Ec; try congruence; cbn [step_thread].
  - destruct (alive x && _); [|exact Ha]. destruct (admits _ _); [apply K0; reflexivity|exact Ha].
  - destruct (alive x && _); [apply K0; reflexivity|exact Ha].
  - destruct (alive x && _); [apply K0; reflexivity|exact Ha].
  - destruct (alive x && _); [|exact Ha]. destruct (c_kind C); [apply K0; reflexivity|exact Ha|exact Ha].
Qed.

(** A free thread begins something in one leaf sink: it is busy there at most. *)
Lemma one_kept s tr id t c : PInv s tr -> id < K -> free K s t = true ->
  forall u i j, i < K -> j < K -> 1 <= u <= n ->
    free_in (leaf (set_leaf s id (fst (act s id (MThread t c)))) i) u = false ->
    free_in (leaf (set_leaf s id (fst (act s id (MThread t c)))) j) u = false -> i = j.
Proof.
  intros HV Hid Hf u i j Hi Hj Hu F1 F2. rewrite set_cases in F1, F2. destruct (Nat.eq_dec u t) as [->|Hn].
  - rewrite free_all in Hf. destruct (Nat.eqb_spec i id) as [->|H1]; [|rewrite (Hf i Hi) in F1; discriminate].
    destruct (Nat.eqb_spec j id) as [->|H2]; [reflexivity|rewrite (Hf j Hj) in F2; discriminate].
  - assert (G : forall k, free_in (if Nat.eqb k id then fst (act s id (MThread t c)) else leaf s k) u = free_in (leaf s k) u).
    { intros k. destruct (Nat.eqb_spec k id) as [->|]; [|reflexivity]. unfold free_in, act. rewrite other_place by exact Hn. reflexivity. }
    rewrite G in F1, F2. apply (V_one s tr HV u i j); assumption.
Qed.

Lemma free_in_reach s tr id t : PInv s tr -> id < K -> free_in (leaf s id) t = true -> alive (leaf s id) = true -> 1 <= t ->
  nth_error (thr (leaf s id)) t = Some Idle.
Proof.
  intros HV Hid Hf Ha Ht. destruct (reach_life _ _ _ _ _ (V_leaf s tr HV id Hid)) as (w & cs & Et & _). unfold free_in in Hf. unfold alive in Ha. rewrite Et in *.
  destruct t as [|t]; [lia|]. cbn [nth_error tl] in *. destruct (nth_error cs t) as [p|] eqn:Hp; [|discriminate]. destruct p; try discriminate Hf; [reflexivity|].
  rewrite forallb_forall in Ha. specialize (Ha _ (nth_error_In _ _ Hp)). discriminate.
Qed.

Lemma step_pinv s tr m : PInv s tr -> PInv (fst (pstep s m)) (tr ++ snd (pstep s m)).
Proof.
  intros HV. assert (STAY : PInv s (tr ++ [])) by (rewrite app_nil_r; exact HV).
  destruct m as [t o|t|id m|id t]; cbn [PoolModel.pstep].
  - (* XStart *)
    destruct (is_thread n t && is_nil (todo s t) && free K s t && usable K cf s (sink_of o)) eqn:G; [|exact STAY].
    apply andb_prop in G as [G Gu]. apply andb_prop in G as [G Gf]. apply andb_prop in G as [Gt Gn].
    destruct (plan o) as [cs|] eqn:Po; [|exact STAY]. cbn [fst snd].
    assert (Td : todo s t = []) by (destruct (todo s t); [reflexivity|discriminate]).
    unfold is_thread in Gt. apply andb_prop in Gt as [T1 T2]. apply Nat.leb_le in T1, T2.
    assert (LT : forall id, leaf_trace id (tr ++ [PStart t o]) = leaf_trace id tr) by (intros id; rewrite leaf_trace_app; cbn; apply app_nil_r).
    assert (ST : forall u, flat_map ordered (started u (tr ++ [PStart t o])) = flat_map ordered (started u tr) ++ (if Nat.eqb t u then cs else [])).
    { intros u. rewrite started_app, flat_map_app. f_equal. cbn [started flat_map app]. destruct (Nat.eqb t u); [|reflexivity].
      cbn [flat_map app]. rewrite app_nil_r. unfold ordered. rewrite Po. reflexivity. }
    constructor; cbn [leaf set_todo todo].
    + intros id Hid. rewrite LT. apply (V_leaf s tr HV id Hid).
    + intros u id Hid. rewrite ST, LT, puts_app, (V_puts s tr HV u id Hid). rewrite (Nat.eqb_sym t u). destruct (Nat.eqb_spec u t) as [->|Hn].
      * rewrite Td. cbn [puts flat_map]. rewrite app_nil_r. reflexivity.
      * cbn [puts flat_map]. rewrite app_nil_r. reflexivity.
    + intros u Hu. destruct (Nat.eqb_spec u t) as [->|]; [lia|apply (V_who s tr HV u Hu)].
    + intros u i j. apply (V_one s tr HV).
    + intros u c. destruct (Nat.eqb_spec u t) as [->|]; [|apply (V_alive s tr HV)]. intros Hc Hk.
      apply (usable_alive s (sink_of o)); [exact Gu|apply (plan_target o cs Po c Hc)|exact Hk].
    + intros u id x Hid. rewrite ST, puts_app. intros Hx. apply in_app_iff in Hx. destruct Hx as [Hx|Hx]; [apply (V_fit s tr HV u id x Hid Hx)|].
      destruct (Nat.eqb t u); [|destruct Hx]. apply (plan_fit s o cs id x Po Gu Hid Hx).
  - (* XNext *)
    destruct (todo s t) as [|c cs] eqn:Td; [exact STAY|]. destruct (free K s t) eqn:Gf; [|exact STAY].
    assert (Ht : 1 <= t <= n).
    { destruct (le_dec 1 t); [destruct (le_dec t n)|]; [lia| |]; rewrite (V_who s tr HV t) in Td by lia; discriminate. }
    assert (KEEP : forall u x, In x ((fun v => if Nat.eqb v t then cs else todo s v) u) -> In x (todo s u)).
    { intros u x. cbv beta. destruct (Nat.eqb_spec u t) as [->|]; [|auto]. rewrite Td. intros H. right. exact H. }
    destruct (Nat.ltb_spec (target c) K) as [Hk|Hk].
    + assert (Ha : alive (leaf s (target c)) = true) by (apply (V_alive s tr HV t); [rewrite Td; left; reflexivity|exact Hk]).
      pose proof (free_in_reach s tr (target c) t HV Hk (proj1 (free_all s t) Gf _ Hk) Ha (proj1 Ht)) as Hp.
      rewrite in_leaf_eq. cbn [fst snd]. change (leaf (set_todo s t cs)) with (leaf s). fold (act s (target c) (MThread t (begin_call c))).
      apply (act_inv s tr (target c) (MThread t (begin_call c)) (fun u => if Nat.eqb u t then cs else todo s u) HV Hk).
      * intros u i Hi. rewrite (V_puts s tr HV u i Hi), <- app_assoc. f_equal.
        destruct (Nat.eqb_spec u t) as [->|Hn].
        -- rewrite Td. unfold puts at 1. cbn [flat_map]. fold (puts i cs). f_equal.
           unfold act. cbn [step]. rewrite Hp. destruct c as [id l e|id|id|id]; cbn [target begin_call] in *.
           ++ cbn [step_thread]. rewrite Ha. destruct (Nat.eqb_spec t 0); [lia|]. cbn [negb andb].
              destruct (Nat.eqb id i); [|reflexivity]. destruct (admits _ _); cbn; rewrite Nat.eqb_refl; reflexivity.
           ++ rewrite quiet_step by auto. destruct (Nat.eqb id i); reflexivity.
           ++ rewrite quiet_step by auto. destruct (Nat.eqb id i); reflexivity.
           ++ rewrite quiet_step by auto. destruct (Nat.eqb id i); reflexivity.
        -- destruct (Nat.eqb (target c) i); [|reflexivity]. unfold act. cbn [step]. rewrite Hp.
           destruct (step_own (cf (target c)) (leaf s (target c)) t (begin_call c) Idle Hp) as [O _].
           destruct (own_other t u _ O Hn) as [-> _]. reflexivity.
      * intros u Hu. destruct (Nat.eqb_spec u t) as [->|]; [lia|apply (V_who s tr HV u Hu)].
      * apply (one_kept s tr (target c) t (begin_call c) HV Hk Gf).
      * intros u x Hx Hxk. apply KEEP in Hx. rewrite set_cases. pose proof (V_alive s tr HV u x Hx Hxk) as A.
        destruct (Nat.eqb_spec (target x) (target c)) as [Et|]; [|exact A].
        apply (alive_call (cf (target c)) (op (target c))); [apply (reach_life _ _ _ _ _ (V_leaf s tr HV _ Hk))|exact Ha|exact (proj1 (free_all s t) Gf _ Hk)|destruct c; discriminate].
    + cbn [fst snd]. rewrite app_nil_r. constructor; cbn [leaf set_todo todo].
      * apply (V_leaf s tr HV).
      * intros u i Hi. rewrite (V_puts s tr HV u i Hi). f_equal. destruct (Nat.eqb_spec u t) as [->|]; [|reflexivity]. rewrite Td.
        unfold puts at 1. cbn [flat_map]. fold (puts i cs). destruct c; cbn [target] in *; try reflexivity. destruct (Nat.eqb_spec id i); [lia|reflexivity].
      * intros u Hu. destruct (Nat.eqb_spec u t) as [->|]; [lia|apply (V_who s tr HV u Hu)].
      * apply (V_one s tr HV).
      * intros u x Hx. apply (V_alive s tr HV u x). apply KEEP. exact Hx.
      * apply (V_fit s tr HV).
  - (* XLeaf *)
    destruct (Nat.ltb_spec id K) as [Hid|]; [|exact STAY]. destruct (begins m) eqn:Hb; [exact STAY|]. cbn [negb andb].
    rewrite in_leaf_eq. cbn [fst snd]. fold (act s id m). apply (act_inv s tr id m (todo s) HV Hid).
    + intros u i Hi. rewrite (V_puts s tr HV u i Hi). f_equal. unfold act. rewrite (pushes_quiet _ _ _ Hb). destruct (Nat.eqb id i); rewrite app_nil_r; reflexivity.
    + apply (V_who s tr HV).
    + intros t i j Hi Hj Ht. assert (G : forall k, free_in (leaf (set_leaf s id (fst (act s id m))) k) t = false -> free_in (leaf s k) t = false).
      { intros k. rewrite set_cases. destruct (Nat.eqb_spec k id) as [->|]; [|auto]. intros F. destruct (free_in (leaf s id) t) eqn:F2; [|reflexivity].
        unfold act in F. rewrite (free_kept _ _ m t Hb F2) in F. discriminate. }
      intros F1 F2. apply (V_one s tr HV t i j Hi Hj Ht); apply G; assumption.
    + intros u c Hc Hk. pose proof (V_alive s tr HV u c Hc Hk) as A. rewrite set_cases. destruct (Nat.eqb_spec (target c) id) as [Et|]; [|exact A].
      unfold act. apply (alive_step (cf id) (op id)); [apply (reach_life _ _ _ _ _ (V_leaf s tr HV _ Hid))|congruence|apply begins_no_call; exact Hb].
  - (* XDestroy *)
    destruct (is_thread n t && is_nil (todo s t) && free K s t && (id <? K) && unused n s id) eqn:G; [|exact STAY].
    apply andb_prop in G as [G Gu]. apply andb_prop in G as [G Gk]. apply andb_prop in G as [G Gf]. apply Nat.ltb_lt in Gk.
    rewrite in_leaf_eq. cbn [fst snd]. fold (act s id (MThread t CDestroy)). apply (act_inv s tr id (MThread t CDestroy) (todo s) HV Gk).
    + intros u i Hi. rewrite (V_puts s tr HV u i Hi). f_equal. unfold act. cbn [step]. destruct (nth_error (thr (leaf s id)) t) as [p|].
      * rewrite quiet_step by auto. destruct (Nat.eqb id i); rewrite app_nil_r; reflexivity.
      * destruct (Nat.eqb id i); cbn; rewrite app_nil_r; reflexivity.
    + apply (V_who s tr HV).
    + apply (one_kept s tr id t CDestroy HV Gk Gf).
    + intros u c Hc Hk. rewrite set_cases. destruct (Nat.eqb_spec (target c) id) as [Et|]; [|apply (V_alive s tr HV u c Hc Hk)]. exfalso.
      assert (Hu : 1 <= u <= n).
      { destruct (le_dec 1 u); [destruct (le_dec u n)|]; [lia| |]; rewrite (V_who s tr HV u) in Hc by lia; destruct Hc. }
      unfold unused in Gu. rewrite forallb_forall in Gu. assert (Iu : In u (seq 1 n)) by (apply in_seq; lia).
      specialize (Gu u Iu). rewrite forallb_forall in Gu. specialize (Gu c Hc). rewrite Et, Nat.eqb_refl in Gu. discriminate.
Qed.

Lemma init_pinv : PInv (pinit cf op n) [].
Proof.
  constructor; cbn [pinit leaf todo].
  - intros id _. exists []. reflexivity.
  - reflexivity.
  - reflexivity.
  - intros t i j _ _ Ht F. exfalso. unfold free_in in F. cbn [init thr] in F. destruct t as [|t]; [lia|]. cbn [nth_error] in F.
    rewrite (nth_error_nth' _ Idle) in F by (rewrite repeat_length; lia). rewrite nth_repeat in F. discriminate.
  - intros t c [].
  - intros t id x _ [].
Qed.

Lemma pexec_app s ms ms' : pexec s (ms ++ ms') =
  let '(s1, l1) := pexec s ms in let '(s2, l2) := pexec s1 ms' in (s2, l1 ++ l2).
Proof.
  revert s. induction ms as [|m ms IH]; intros s; cbn [app PoolModel.pexec].
  - destruct (pexec s ms') as [s2 l2]. reflexivity.
  - destruct (pstep s m) as [s1 l1]. rewrite IH. destruct (pexec s1 ms) as [s2 l2]. destruct (pexec s2 ms') as [s3 l3].
    rewrite app_assoc. reflexivity.
Qed.

Lemma exec_pinv ms : forall s tr, PInv s tr -> PInv (fst (pexec s ms)) (tr ++ snd (pexec s ms)).
Proof.
  induction ms as [|m ms IH]; intros s tr HV; cbn [PoolModel.pexec]; [cbn [fst snd]; rewrite app_nil_r; exact HV|].
  pose proof (step_pinv s tr m HV) as H1. destruct (pstep s m) as [s1 l1]. cbn [fst snd] in H1. specialize (IH s1 _ H1).
  destruct (pexec s1 ms) as [s2 l2]. cbn [fst snd] in *. rewrite app_assoc. exact IH.
Qed.

Lemma reach_pinv s tr : preach s tr -> PInv s tr.
Proof. intros (ms & H). pose proof (exec_pinv ms _ _ init_pinv) as G. rewrite H in G. exact G. Qed.

(** ** C101 *)
Theorem leaf_reach s tr id : preach s tr -> id < K -> reach (cf id) (op id) n (leaf s id) (leaf_trace id tr).
Proof. intros H. apply (V_leaf s tr (reach_pinv s tr H)). Qed.

Lemma start_plans s ms : forall t o, In o (started t (snd (pexec s ms))) -> exists cs, plan o = TreeModel.Done cs.
Proof.
  revert s. induction ms as [|m ms IH]; intros s t o; cbn [PoolModel.pexec]; [intros []|].
  destruct (pstep s m) as [s1 l1] eqn:E1. destruct (pexec s1 ms) as [s2 l2] eqn:E2. cbn [snd]. rewrite started_app. intros H. apply in_app_iff in H.
  destruct H as [H|H]; [|apply (IH s1 t o); rewrite E2; exact H].
  assert (Q : forall id (x : list (label E)), In o (started t (map (PLeaf id) x)) -> False) by (intros id x; rewrite started_map; intros []).
  destruct m as [u o'|u|id m|id u]; cbn [PoolModel.pstep] in E1.
  - destruct (_ && _ && _ && _); [|injection E1 as <- <-; destruct H]. destruct (plan o') as [cs|] eqn:P; [|injection E1 as <- <-; destruct H].
    injection E1 as <- <-. cbn in H. destruct (Nat.eqb u t); [|destruct H]. destruct H as [<-|[]]. exists cs. exact P.
  - exfalso. destruct (todo s u); [injection E1 as <- <-; destruct H|]. destruct (free K s u); [|injection E1 as <- <-; destruct H].
    destruct (Nat.ltb _ _); [|injection E1 as <- <-; destruct H]. rewrite in_leaf_eq in E1. injection E1 as <- <-. eapply Q. exact H.
  - exfalso. destruct (_ && _); [|injection E1 as <- <-; destruct H]. rewrite in_leaf_eq in E1. injection E1 as <- <-. eapply Q. exact H.
  - exfalso. destruct (_ && _); [|injection E1 as <- <-; destruct H]. rewrite in_leaf_eq in E1. injection E1 as <- <-. eapply Q. exact H.
Qed.

Lemma puts_copies s tr t id : preach s tr -> map snd (puts id (flat_map ordered (started t tr))) = flat_map (copies id) (started t tr).
Proof.
  intros (ms & H). assert (P : forall o, In o (started t tr) -> exists cs, plan o = TreeModel.Done cs).
  { intros o Ho. apply (start_plans (pinit cf op n) ms t o). rewrite H. exact Ho. }
  clear H. induction (started t tr) as [|o os IH]; [reflexivity|]. cbn [flat_map]. rewrite puts_app, map_app, IH by (intros x Hx; apply P; right; exact Hx).
  f_equal. destruct (P o (or_introl eq_refl)) as (cs & Hc). unfold ordered. rewrite Hc. apply plan_puts. exact Hc.
Qed.

(** All that was to come, what came, what is being put and what is still to be put. *)
Lemma balance s tr t id : preach s tr -> id < K -> 1 <= t <= n ->
  flat_map (copies id) (started t tr) =
  accepted_by t (leaf_trace id tr) ++ trying (pc_of (leaf s id) t) ++ map snd (puts id (todo s t)).
Proof.
  intros Hr Hid Ht. pose proof (reach_pinv s tr Hr) as HV. pose proof (V_leaf s tr HV id Hid) as HL.
  assert (L : t < length (thr (leaf s id))) by (rewrite (len_reach _ _ _ _ HL); lia).
  rewrite <- (puts_copies s tr t id Hr), (V_puts s tr HV t id Hid), map_app, app_assoc. f_equal.
  rewrite <- (reach_pushes _ _ _ _ _ HL t L), admitted_for_sink. unfold for_sink_by. f_equal.
  assert (F : forall x, In x (pushes_by t (leaf_trace id tr)) -> for_sink (c_level (cf id)) (fst x) = true).
  { intros x Hx. apply (V_fit s tr HV t id x Hid). rewrite (V_puts s tr HV t id Hid). apply in_or_app. auto. }
  clear - F. induction (pushes_by t (leaf_trace id tr)) as [|x l IH]; [reflexivity|]. cbn [filter].
  rewrite (F x (or_introl eq_refl)). f_equal. apply IH. intros y Hy. apply F. right. exact Hy.
Qed.

Lemma free_trying s tr id t : preach s tr -> id < K -> free_in (leaf s id) t = true -> trying (pc_of (leaf s id) t) = [].
Proof.
  intros _ _ Hf. unfold free_in in Hf. unfold pc_of. destruct (nth_error (thr (leaf s id)) t) as [p|] eqn:Hp; [|discriminate].
  rewrite (nth_error_nth _ _ _ Hp). destruct p; try discriminate Hf; reflexivity.
Qed.

Theorem delivered s tr t id : preach s tr -> id < K -> 1 <= t <= n -> resting K s t ->
  accepted_by t (leaf_trace id tr) = flat_map (copies id) (started t tr).
Proof.
  intros Hr Hid Ht [R1 R2]. rewrite (balance s tr t id Hr Hid Ht), R1, (free_trying s tr id t Hr Hid (R2 id Hid)). cbn. rewrite app_nil_r. reflexivity.
Qed.

Theorem never_more s tr t id : preach s tr -> id < K -> 1 <= t <= n ->
  is_prefix (accepted_by t (leaf_trace id tr)) (flat_map (copies id) (started t tr)).
Proof. intros Hr Hid Ht. rewrite (balance s tr t id Hr Hid Ht). eexists. reflexivity. Qed.

Theorem only_threads s tr id : preach s tr -> id < K -> Forall (fun x => 1 <= fst x <= n) (accepts (leaf_trace id tr)).
Proof.
  intros Hr Hid. pose proof (leaf_reach s tr id Hr Hid) as HL.
  enough (G : forall (a : state E) ls, reach (cf id) (op id) n a ls -> Forall (fun x => 1 <= fst x <= n) (accepts ls)) by (eapply G; exact HL).
  clear s tr Hr HL. intros a ls HL. refine (reach_ind (cf id) (op id) n (fun a ls => Forall (fun x => 1 <= fst x <= n) (accepts ls)) _ _ a ls HL).
  - constructor.
  - intros s0 l0 m Hr IH. rewrite accepts_app. apply Forall_app. split; [exact IH|]. destruct m as [t c|k]; cbn [step]; [|constructor].
    destruct (nth_error (thr s0) t) as [p|] eqn:Hp; [|constructor].
    assert (T : t < S n) by (rewrite <- (len_reach _ _ _ _ Hr); apply nth_error_Some; congruence).
    destruct (step_own (cf id) s0 t c p Hp) as [O _]. apply Forall_forall. intros [u e] Hx. cbn [fst].
    assert (U : u = t /\ In (LAccept u e) (snd (step_thread (cf id) s0 t c p))).
    { unfold accepts in Hx. apply in_flat_map in Hx. destruct Hx as (l & L1 & L2). destruct l; try contradiction. destruct L2 as [L2|[]].
      rewrite Forall_forall in O. specialize (O _ L1). injection L2 as -> ->. cbn in O. auto. }
    destruct U as [-> Hl]. assert (t <> 0); [|lia]. intros ->. destruct (reach_life _ _ _ _ _ Hr) as (w & cs & Et & Hw & _). rewrite Et in Hp. injection Hp as <-.
    destruct w as [ |e'|x e'|x e'| | | |kk|kk|kk e'|kk oe|kk|kk|kk|kk|kk|kk| | | | | | | | | ]; try discriminate Hw; cbn [step_thread] in Hl;
      repeat match type of Hl with context [match ?x with _ => _ end] => destruct x end; cbn in Hl;
      repeat (destruct Hl as [Hl|Hl]; try discriminate Hl); try destruct Hl; destruct kk; cbn in Hl; intuition discriminate.
Qed.

Theorem all_destroyed s tr u t id : preach s tr -> id < K -> In (LDestroyed u) (leaf_trace id tr) -> 1 <= t <= n ->
  accepted_by t (leaf_trace id tr) = flat_map (copies id) (started t tr).
Proof.
  intros Hr Hid Hd Ht. pose proof (reach_pinv s tr Hr) as HV. pose proof (leaf_reach s tr id Hr Hid) as HL.
  destruct (destroyed_dead (cf id) (op id) n (leaf s id) _ u HL Hd) as [Hu _].
  assert (U0 : u <> 0).
  { intros ->. destruct (reach_life _ _ _ _ _ HL) as (w & cs & Et & Hw & _). rewrite Et in Hu. injection Hu as ->. discriminate. }
  assert (F : free_in (leaf s id) t = true).
  { unfold free_in. destruct (nth_error (thr (leaf s id)) t) as [p|] eqn:Hp; [|apply nth_error_None in Hp; rewrite (len_reach _ _ _ _ HL) in Hp; lia].
    destruct (Nat.eq_dec t u) as [->|Hn]; [rewrite Hu in Hp; injection Hp as <-; reflexivity|].
    rewrite (destroyer_others (cf id) (op id) (leaf s id) u Dead t p (reach_life _ _ _ _ _ HL) Hu eq_refl Hp Hn); [reflexivity|lia]. }
  assert (A : alive (leaf s id) = false).
  { destruct (alive (leaf s id)) eqn:A; [|reflexivity]. destruct (reach_life _ _ _ _ _ HL) as (w & cs & Et & _). unfold alive in A. rewrite Et in A, Hu.
    destruct u as [|u]; [congruence|]. cbn [nth_error tl] in *. rewrite forallb_forall in A. specialize (A _ (nth_error_In _ _ Hu)). discriminate. }
  rewrite (balance s tr t id Hr Hid Ht), (free_trying s tr id t Hr Hid F). cbn [app].
  assert (P : puts id (todo s t) = []).
  { assert (G : forall c, In c (todo s t) -> target c <> id).
    { intros c Hc Ec. pose proof (V_alive s tr HV t c Hc ltac:(lia)). congruence. }
    clear - G. induction (todo s t) as [|c cs IH]; [reflexivity|]. unfold puts. cbn [flat_map]. fold (puts id cs). rewrite IH by (intros x Hx; apply G; right; exact Hx).
    rewrite app_nil_r. specialize (G c (or_introl eq_refl)). destruct c; try reflexivity. cbn in G. destruct (Nat.eqb_spec id0 id); [contradiction|reflexivity]. }
  rewrite P. cbn. rewrite app_nil_r. reflexivity.
Qed.

End Pool.
