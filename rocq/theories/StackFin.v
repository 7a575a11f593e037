(** * A program configured by a document comes to its end, circular buffers included (C122) *)
From Coq Require Import Ascii String NArith ZArith List Arith Bool Lia.
From Verif Require Import Base LevelModel SinkConfig SysModel SysSpec YamlModel YamlSpec YamlActSpec DeployModel DeploySpec DeployProofs DeployEnd StackModel StackProofs StackDoc StackEnd.
From Verif Require EventModel RecordModel SinkModel SinkSpec FullModel FullProofs PoolModel PoolSpec PoolProofs PoolFair PoolEnd EndModel EndSpec.
Import ListNotations.

Section Run.
Variable lt : N -> RecordModel.tm.
Variable memory : EventModel.mem.
Variable address : N.
Variable fg_first : bool.
Variable ds : list sink_desc.
Variable op : nat -> bool.
Variable n : nat.
Variable ord : list nat -> list nat.
Variable dbg : bool.
Notation cfg_at := (cfg_at lt memory address fg_first ds).
Notation count := (count ds).
Notation xstep := (xstep lt memory address fg_first ds n ord dbg).
Notation xexec := (xexec lt memory address fg_first ds n ord dbg).
Notation xstart := (xstart lt memory address fg_first ds op n).
Notation spexec := (spexec count cfg_at n).
Notation reached_by := (reached_by lt memory address fg_first ds op n ord dbg).

Lemma xexec_app a : forall x b x1 l1, xexec x a = Some (x1, l1) ->
  xexec x (a ++ b) = match xexec x1 b with Some (x2, l2) => Some (x2, l1 ++ l2) | None => None end.
Proof.
  induction a as [|m a IH]; intros x b x1 l1 H; cbn [List.app StackModel.xexec] in *.
  - injection H as -> <-. destruct (xexec x1 b) as [[x2 l2]|]; reflexivity.
  - destruct (xstep x m) as [[x3 l3]|]; [|discriminate]. destruct (xexec x3 a) as [[x4 l4]|] eqn:H3; [|discriminate].
    injection H as -> <-. rewrite (IH _ b _ _ H3). destruct (xexec x1 b) as [[x2 l2]|]; [|reflexivity]. rewrite app_assoc. reflexivity.
Qed.

(** Without new calls, only the sinks go on. *)
Lemma stack_goes_on ms : forall x p l, Forall PoolSpec.closing ms -> (x_up x = false \/ Forall PoolSpec.goes_on ms) ->
  spexec (x_pool x) ms = Some (p, l) -> xexec x (map DPool ms) = Some (mkX (x_sys x) p (x_up x), map DIn l).
Proof.
  induction ms as [|m ms IH]; intros x p l HC HU H; cbn [map StackModel.xexec StackModel.spexec] in *.
  - injection H as <- <-. destruct x; reflexivity.
  - inversion HC as [|? ? C1 C2]; subst.
    assert (OK : match m with PoolModel.XStart _ _ => false | PoolModel.XDestroy _ _ => negb (x_up x) | _ => true end = true).
    { destruct m; try reflexivity; [destruct C1|]. destruct HU as [->|HU]; [reflexivity|]. inversion HU as [|? ? U1 U2]; subst. destruct U1. }
    cbn [StackModel.xstep]. rewrite OK. unfold xin_pool.
    destruct (spstep count cfg_at n (x_pool x) m) as [[p1 l1]|]; [|discriminate].
    destruct (spexec p1 ms) as [[p2 l2]|] eqn:E2; [|discriminate]. injection H as <- <-.
    rewrite (IH (mkX (x_sys x) p1 (x_up x)) p2 l2 C2); [cbn [x_sys x_up]; rewrite map_app; reflexivity| |exact E2].
    destruct HU as [HU|HU]; [left; exact HU|inversion HU; right; assumption].
Qed.

Section Any.
Hypothesis caps : forall id, 1 <= SinkModel.c_cap (cfg_at id).
Hypothesis OK : open_ok ds op.

Definition at_rest (x : xstate) (t : nat) : Prop :=
  stodo (x_pool x) t = [] /\ forall id, id < count -> PoolModel.free_in (FullModel.outside (sleaf (x_pool x) id)) t = true.

Lemma reached_pool s0 ms x tr : xexec (xstart s0) ms = Some (x, tr) ->
  exists ms' s, reached_by s0 ms' s tr /\ like cfg_at (x_pool x) (d_pool s) /\ PoolProofs.PInv count cfg_at op n (d_pool s) (inside tr).
Proof.
  intros X.
  destruct (similar_exec lt memory address fg_first ds n ord dbg ms (xstart s0) (dstart lt memory address fg_first ds op n s0)) as (x2 & tr2 & ms' & s & X2 & D & [A B LK] & F).
  { constructor; [reflexivity|reflexivity|]. apply like_init. exact caps. }
  rewrite X in X2. injection X2 as <- <-. exists ms', s. split; [exact D|]. split; [exact LK|].
  apply PoolProofs.reach_pinv. exact (to_pool _ _ _ _ _ _ _ _ _ _ _ _ _ D).
Qed.

Lemma rest_as p pd t : like cfg_at p pd -> PoolSpec.resting count pd t ->
  stodo p t = [] /\ forall id, id < count -> PoolModel.free_in (FullModel.outside (sleaf p id)) t = true.
Proof.
  intros LK [R1 R2]. split; [rewrite (l_todo _ _ _ LK); exact R1|]. intros id Hid. destruct (l_leaf _ _ _ LK id) as [g R].
  rewrite (rel_free _ _ _ _ t R). exact (R2 id Hid).
Qed.

Theorem any_calls_end s0 ms x tr : xexec (xstart s0) ms = Some (x, tr) ->
  exists pms x' l, Forall PoolSpec.goes_on pms /\ xexec x (map DPool pms) = Some (x', l) /\
    (forall t, said_by t l = []) /\ x_sys x' = x_sys x /\ x_up x' = x_up x /\ forall t, 1 <= t <= n -> at_rest x' t.
Proof.
  intros X. destruct (reached_pool _ _ _ _ X) as (ms' & s & _ & LK & V).
  destruct (stack_calls_end count cfg_at op n (fun id _ => caps id) (fun id _ => cfg_sizes lt memory address fg_first ds id)
    (fun id _ => cfg_dest lt memory address fg_first ds op OK id) _ _ _ LK V) as (pms & p & pl & pms' & pd & G1 & S1 & _ & _ & LK' & R).
  exists pms, (mkX (x_sys x) p (x_up x)), (map DIn pl). split; [exact G1|].
  split; [exact (stack_goes_on pms x p pl (goes_closing pms G1) (or_intror G1) S1)|]. split; [intros t; apply said_map|].
  split; [reflexivity|]. split; [reflexivity|]. intros t Ht. exact (rest_as _ _ t LK' (R t Ht)).
Qed.

Theorem any_ends s0 ms x tr : 1 <= n -> xexec (xstart s0) ms = Some (x, tr) ->
  exists pms x' l, Forall PoolSpec.closing pms /\ xexec x (DEnd :: map DPool pms) = Some (x', l) /\
    (forall t, said_by t l = []) /\ (forall t, 1 <= t <= n -> at_rest x' t) /\
    forall id, id < count -> exists u, In (SinkModel.LDestroyed u) (in_sink id (tr ++ l)).
Proof.
  intros Hn X. destruct (reached_pool _ _ _ _ X) as (ms' & s & D & LK & V).
  destruct (stack_closes count cfg_at op n (fun id _ => caps id) (fun id _ => cfg_sizes lt memory address fg_first ds id)
    (fun id _ => cfg_dest lt memory address fg_first ds op OK id) _ _ _ Hn LK V) as (pms & p & pl & pms' & pd & G1 & S1 & G2 & S2 & LK' & R & Gone).
  pose (x1 := mkX (x_sys x) (x_pool x) false).
  assert (EE : xexec x (DEnd :: map DPool pms) = Some (mkX (x_sys x) p false, map DIn pl)).
  { cbn [StackModel.xexec StackModel.xstep]. fold x1. rewrite (stack_goes_on pms x1 p pl G1 (or_introl eq_refl) S1). reflexivity. }
  exists pms, (mkX (x_sys x) p false), (map DIn pl). split; [exact G1|]. split; [exact EE|]. split; [intros t; apply said_map|].
  split; [intros t Ht; exact (rest_as _ _ t LK' (R t Ht))|].
  intros id Hid. destruct (Gone id Hid) as (u & Hu). exists u.
  assert (HR' : reached_by s0 (ms' ++ DEnd :: map DPool pms') (mkD (d_sys s) pd false) (tr ++ map DIn pl)).
  { unfold DeployProofs.reached_by in *. rewrite dexec_app, D. cbn [DeployModel.dexec DeployModel.dstep].
    rewrite (sinks_go_on lt memory address fg_first ds n ord dbg pms' (mkD (d_sys s) (d_pool s) false) G2 (or_introl eq_refl)). cbn [d_sys d_pool d_up]. rewrite S2. reflexivity. }
  apply (PoolEnd.dead_label _ _ _ _ _ _ (PoolProofs.leaf_reach count cfg_at op n _ _ id (to_pool _ _ _ _ _ _ _ _ _ _ _ _ _ HR') Hid) Hu).
Qed.
End Any.

(** For a document. *)
Section Doc.
Variable L : lib.
Variable busy : bool.
Variable doc : node.
Variable w1 : world.
Variable gs : list gdecl.
Hypothesis DR : doc_read L false (before_configure busy) doc w1 gs.
Hypothesis HD : ds = sinks_of (w_log w1).
Hypothesis OK : open_ok ds op.
Let caps id : 1 <= SinkModel.c_cap (cfg_at id) := doc_caps lt memory address fg_first ds L busy doc w1 gs DR HD id.

Theorem program_calls_end s0 ms x tr : xexec (xstart s0) ms = Some (x, tr) ->
  exists pms x' l, Forall PoolSpec.goes_on pms /\ xexec x (map DPool pms) = Some (x', l) /\
    (forall t, said_by t l = []) /\ x_sys x' = x_sys x /\ x_up x' = x_up x /\ forall t, 1 <= t <= n -> at_rest x' t.
Proof. exact (any_calls_end caps OK s0 ms x tr). Qed.

Theorem program_ends s0 ms x tr : 1 <= n -> xexec (xstart s0) ms = Some (x, tr) ->
  exists pms x' l, Forall PoolSpec.closing pms /\ xexec x (DEnd :: map DPool pms) = Some (x', l) /\
    (forall t, said_by t l = []) /\ (forall t, 1 <= t <= n -> at_rest x' t) /\
    forall id, id < count -> exists u, In (SinkModel.LDestroyed u) (in_sink id (tr ++ l)).
Proof. exact (any_ends caps OK s0 ms x tr). Qed.
End Doc.

(** With it, everything said so far is read back. *)
Theorem program_ends_complete L fuel : usual_lib L -> refuses_huge_buffers L ->
  forall busy src doc w1 gs, document src doc -> doc_read L false (before_configure busy) doc w1 gs ->
    NoDup (map e_name (all_entries None gs)) -> ds = sinks_of (w_log w1) -> open_ok ds op -> 1 <= n ->
  forall w' ms x tr,
    fst (yaml L ord fuel dbg None src (before_configure busy)) = w' -> Forall plain ms -> xexec (xstart (w_sys w')) ms = Some (x, tr) ->
    platform_ok L lt address ->
    (forall t g Lg e id, In (DSaid t g Lg e) tr ->
       EndSpec.call_ok (logged_at id (named Lg e)) /\ EndSpec.legible (logged_at id (named Lg e))) ->
  exists pms x' l, Forall PoolSpec.closing pms /\ xexec x (DEnd :: map DPool pms) = Some (x', l) /\
    (forall t, said_by t l = []) /\
    forall j d path ti z, nth_error ds j = Some d -> d_kind d = KFile path ti z -> z_latency z <> Some 0%N -> op (S j) = true ->
      let F := file_settings lt memory address (d_level d) ti z in
      exists runs : list (list (nat * said)),
        map (EndSpec.read_file F) (SinkSpec.disk (FullModel.rest (sleaf (x_pool x') (S j)))) =
          map (map (fun x => EndSpec.reads F (logged_at (S j) (snd x)))) runs /\
        Forall (fun x => 1 <= fst x <= n) (concat runs) /\
        forall t, 1 <= t <= n ->
          map snd (filter (fun x => Nat.eqb (fst x) t) (concat runs)) = flat_map (due gs ds (S j)) (said_by t tr).
Proof.
  intros UL RH busy src doc w1 gs D DR ND HD OK Hn w' ms x tr EY HP X PO SC.
  destruct (program_ends L busy doc w1 gs DR HD OK (w_sys w') ms x tr Hn X) as (pms & x' & l & C1 & C2 & C3 & _ & C5).
  exists pms, x', l. split; [exact C1|]. split; [exact C2|]. split; [exact C3|].
  intros j d path ti z Ej Ek Hz Ho F.
  assert (Hid : S j < count) by (unfold DeployModel.count; apply -> Nat.succ_lt_mono; apply nth_error_Some; congruence).
  destruct (C5 (S j) Hid) as (u & Hu).
  assert (X' : xexec (xstart (w_sys w')) (ms ++ DEnd :: map DPool pms) = Some (x', tr ++ l)) by (rewrite (xexec_app ms _ _ _ _ X), C2; reflexivity).
  assert (HP' : Forall plain (ms ++ DEnd :: map DPool pms)).
  { apply Forall_app. split; [exact HP|]. constructor; [exact I|]. apply Forall_map, Forall_forall. intros; exact I. }
  assert (SC' : forall t g Lg e, In (DSaid t g Lg e) (tr ++ l) -> EndSpec.call_ok (logged_at (S j) (named Lg e)) /\ EndSpec.legible (logged_at (S j) (named Lg e))).
  { intros t g Lg e He. apply in_app_or in He. destruct He as [He|He]; [apply (SC t g Lg e (S j) He)|].
    exfalso. assert (In (g, Lg, e) (said_by t l)) as Hi; [|rewrite C3 in Hi; exact Hi].
    unfold said_by. apply in_flat_map. exists (DSaid t g Lg e). split; [exact He|]. rewrite Nat.eqb_refl. now left. }
  destruct (stack_read_back lt memory address fg_first ds op n ord dbg L fuel UL RH busy src doc w1 gs D DR ND HD w' _ x' (tr ++ l) j d path ti z u
    EY HP' X' Ej Ek Hz Ho Hu PO SC') as (_ & _ & _ & runs & _ & R2 & R3 & R4).
  exists runs. split; [exact R2|]. split; [exact R3|]. intros t Ht. rewrite (R4 t Ht), said_app, C3, app_nil_r. reflexivity.
Qed.
End Run.
