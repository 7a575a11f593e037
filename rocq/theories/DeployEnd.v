(** * Proofs for C119: a program configured by a document comes to its end *)
From Coq Require Import Ascii String NArith ZArith List Arith Bool Lia.
From Verif Require Import Base LevelModel SinkConfig SysModel SysSpec YamlModel YamlSpec YamlActSpec YamlDoc DeployModel DeploySpec DeployProofs.
From Verif Require EventModel RecordModel RecordSpec SinkModel SinkSpec TreeModel TreeSpec PoolModel PoolSpec PoolProofs PoolFair PoolEnd EndModel EndSpec EndProofs.
Import ListNotations.

Section Run.
Variable lt : N -> RecordModel.tm.
Variable memory : EventModel.mem.
Variable address : N.
Variable fg_first : bool.
Variable ds : list sink_desc.
Variable op : nat -> bool.
Variable n : nat.
Variable ord : list nat -> list nat.
Variable dbg : bool.

Notation cfg_at := (cfg_at lt memory address fg_first ds).
Notation count := (count ds).
Notation dstep := (dstep lt memory address fg_first ds n ord dbg).
Notation dexec := (dexec lt memory address fg_first ds n ord dbg).
Notation pexec := (PoolModel.pexec count cfg_at n).
Notation reached_by := (reached_by lt memory address fg_first ds op n ord dbg).

Lemma dexec_app a : forall s b, dexec s (a ++ b) =
  let '(s1, l1) := dexec s a in let '(s2, l2) := dexec s1 b in (s2, l1 ++ l2).
Proof.
  induction a as [|m a IH]; intros s b; cbn [List.app DeployModel.dexec]; [destruct (dexec s b); reflexivity|].
  destruct (dstep s m) as [s1 l1]. rewrite IH. destruct (dexec s1 a) as [s2 l2]. destruct (dexec s2 b) as [s3 l3]. rewrite app_assoc. reflexivity.
Qed.

(** Without new calls, only the sinks go on. *)
Lemma sinks_go_on ms : forall s, Forall PoolSpec.closing ms -> (d_up s = false \/ Forall PoolSpec.goes_on ms) ->
  dexec s (map DPool ms) = (mkD (d_sys s) (fst (pexec (d_pool s) ms)) (d_up s), map DIn (snd (pexec (d_pool s) ms))).
Proof.
  induction ms as [|m ms IH]; intros s HC HU; cbn [map DeployModel.dexec PoolModel.pexec]; [destruct s; reflexivity|].
  inversion HC as [|? ? C1 C2]; subst.
  assert (OK : match m with PoolModel.XStart _ _ => false | PoolModel.XDestroy _ _ => negb (d_up s) | _ => true end = true).
  { destruct m; try reflexivity; [destruct C1|]. destruct HU as [->|HU]; [reflexivity|]. inversion HU as [|? ? U1 U2]; subst. destruct U1. }
  cbn [DeployModel.dstep]. rewrite OK, in_pool_eq.
  destruct (PoolModel.pstep count cfg_at n (d_pool s) m) as [p1 l1]. cbn [fst snd] in *.
  rewrite IH; [|exact C2|destruct HU as [->|HU]; [left; reflexivity|inversion HU; right; assumption]].
  cbn [d_sys d_pool d_up]. destruct (pexec p1 ms) as [p2 l2]. cbn [fst snd]. rewrite map_app. reflexivity.
Qed.

Lemma on_closing ms : Forall (@PoolSpec.goes_on said) ms -> Forall PoolSpec.closing ms.
Proof. apply Forall_impl. intros [| | |]; cbn; auto. Qed.

Lemma cfg_sizes id : SinkSpec.sizes_ok (cfg_at id).
Proof.
  assert (G : forall k F r, SinkSpec.sizes_ok (leaf_cfg k id F r)) by (intros k F r e; exact (EndProofs.file_sizes F (logged_at id e))).
  unfold DeployModel.cfg_at. destruct id as [|j]; [apply G|]. destruct (nth_error ds j) as [d|]; [|apply G]. destruct (d_kind d); apply G.
Qed.

(** Console and syslog sinks have their destination (only a file may fail to open). *)
Definition open_ok : Prop := forall j d, nth_error ds j = Some d -> op (S j) = false -> exists path ti z, d_kind d = KFile path ti z.

Lemma cfg_dest : open_ok -> forall id, SinkSpec.has_dest (cfg_at id) (op id).
Proof.
  intros OK id. destruct (op id) eqn:Ho; [right; reflexivity|left]. unfold DeployModel.cfg_at. destruct id as [|j]; [reflexivity|].
  destruct (nth_error ds j) as [d|] eqn:Ej; [|reflexivity]. destruct (OK j d Ej Ho) as (path & ti & z & ->). reflexivity.
Qed.

Section Doc.
Variable L : lib.
Variable busy : bool.
Variable doc : node.
Variable w1 : world.
Variable gs : list gdecl.
Hypothesis DR : doc_read L false (before_configure busy) doc w1 gs.
Hypothesis HD : ds = sinks_of (w_log w1).

Lemma doc_capacity d : In d ds -> match d_kind d with
  | KFile _ _ z | KSyslog _ _ z | KConsole _ _ _ z => (forall c, z_capacity z = Some c -> 4 <= c)%N
  | KMulti _ => True
  end.
Proof.
  intros Hd.
  assert (HS : exists m x, sink_read L m x d).
  { rewrite HD in Hd. assert (forall w l w2, sinks_read L w l w2 -> In d (sinks_of (w_log w2)) -> In d (sinks_of (w_log w)) \/ exists m x, sink_read L m x d).
    { induction 1 as [w|w x d0 l w2 SR M C SS IH]; [auto|]. intros H. destruct (IH H) as [H1|H1]; [|now right].
      unfold world_with_sink in H1. cbn [w_log] in H1. unfold sinks_of in H1. rewrite flat_map_app in H1. apply in_app_or in H1.
      destruct H1 as [H1|[->|[]]]; [now left|]. right. eauto. }
    destruct DR as (_ & [[_ ->]|(l & _ & HS)] & _); [destruct Hd|]. destruct (H _ _ _ HS Hd) as [[]|G]. exact G. }
  destruct HS as (m & x & _ & _ & _ & KR).
  assert (G : forall b z, sizes_read L b x z -> forall c, z_capacity z = Some c -> (4 <= c)%N).
  { intros b z (S1 & _) c Hc. inversion S1 as [H0 H1|t v Ht (y & Hx & Hg & Hv) H1]; [congruence|]. unfold good_capacity in Hg. assert (c = Z.to_N y) as -> by congruence. lia. }
  inversion KR; cbn; eauto.
Qed.

Lemma doc_caps id : 1 <= SinkModel.c_cap (cfg_at id).
Proof.
  assert (G : forall k F r, (1 <= N.of_nat (EndModel.f_capacity F))%N -> 1 <= SinkModel.c_cap (leaf_cfg k id F r)).
  { intros k F r H. cbn [leaf_cfg SinkModel.c_cap EndModel.file_sink]. lia. }
  assert (G0 : forall k lv ti z r, (forall c, z_capacity z = Some c -> (4 <= c)%N) -> 1 <= SinkModel.c_cap (leaf_cfg k id (file_settings lt memory address lv ti z) r)).
  { intros k lv ti z r H. apply G. unfold file_settings. cbn [EndModel.f_capacity]. rewrite N2Nat.id. destruct (z_capacity z) as [c|] eqn:Hc; cbn [or_default];
    [specialize (H c eq_refl); lia|unfold file_capacity_default; lia]. }
  assert (G1 : forall k lv ti z r, (forall c, z_capacity z = Some c -> (4 <= c)%N) -> 1 <= SinkModel.c_cap (leaf_cfg k id (console_settings lt memory address lv ti z) r)).
  { intros k lv ti z r H. apply G. unfold console_settings. cbn [EndModel.f_capacity]. rewrite N2Nat.id. destruct (z_capacity z) as [c|] eqn:Hc; cbn [or_default];
    [specialize (H c eq_refl); lia|unfold console_capacity_default; lia]. }
  assert (NO : forall c : N, z_capacity (mkSizes None None None None) = Some c -> (4 <= c)%N) by discriminate.
  unfold DeployModel.cfg_at. destruct id as [|j]; [apply G0, NO|]. destruct (nth_error ds j) as [d|] eqn:Ej; [|apply G0, NO].
  pose proof (doc_capacity d (nth_error_In _ _ Ej)) as C. destruct (d_kind d); [apply G1|apply G0|apply G0|apply G0, NO]; exact C.
Qed.

(** All calls return. *)
Theorem doc_all_end s0 ms s tr k more s' l : open_ok -> reached_by s0 ms s tr ->
  PoolSpec.prounds count cfg_at n k (d_pool s) more ->
  PoolSpec.enough count cfg_at n (d_pool s) + 101 * List.length (filter PoolSpec.weak more) <= k ->
  dexec s (map DPool more) = (s', l) -> forall t, 1 <= t <= n -> PoolSpec.resting count (d_pool s') t.
Proof.
  intros OK HR PR Hk HE t Ht. pose proof (PoolFair.prounds_on _ _ _ _ _ _ PR) as ON.
  rewrite (sinks_go_on more s (on_closing _ ON) (or_intror ON)) in HE.
  apply (f_equal fst) in HE. cbn [fst] in HE. subst s'. cbn [d_pool].
  apply (PoolEnd.all_end count cfg_at op n (fun id _ => doc_caps id) (fun id _ => cfg_sizes id) (fun id _ => cfg_dest OK id)
    (d_pool s) (inside tr) k more _ (snd (pexec (d_pool s) more)) (to_pool _ _ _ _ _ _ _ _ _ _ _ _ _ HR) PR Hk); [apply surjective_pairing|exact Ht].
Qed.

(** And the end can always be reached. *)
Theorem doc_can_end s0 ms s tr : open_ok -> 1 <= n -> reached_by s0 ms s tr ->
  exists pms s' l, Forall PoolSpec.closing pms /\ dexec s (DEnd :: map DPool pms) = (s', l) /\
    (forall t, said_by t l = []) /\ (forall t, 1 <= t <= n -> PoolSpec.resting count (d_pool s') t) /\
    forall id, id < count -> exists u, In (SinkModel.LDestroyed u) (in_sink id (tr ++ l)).
Proof.
  intros OK Hn HR. pose proof (to_pool _ _ _ _ _ _ _ _ _ _ _ _ _ HR) as PR.
  destruct (PoolEnd.can_close count cfg_at op n (fun id _ => doc_caps id) (fun id _ => cfg_sizes id) (fun id _ => cfg_dest OK id)
    (d_pool s) (inside tr) Hn PR) as (pms & p' & pl & C1 & C2 & C3 & C4).
  pose (s1 := mkD (d_sys s) (d_pool s) false).
  assert (EE : dexec s (DEnd :: map DPool pms) = (mkD (d_sys s) p' false, map DIn pl)).
  { cbn [DeployModel.dexec DeployModel.dstep]. fold s1. rewrite (sinks_go_on pms s1 C1 (or_introl eq_refl)). cbn [s1 d_sys d_pool d_up]. rewrite C2. reflexivity. }
  exists pms, (mkD (d_sys s) p' false), (map DIn pl). split; [exact C1|]. split; [exact EE|]. split; [intros t; apply said_map|]. split; [exact C3|].
  intros id Hid. destruct (C4 id Hid) as (u & Hu). exists u.
  assert (HR' : reached_by s0 (ms ++ DEnd :: map DPool pms) (mkD (d_sys s) p' false) (tr ++ map DIn pl)).
  { unfold DeployProofs.reached_by in *. rewrite dexec_app, HR, EE. reflexivity. }
  apply (PoolEnd.dead_label _ _ _ _ _ _ (PoolProofs.leaf_reach count cfg_at op n _ _ id (to_pool _ _ _ _ _ _ _ _ _ _ _ _ _ HR') Hid) Hu).
Qed.
End Doc.

(** With it, everything said so far is read back. *)
Theorem doc_ends_complete L fuel : usual_lib L -> refuses_huge_buffers L ->
  forall busy src doc w1 gs, document src doc -> doc_read L false (before_configure busy) doc w1 gs ->
    NoDup (map e_name (all_entries None gs)) -> ds = sinks_of (w_log w1) ->
  forall w' ms s tr,
    fst (yaml L ord fuel dbg None src (before_configure busy)) = w' -> Forall plain ms -> reached_by (w_sys w') ms s tr ->
    open_ok -> 1 <= n -> platform_ok L lt address ->
    (forall t g Lg e id, In (DSaid t g Lg e) tr ->
       EndSpec.call_ok (logged_at id (named Lg e)) /\ EndSpec.legible (logged_at id (named Lg e))) ->
  exists pms s' l, Forall PoolSpec.closing pms /\ dexec s (DEnd :: map DPool pms) = (s', l) /\
    (forall t, said_by t l = []) /\
    forall j d path ti z, nth_error ds j = Some d -> d_kind d = KFile path ti z -> z_latency z <> Some 0%N -> op (S j) = true ->
      let F := file_settings lt memory address (d_level d) ti z in
      exists runs : list (list (nat * said)),
        map (EndSpec.read_file F) (SinkSpec.disk (PoolModel.leaf (d_pool s') (S j))) =
          map (map (fun x => EndSpec.reads F (logged_at (S j) (snd x)))) runs /\
        Forall (fun x => 1 <= fst x <= n) (concat runs) /\
        forall t, 1 <= t <= n ->
          map snd (filter (fun x => Nat.eqb (fst x) t) (concat runs)) = flat_map (due gs ds (S j)) (said_by t tr).
Proof.
  intros UL RH busy src doc w1 gs D DR ND HD w' ms s tr EY HP HR OK Hn PO SC.
  destruct (doc_can_end L busy doc w1 gs DR HD (w_sys w') ms s tr OK Hn HR) as (pms & s' & l & C1 & C2 & C3 & _ & C5).
  exists pms, s', l. split; [exact C1|]. split; [exact C2|]. split; [exact C3|].
  intros j d path ti z Ej Ek Hz Ho F.
  assert (Hid : S j < count) by (unfold DeployModel.count; apply -> Nat.succ_lt_mono; apply nth_error_Some; congruence).
  destruct (C5 (S j) Hid) as (u & Hu).
  assert (HR' : reached_by (w_sys w') (ms ++ DEnd :: map DPool pms) s' (tr ++ l)).
  { unfold DeployProofs.reached_by in *. rewrite dexec_app, HR, C2. reflexivity. }
  assert (HP' : Forall plain (ms ++ DEnd :: map DPool pms)).
  { apply Forall_app. split; [exact HP|]. constructor; [exact I|]. apply Forall_map, Forall_forall. intros; exact I. }
  assert (SC' : sane_call (S j) (tr ++ l)).
  { intros t g Lg e He. apply in_app_or in He. destruct He as [He|He]; [apply (SC t g Lg e (S j) He)|].
    exfalso. assert (In (g, Lg, e) (said_by t l)) as Hi; [|rewrite C3 in Hi; exact Hi].
    unfold said_by. apply in_flat_map. exists (DSaid t g Lg e). split; [exact He|]. rewrite Nat.eqb_refl. now left. }
  destruct (read_back lt memory address fg_first ds op n ord dbg L fuel UL RH busy src doc w1 gs D DR ND HD w' _ s' (tr ++ l) j d path ti z u
    EY HP' HR' Ej Ek Hz Ho Hu PO SC') as (_ & _ & _ & runs & _ & R2 & R3 & R4).
  exists runs. split; [exact R2|]. split; [exact R3|]. intros t Ht. rewrite (R4 t Ht), said_app, C3, app_nil_r. reflexivity.
Qed.
End Run.
