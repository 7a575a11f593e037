(** * Proofs for C117 *)
From Coq Require Import Ascii String NArith ZArith List Arith Bool Lia.
From Verif Require Import Base LevelModel SinkConfig SysModel SysSpec YamlModel YamlSpec YamlActSpec YamlDoc YamlKeep DeployModel DeploySpec.
From Verif Require EventModel RecordModel RecordSpec SinkModel SinkSpec SinkProps SinkReturn SinkMore TreeSpec TreeModel
  PoolModel PoolSpec PoolProofs EndModel EndSpec EndProofs SysBase SinkLife SinkFair TreeProofs
  SyslogRunModel SyslogRunSpec SyslogRunProofs.
Import ListNotations.

(** ** The document *)

Section GInd.
Variable P : gdecl -> Prop.
Hypothesis H : forall n fb sk lv ch, Forall P ch -> P (GDecl n fb sk lv ch).
Fixpoint gdecl_all (d : gdecl) : P d :=
  match d with
  | GDecl n fb sk lv ch => H n fb sk lv ch ((fix each ch : Forall P ch :=
      match ch with [] => Forall_nil P | c :: ch' => Forall_cons c (gdecl_all c) (each ch') end) ch)
  end.
End GInd.

Lemma entries_eq p n fb sk lv ch :
  entries p (GDecl n fb sk lv ch) = mkEntry p n fb sk lv :: all_entries (Some n) ch.
Proof. reflexivity. Qed.
Lemma in_force_eq lv sk g n fb s l ch :
  in_force lv sk g (GDecl n fb s l ch) =
  let lv := match l with Some l => l | None => lv end in
  let sk := match s with Some s => s | None => sk end in
  if String.eqb n g then Some (lv, sk) else first_in_force lv sk g ch.
Proof. reflexivity. Qed.

Lemma not_there : forall d lv sk g p, ~ In g (map e_name (entries p d)) -> in_force lv sk g d = None.
Proof.
  intros d. induction d as [n fb s l ch IH] using gdecl_all. intros lv sk g p. rewrite entries_eq, in_force_eq. cbn [map e_name]. intros NI.
  cbv zeta. destruct (String.eqb_spec n g) as [->|_]; [exfalso; apply NI; now left|].
  assert (NI' : ~ In g (map e_name (all_entries (Some n) ch))) by (intros X; apply NI; now right). clear NI.
  revert NI'. generalize (match l with Some l => l | None => lv end), (match s with Some s => s | None => sk end). intros lv' sk'.
  induction IH as [|c ch Hc Hch IHc]; [reflexivity|]. cbn [all_entries flat_map first_in_force]. rewrite map_app, in_app_iff. intros NI.
  rewrite (Hc lv' sk' g (Some n)) by tauto. apply IHc. unfold all_entries. tauto.
Qed.

(** The settings of the group [g] in the system [s]. *)
Definition has_settings (s : sys) (g : string) (lv : level) (sk : string) : Prop :=
  exists i x, find (gmap s) g = Some i /\ nth_error (groups s) i = Some x /\ g_name x = g /\
    g_level x = lv /\ g_sink x = find (smap s) sk.

Lemma settings_hold s : forall d p lv sk,
  match p with
  | Some q => has_settings s q lv sk
  | None => sk = "*"%string
  end ->
  Forall (entry_holds s) (entries p d) -> NoDup (map e_name (entries p d)) ->
  forall e, In e (entries p d) ->
    exists lv' sk', in_force lv sk (e_name e) d = Some (lv', sk') /\ has_settings s (e_name e) lv' sk'.
Proof.
  intros d. induction d as [n fb sk0 lv0 ch IH] using gdecl_all. intros p lv sk HP. rewrite entries_eq. cbn [map e_name]. intros HF ND e He.
  inversion HF as [|? ? H0 HF']; subst. inversion ND as [|? ? NI ND']; subst.
  set (lv' := match lv0 with Some l => l | None => lv end). set (sk' := match sk0 with Some s => s | None => sk end).
  assert (HN : has_settings s n lv' sk').
  { destruct H0 as (i & x & E1 & E2 & E3 & H0). cbn [e_name e_parent e_sink e_level] in *. exists i, x.
    split; [exact E1|]. split; [exact E2|]. split; [exact E3|]. unfold lv', sk'. destruct p as [q|].
    - destruct H0 as (j & y & F1 & F2 & _ & F4 & _ & F5 & _). destruct HP as (j' & y' & G1 & G2 & _ & G4 & G5).
      assert (j' = j) as -> by congruence. assert (y' = y) as -> by congruence. split.
      + rewrite F5. destruct lv0; auto.
      + rewrite F4. destruct sk0; auto.
    - destruct H0 as (_ & F1 & F2). subst sk. split; [|exact F1]. destruct lv0; [congruence|discriminate F2]. }
  destruct He as [<-|He].
  - cbn [e_name]. rewrite in_force_eq, String.eqb_refl. exists lv', sk'. split; [reflexivity|exact HN].
  - rewrite in_force_eq. cbv zeta. destruct (String.eqb_spec n (e_name e)) as [E|_]; [exfalso; apply NI; apply (in_map e_name) in He; now rewrite <- E in He|].
    fold lv' sk'. clear HF ND H0 NI HP. clearbody lv' sk'. clear lv0 sk0 lv sk.
    induction IH as [|c ch Hc Hch IHc]; [destruct He|]. cbn [all_entries flat_map] in *.
    rewrite map_app in ND'. apply Forall_app in HF'. destruct HF' as [HF1 HF2]. cbn [first_in_force]. apply in_app_or in He. destruct He as [He|He].
    + destruct (Hc (Some n) lv' sk' HN HF1) with (e := e) as (a & b & -> & R); [|exact He|eauto].
      clear - ND'. induction (map e_name (entries (Some n) c)) as [|x l IHl]; [constructor|].
      inversion ND' as [|? ? N1 N2]; subst. constructor; auto. intros X. apply N1. apply in_or_app. now left.
    + rewrite (not_there c lv' sk' (e_name e) (Some n)).
      * apply IHc; auto. clear - ND'. induction (map e_name (entries (Some n) c)) as [|x l IHl]; [exact ND'|].
        inversion ND'; auto.
      * intros X. assert (Y : In (e_name e) (map e_name (flat_map (entries (Some n)) ch))) by (now apply in_map).
        clear - ND' X Y. induction (map e_name (entries (Some n) c)) as [|x l IHl]; [destruct X|].
        inversion ND' as [|? ? N1 N2]; subst. destruct X as [->|X]; [apply N1, in_or_app; now right|auto].
Qed.

Lemma all_settings_hold s gs : Forall (entry_holds s) (all_entries None gs) -> NoDup (map e_name (all_entries None gs)) ->
  forall e, In e (all_entries None gs) ->
    exists lv sk, group_settings gs (e_name e) = Some (lv, sk) /\ has_settings s (e_name e) lv sk.
Proof.
  unfold group_settings. induction gs as [|d gs IH]; [intros _ _ e []|]. cbn [all_entries flat_map first_in_force].
  rewrite map_app. intros HF ND e He. apply Forall_app in HF. destruct HF as [HF1 HF2]. apply in_app_or in He. destruct He as [He|He].
  - destruct (settings_hold s d None OFF "*"%string eq_refl HF1) with (e := e) as (a & b & -> & R); [|exact He|eauto].
    clear - ND. induction (map e_name (entries None d)) as [|x l IHl]; [constructor|].
    inversion ND as [|? ? N1 N2]; subst. constructor; auto. intros X. apply N1. apply in_or_app. now left.
  - rewrite (not_there d OFF "*"%string (e_name e) None).
    + apply IH; auto. clear - ND. induction (map e_name (entries None d)) as [|x l IHl]; [exact ND|]. inversion ND; auto.
    + intros X. assert (Y : In (e_name e) (map e_name (flat_map (entries None) gs))) by (now apply in_map).
      clear - ND X Y. induction (map e_name (entries None d)) as [|x l IHl]; [destruct X|].
      inversion ND as [|? ? N1 N2]; subst. destruct X as [->|X]; [apply N1, in_or_app; now right|auto].
Qed.

(** The sink in force is a known one. *)
Lemma force_known L (kn : string -> Prop) g : forall d root x lv sk lv' sk', group_read L kn root d x -> kn sk ->
  in_force lv sk g d = Some (lv', sk') -> kn sk'.
Proof.
  intros d. induction d as [n fb s l ch IH] using gdecl_all. intros root x lv sk lv' sk' HR HK. rewrite in_force_eq. cbv zeta.
  cbn [group_read] in HR. destruct HR as (_ & _ & _ & HS & _ & _ & _ & nl & _ & HC).
  assert (HK' : kn (match s with Some s => s | None => sk end)).
  { inversion HS as [|t v ? [-> Hk] ]; subst; auto. }
  destruct (String.eqb n g); [intros E; inversion E; subst; exact HK'|].
  revert HK' HC. generalize (match s with Some s => s | None => sk end), (match l with Some l => l | None => lv end). intros sk0 lv0 HK'.
  clear HS HK. revert nl. induction IH as [|c ch Hc Hch IHc]; intros nl HC; [discriminate|]. destruct nl as [|y nl]; [destruct HC|]. destruct HC as [HC1 HC2].
  cbn [first_in_force]. destruct (in_force lv0 sk0 g c) as [p|] eqn:E; [|now apply IHc with nl]. intros E'. inversion E'; subst. eapply Hc; eauto.
Qed.
Lemma settings_known L (kn : string -> Prop) g : forall gs l lv sk, groups_read L kn true gs l -> kn "*"%string ->
  group_settings gs g = Some (lv, sk) -> kn sk.
Proof.
  unfold group_settings. induction gs as [|d gs IH]; intros l lv sk HR HK; [discriminate|]. destruct l as [|y l]; [destruct HR|]. destruct HR as [HR1 HR2].
  cbn [first_in_force]. destruct (in_force _ _ g d) as [p|] eqn:E; [|eapply IH; eauto]. intros E'. inversion E'; subst. eapply force_known; eauto.
Qed.

(** Sinks by name. *)
Lemma number_app a b n : forall i k, number_from i (a ++ b) n k = number_from (i + List.length a) b n (number_from i a n k).
Proof.
  induction a as [|d a IH]; intros i k; cbn [List.app number_from List.length]; [now rewrite Nat.add_0_r|].
  rewrite IH. f_equal. lia.
Qed.

Definition sinks_known (w : world) : Prop :=
  List.length (sinks (w_sys w)) = S (List.length (sinks_of (w_log w))) /\
  forall n k, find (smap (w_sys w)) n = Some k -> k = sink_number (sinks_of (w_log w)) n.
Lemma read_known L w l w1 : sinks_read L w l w1 -> sinks_known w -> sinks_known w1.
Proof.
  induction 1 as [w|w n d l w' SR M C SS IH]; auto. intros [K1 K2]. apply IH. unfold sinks_known, world_with_sink, add_sink. cbn [w_sys w_log sinks smap].
  assert (EA : sinks_of (w_log w ++ [ASink d]) = sinks_of (w_log w) ++ [d]) by (unfold sinks_of; now rewrite flat_map_app).
  rewrite EA. split; [rewrite !app_length; cbn; lia|].
  intros m k. rewrite SysBase.find_assign. unfold sink_number. rewrite number_app. cbn [number_from].
  destruct (String.eqb_spec m (d_name d)) as [->|NE].
  - intros X. inversion X. rewrite String.eqb_refl. lia.
  - intros X. destruct (String.eqb_spec (d_name d) m) as [E|_]; [congruence|]. now apply K2.
Qed.
Lemma start_known busy : sinks_known (before_configure busy).
Proof.
  split; [reflexivity|]. intros n k. cbn [before_configure w_sys smap with_configured init find]. destruct (String.eqb _ n); [|discriminate]. intros X. inversion X. reflexivity.
Qed.

(** ** Ways *)
Lemma is_it_multi id l lv ms :
  List.length (filter (PoolSpec.is_it id) (TreeSpec.reached l (TreeModel.Multi lv ms))) =
  if TreeSpec.passes_b l lv then list_sum (map (fun t => List.length (filter (PoolSpec.is_it id) (TreeSpec.reached l t))) ms) else 0.
Proof.
  destruct ms as [|m ms].
  - unfold TreeSpec.reached. cbn [TreeSpec.paths filter]. unfold TreeSpec.open_path. cbn [fst forallb]. destruct (TreeSpec.passes_b l lv); reflexivity.
  - rewrite TreeProofs.reached_multi. destruct (TreeSpec.passes_b l lv); [|reflexivity]. generalize (m :: ms). clear. intros ms.
    induction ms as [|m ms IH]; [reflexivity|]. cbn [flat_map map list_sum]. rewrite filter_app, app_length, IH. reflexivity.
Qed.
Lemma null_ways id l t : t = TreeModel.Nowhere id \/ (exists i, t = TreeModel.Nowhere i) -> TreeSpec.reached l t = [].
Proof.
  assert (H : forall i, TreeSpec.reached l (TreeModel.Nowhere i) = []) by (intros i; destruct l; reflexivity).
  intros [->|[i ->]]; apply H.
Qed.
Lemma ways_eq ds id l k : ways ds id l k = List.length (filter (PoolSpec.is_it id) (TreeSpec.reached l (tree_at ds k))).
Proof.
  set (f := fun t => List.length (filter (PoolSpec.is_it id) (TreeSpec.reached l t))).
  assert (F0 : f (null_sink ds) = 0) by (unfold f, null_sink; rewrite (null_ways id) by eauto; reflexivity).
  assert (G : forall todo ts, fold_left (next_ways id l) todo (map f ts) = map f (fold_left (next_tree ds) todo ts)).
  { induction todo as [|d todo IH]; intros ts; [reflexivity|]. cbn [fold_left]. rewrite <- IH. f_equal. unfold next_ways, next_tree.
    rewrite map_app, map_length. cbn [map]. f_equal. f_equal.
    assert (LF : (if TreeSpec.passes_b l (d_level d) then if Nat.eqb (List.length ts) id then 1 else 0 else 0) = f (TreeModel.Leaf (List.length ts) (d_level d))).
    { unfold f, TreeSpec.reached. cbn [TreeSpec.paths filter]. unfold TreeSpec.open_path. cbn [fst forallb]. destruct (TreeSpec.passes_b l (d_level d)); [|reflexivity].
      cbn. destruct (Nat.eqb (List.length ts) id); reflexivity. }
    destruct (d_kind d); [exact LF|exact LF|exact LF|]. unfold f. rewrite is_it_multi. fold f. destruct (TreeSpec.passes_b l (d_level d)); [|reflexivity].
    rewrite map_map. f_equal. apply map_ext. intros x. rewrite <- F0 at 1. apply map_nth. }
  unfold ways, tree_at, trees. specialize (G ds [null_sink ds]). cbn [map] in G. rewrite F0 in G. rewrite G. rewrite <- F0 at 1. apply map_nth.
Qed.

(** ** The pool inside *)
Section Run.
Variable lt : N -> RecordModel.tm.
Variable memory : EventModel.mem.
Variable address : N.
Variable fg_first : bool.
Variable ds : list sink_desc.
Variable op : nat -> bool.
Variable n : nat.
Variable ord : list nat -> list nat.
Variable dbg : bool.
Notation cfg_at := (cfg_at lt memory address fg_first ds).
Notation count := (count ds).
Notation dstep := (dstep lt memory address fg_first ds n ord dbg).
Notation dexec := (dexec lt memory address fg_first ds n ord dbg).
Notation in_pool := (in_pool lt memory address fg_first ds n).
Notation pstep := (PoolModel.pstep count cfg_at n).
Notation pexec := (PoolModel.pexec count cfg_at n).

Lemma inside_app a b : inside (a ++ b) = inside a ++ inside b.
Proof. apply flat_map_app. Qed.
Lemma inside_map ls : inside (map DIn ls) = ls.
Proof. unfold inside. induction ls as [|x ls IH]; [reflexivity|]. cbn. now rewrite IH. Qed.
Lemma said_app t a b : said_by t (a ++ b) = said_by t a ++ said_by t b.
Proof. apply flat_map_app. Qed.
Lemma said_map t ls : said_by t (map DIn ls) = [].
Proof. induction ls; auto. Qed.

Lemma in_pool_eq s m : in_pool s m = (mkD (d_sys s) (fst (pstep (d_pool s) m)) (d_up s), snd (pstep (d_pool s) m)).
Proof. unfold DeployModel.in_pool. destruct (pstep (d_pool s) m). reflexivity. Qed.

(** What a step does in the pool. *)
Definition same_calls t id (ls : list dlabel) : Prop :=
  flat_map (PoolSpec.copies id) (PoolSpec.started t (inside ls)) = flat_map (brings ds id) (said_by t ls).

Lemma start_labels p t o : snd (pstep p (PoolModel.XStart t o)) = [] \/
  snd (pstep p (PoolModel.XStart t o)) = [PoolModel.PStart t o].
Proof.
  cbn [PoolModel.pstep]. destruct (_ && _ && _ && _); [|now left]. destruct (PoolModel.plan o); [now right|now left].
Qed.
Lemma no_starts p m : match m with PoolModel.XStart _ _ => False | _ => True end -> forall t, PoolSpec.started t (snd (pstep p m)) = [].
Proof.
  assert (IL : forall (q : PoolModel.pstate said) id x t, PoolSpec.started t (snd (PoolModel.in_leaf cfg_at q id x)) = []).
  { intros q id x t. unfold PoolModel.in_leaf. destruct (SinkModel.step _ _ _) as [y ls]. cbn [snd]. apply PoolProofs.started_map. }
  destruct m as [t o|t|id m|id t]; intros H u; [destruct H|..]; cbn [PoolModel.pstep].
  - destruct (PoolModel.todo p t); [reflexivity|]. destruct (PoolModel.free _ _ _); [|reflexivity]. destruct (Nat.ltb _ _); [apply IL|reflexivity].
  - destruct (_ && _); [apply IL|reflexivity].
  - destruct (_ && _ && _ && _ && _); [apply IL|reflexivity].
Qed.

Lemma step_pool s m : let '(s', ls) := dstep s m in
  (inside ls = [] /\ d_pool s' = d_pool s \/ exists pm, pstep (d_pool s) pm = (d_pool s', inside ls)) /\
  forall t id, same_calls t id ls.
Proof.
  destruct m as [c|t x g kn lv e|t i e|t k|t k| |m]; cbn [DeployModel.dstep].
  - destruct (d_up s && silent ds dbg (d_sys s) c); (split; [left; split; reflexivity|reflexivity]).
  - destruct (warning dbg (d_sys s) x g) as [[[L G] text]|] eqn:EW; [|split; [left; split; reflexivity|reflexivity]].
    destruct (l_sink L) as [k|] eqn:EK; [|split; [left; split; reflexivity|reflexivity]].
    destruct (d_up s); [|split; [left; split; reflexivity|reflexivity]].
    rewrite in_pool_eq. set (o := PoolModel.OLog _ _ _ _).
    pose proof (surjective_pairing (pstep (d_pool s) (PoolModel.XStart t o))) as SP.
    destruct (start_labels (d_pool s) t o) as [E | E]; rewrite E in SP |- *; cbv iota; [split; [left; split; reflexivity|reflexivity]|]. split.
    + right. exists (PoolModel.XStart t o). cbn [d_pool map inside flat_map List.app]. exact SP.
    + intros u id. unfold same_calls. cbn [map inside flat_map List.app PoolSpec.started said_by]. destruct (Nat.eqb t u); [|reflexivity].
      cbn [flat_map List.app]. rewrite !app_nil_r. unfold brings, o. rewrite EK. cbn [warned x_level]. rewrite ways_eq. reflexivity.
  - destruct (nth_error (loggers (d_sys s)) i) as [L|]; [|split; [left; split; reflexivity|reflexivity]].
    destruct (nth_error (groups (d_sys s)) (l_group L)) as [G|]; [|split; [left; split; reflexivity|reflexivity]].
    destruct (l_sink L) as [k|] eqn:EK; [|split; [left; split; reflexivity|reflexivity]].
    destruct (d_up s && l_alive L); [|split; [left; split; reflexivity|reflexivity]].
    rewrite in_pool_eq. set (o := PoolModel.OLog _ _ _ _). split.
    + right. exists (PoolModel.XStart t o). cbn [d_pool]. rewrite inside_app, inside_map.
      replace (inside match snd _ with [] => [] | _ => _ end) with (@nil (PoolModel.plabel said)) by (destruct (snd _); reflexivity).
      cbn [List.app]. apply surjective_pairing.
    + intros u id. unfold same_calls. rewrite inside_app, inside_map, said_app, said_map, app_nil_r.
      destruct (start_labels (d_pool s) t o) as [-> | ->]; [reflexivity|].
      cbn [inside flat_map List.app PoolSpec.started said_by]. destruct (Nat.eqb t u); [|reflexivity].
      cbn [flat_map List.app]. rewrite !app_nil_r. unfold brings, o. rewrite EK, ways_eq. reflexivity.
  - destruct (d_up s && Nat.ltb k (List.length (sinks (d_sys s)))); [|split; [left; split; reflexivity|reflexivity]]. rewrite in_pool_eq. split.
    + right. exists (PoolModel.XStart t (PoolModel.OFlush (tree_at ds k))). rewrite inside_map. apply surjective_pairing.
    + intros u id. unfold same_calls. rewrite inside_map, said_map. destruct (start_labels (d_pool s) t (PoolModel.OFlush (tree_at ds k))) as [-> | ->]; [reflexivity|].
      cbn. destruct (Nat.eqb t u); reflexivity.
  - destruct (d_up s && Nat.ltb k (List.length (sinks (d_sys s)))); [|split; [left; split; reflexivity|reflexivity]]. rewrite in_pool_eq. split.
    + right. exists (PoolModel.XStart t (PoolModel.ORotate (tree_at ds k))). rewrite inside_map. apply surjective_pairing.
    + intros u id. unfold same_calls. rewrite inside_map, said_map. destruct (start_labels (d_pool s) t (PoolModel.ORotate (tree_at ds k))) as [-> | ->]; [reflexivity|].
      cbn. destruct (Nat.eqb t u); reflexivity.
  - split; [left; split; reflexivity|reflexivity].
  - destruct (match m with PoolModel.XStart _ _ => false | PoolModel.XDestroy _ _ => negb (d_up s) | _ => true end) eqn:OK; [|split; [left; split; reflexivity|reflexivity]].
    rewrite in_pool_eq. split.
    + right. exists m. rewrite inside_map. apply surjective_pairing.
    + intros u id. unfold same_calls. rewrite inside_map, said_map, no_starts; [reflexivity|]. destruct m; auto; discriminate.
Qed.

Lemma exec_pool ms : forall s s' tr, dexec s ms = (s', tr) ->
  (exists pms, pexec (d_pool s) pms = (d_pool s', inside tr)) /\ forall t id, same_calls t id tr.
Proof.
  induction ms as [|m ms IH]; intros s s' tr; cbn [DeployModel.dexec].
  - intros E. inversion E; subst. split; [exists []; reflexivity|]. intros t id. reflexivity.
  - pose proof (step_pool s m) as H. destruct (dstep s m) as [s1 l1]. destruct (dexec s1 ms) as [s2 l2] eqn:E2. intros E. inversion E; subst.
    destruct H as [HP HS]. destruct (IH s1 s' l2 E2) as [[pms Hp] Hs]. split.
    + rewrite inside_app. destruct HP as [[-> <-]|[pm Hpm]]; [exists pms; exact Hp|]. exists (pm :: pms). cbn [PoolModel.pexec]. rewrite Hpm, Hp. reflexivity.
    + intros t id. unfold same_calls. rewrite inside_app, PoolProofs.started_app, flat_map_app, said_app, flat_map_app, HS, Hs. reflexivity.
Qed.

Definition reached_by (s0 : sys) (ms : list dmove) (s : dstate) (tr : list dlabel) : Prop :=
  dexec (dstart lt memory address fg_first ds op n s0) ms = (s, tr).
Lemma to_pool s0 ms s tr : reached_by s0 ms s tr -> PoolSpec.preach count cfg_at op n (d_pool s) (inside tr).
Proof. intros H. destruct (exec_pool ms _ _ _ H) as [[pms E] _]. exists pms. exact E. Qed.

Theorem deployed s0 ms s tr t id : reached_by s0 ms s tr -> id < count -> 1 <= t <= n -> PoolSpec.resting count (d_pool s) t ->
  SinkSpec.accepted_by t (in_sink id tr) = flat_map (brings ds id) (said_by t tr).
Proof.
  intros H Hid Ht HR. destruct (exec_pool ms _ _ _ H) as [_ HS]. rewrite <- (HS t id).
  exact (PoolProofs.delivered count cfg_at op n _ _ t id (to_pool _ _ _ _ H) Hid Ht HR).
Qed.
Theorem deployed_destroyed s0 ms s tr t u id : reached_by s0 ms s tr -> id < count -> 1 <= t <= n ->
  In (SinkModel.LDestroyed u) (in_sink id tr) ->
  SinkSpec.accepted_by t (in_sink id tr) = flat_map (brings ds id) (said_by t tr).
Proof.
  intros H Hid Ht HD. destruct (exec_pool ms _ _ _ H) as [_ HS]. rewrite <- (HS t id).
  exact (PoolProofs.all_destroyed count cfg_at op n _ _ u t id (to_pool _ _ _ _ H) Hid HD Ht).
Qed.
Theorem deployed_so_far s0 ms s tr id : reached_by s0 ms s tr -> id < count ->
  (forall t, 1 <= t <= n -> SinkSpec.is_prefix (SinkSpec.accepted_by t (in_sink id tr)) (flat_map (brings ds id) (said_by t tr))) /\
  Forall (fun x => 1 <= fst x <= n) (SinkSpec.accepts (in_sink id tr)).
Proof.
  intros H Hid. destruct (exec_pool ms _ _ _ H) as [_ HS]. split.
  - intros t Ht. rewrite <- (HS t id). exact (PoolProofs.never_more count cfg_at op n _ _ t id (to_pool _ _ _ _ H) Hid Ht).
  - exact (PoolProofs.only_threads count cfg_at op n _ _ id (to_pool _ _ _ _ H) Hid).
Qed.

(** ** The configuration stays *)
Definition follows (gs : list group) (s : sys) : Prop :=
  groups s = gs /\ forall i L, nth_error (loggers s) i = Some L ->
    exists G, nth_error gs (l_group L) = Some G /\ l_level L = g_level G /\ l_sink L = g_sink G.

Lemma set_at_nth {A} (l : list A) : forall i x j y, nth_error (set_at l i x) j = Some y -> y = x \/ nth_error l j = Some y.
Proof.
  induction l as [|a l IH]; intros [|i] x [|j] y; cbn; auto; intros H.
  - inversion H; auto.
  - eauto.
Qed.

Lemma plain_follows gs s c : plain (DSys c) -> follows gs s -> follows gs (fst (step ord (enough s) dbg s c)).
Proof.
  intros P [E F]. destruct c; cbn [plain] in P; try contradiction.
  - destruct k; [contradiction|]. destruct lv; [contradiction|]. cbn [step]. unfold get_logger.
    destruct (negb (configured s)); [now split|]. destruct (live s x); [now split|].
    assert (C : forall j y, nth_error (groups s) j = Some y ->
      follows gs (with_loggers s (loggers s ++ [l_construct x j y]) (assign (lmap s) x (List.length (loggers s))))).
    { intros j y Hy. split; [exact E|]. cbn [with_loggers loggers]. intros i L HL.
      destruct (Nat.lt_ge_cases i (List.length (loggers s))) as [Hi|Hi].
      - rewrite nth_error_app1 in HL by exact Hi. eauto.
      - rewrite nth_error_app2 in HL by exact Hi. destruct (i - List.length (loggers s)) as [|[|m]]; [|discriminate HL..].
        cbn in HL. inversion HL; subst L. exists y. rewrite <- E. unfold l_construct, l_level_from, l_sink_from.
        destruct (g_sink y) eqn:EK; cbn [l_group l_level l_sink]; rewrite ?EK; auto. }
    repeat match goal with
           | |- context [if ?b then _ else _] => destruct b
           | |- context [match find (gmap s) ?g with _ => _ end] => destruct (find (gmap s) g)
           | |- context [match nth_error (groups s) ?g with _ => _ end] => destruct (nth_error (groups s) g) eqn:?
           end; cbn [fst]; try (now split); now apply C.
  - cbn [step]. unfold mod_logger. destruct (nth_error (loggers s) i) as [x|] eqn:Ex; [|now split]. split; [exact E|]. cbn [fst with_loggers loggers].
    intros j L HL. apply set_at_nth in HL. destruct HL as [->|HL]; [|eauto]. cbn [l_group l_level l_sink]. eauto.
  - cbn [step]. split; auto.
  - cbn [step]. split; auto.
Qed.

Lemma warning_by b s x g L G text : warning b s x g = Some (L, G, text) ->
  exists i, nth_error (groups s) i = Some G /\ L = l_construct "Soralog" i G /\ g_sink G <> None /\ find (gmap s) "*" = Some i /\ live s x = None.
Proof.
  unfold warning, by_fallback. destruct (negb (configured s)); [discriminate|]. destruct (live s x); [discriminate|].
  assert (H : forall tx, match find (gmap s) "*" with
                         | Some i => match nth_error (groups s) i with
                                     | Some y => match g_sink y with Some _ => Some (l_construct "Soralog" i y, y, tx y) | None => None end
                                     | None => None end
                         | None => None end = Some (L, G, text) ->
    exists i, nth_error (groups s) i = Some G /\ L = l_construct "Soralog" i G /\ g_sink G <> None /\ find (gmap s) "*" = Some i /\ @None nat = None).
  { intros tx. destruct (find (gmap s) "*") as [i|]; [|discriminate]. destruct (nth_error (groups s) i) as [y|] eqn:E; [|discriminate].
    destruct (g_sink y) eqn:Q; [|discriminate]. intros X. inversion X; subst. exists i. rewrite Q. repeat split; auto; discriminate. }
  destruct (String.eqb g "*"); [destruct b; [discriminate|apply H]|]. destruct (find (gmap s) g); [discriminate|apply H].
Qed.

Lemma plain_said gs m s : plain m -> follows gs (d_sys s) -> let '(s', ls) := dstep s m in
  follows gs (d_sys s') /\
  forall t g L e, In (DSaid t g L e) ls -> exists G, In G gs /\ g_name G = g /\ l_level L = g_level G /\ l_sink L = g_sink G.
Proof.
  intros P F. assert (NI : forall t g L e ls, In (DSaid t g L e) (map DIn ls) -> False).
  { intros t g L e ls H. apply in_map_iff in H. destruct H as (? & H & _). discriminate. }
  destruct m as [c|t x g kn lv e|t i e|t k|t k| |m]; cbn [DeployModel.dstep].
  - destruct (d_up s && silent ds dbg (d_sys s) c); (split; [|intros ? ? ? ? []]); [apply plain_follows; auto|exact F].
  - destruct (warning dbg (d_sys s) x g) as [[[L G] text]|] eqn:EW; [|split; [exact F|intros ? ? ? ? []]].
    destruct (l_sink L) as [k|] eqn:EK; [|split; [exact F|intros ? ? ? ? []]].
    destruct (d_up s); [|split; [exact F|intros ? ? ? ? []]].
    rewrite in_pool_eq. destruct (snd _); [split; [exact F|intros ? ? ? ? []]|]. split.
    + cbn [d_sys]. apply (plain_follows gs (d_sys s) (GetLogger x g kn lv)); auto.
    + intros u g' L' e' H. destruct H as [H|H]; [|exfalso; eapply NI; exact H]. inversion H; subst.
      destruct (warning_by _ _ _ _ _ _ _ EW) as (i & E1 & -> & _). exists G. destruct F as [E F]. rewrite E in E1.
      split; [eapply nth_error_In; exact E1|]. split; [reflexivity|]. unfold l_construct, l_level_from, l_sink_from.
      destruct (g_sink G) eqn:Q; cbn [l_group l_level l_sink]; rewrite ?Q; auto.
  - destruct (nth_error (loggers (d_sys s)) i) as [L|] eqn:EL; [|split; [exact F|intros ? ? ? ? []]].
    destruct (nth_error (groups (d_sys s)) (l_group L)) as [G|] eqn:EG; [|split; [exact F|intros ? ? ? ? []]].
    destruct (l_sink L) as [k|] eqn:EK; [|split; [exact F|intros ? ? ? ? []]].
    destruct (d_up s && l_alive L); [|split; [exact F|intros ? ? ? ? []]].
    rewrite in_pool_eq. split; [exact F|]. intros u g L' e' H. apply in_app_or in H. destruct H as [H|H]; [|exfalso; eapply NI; exact H].
    destruct (snd _); [destruct H|]. destruct H as [H|[]]. inversion H; subst.
    destruct F as [E F]. destruct (F _ _ EL) as (G' & E1 & E2 & E3). rewrite <- E in E1. assert (G' = G) as -> by congruence.
    exists G. split; [rewrite <- E; eapply nth_error_In; exact EG|]. auto.
  - destruct (d_up s && Nat.ltb k (List.length (sinks (d_sys s)))); [|split; [exact F|intros ? ? ? ? []]]. rewrite in_pool_eq. split; [exact F|]. intros u g L' e' H. exfalso. eapply NI; exact H.
  - destruct (d_up s && Nat.ltb k (List.length (sinks (d_sys s)))); [|split; [exact F|intros ? ? ? ? []]]. rewrite in_pool_eq. split; [exact F|]. intros u g L' e' H. exfalso. eapply NI; exact H.
  - split; [exact F|intros ? ? ? ? []].
  - destruct (match m with PoolModel.XStart _ _ => false | PoolModel.XDestroy _ _ => negb (d_up s) | _ => true end); [|split; [exact F|intros ? ? ? ? []]].
    rewrite in_pool_eq. split; [exact F|]. intros u g L' e' H. exfalso. eapply NI; exact H.
Qed.

Lemma plain_run gs ms : forall s s' tr, Forall plain ms -> follows gs (d_sys s) -> dexec s ms = (s', tr) ->
  follows gs (d_sys s') /\
  forall t g L e, In (DSaid t g L e) tr -> exists G, In G gs /\ g_name G = g /\ l_level L = g_level G /\ l_sink L = g_sink G.
Proof.
  induction ms as [|m ms IH]; intros s s' tr HP F; cbn [DeployModel.dexec].
  - intros E. inversion E; subst. split; [exact F|intros ? ? ? ? []].
  - inversion HP as [|? ? P1 P2]; subst. pose proof (plain_said gs m s P1 F) as H. destruct (dstep s m) as [s1 l1]. destruct H as [F1 H1].
    destruct (dexec s1 ms) as [s2 l2] eqn:E2. intros E. inversion E; subst. destruct (IH s1 s' l2 P2 F1 E2) as [F2 H2].
    split; [exact F2|]. intros t g L e H. apply in_app_or in H. destruct H as [H|H]; eauto.
Qed.

(** ** While the system is up, calls can be made *)
Lemma up_alive ms : forall s0 s tr, reached_by s0 ms s tr -> d_up s = true ->
  forall id, id < count -> SinkModel.alive (PoolModel.leaf (d_pool s) id) = true.
Proof.
  induction ms as [|m ms IH] using rev_ind; intros s0 s tr H Hu id Hid.
  - inversion H; subst. cbn [dstart d_pool PoolModel.pinit PoolModel.leaf]. unfold SinkModel.alive. cbn [SinkModel.init SinkModel.thr tl].
    apply forallb_forall. intros p Hp. cbn in Hp. apply repeat_spec in Hp. subst p. reflexivity.
  - assert (EA : forall a b s, dexec s (a ++ b) = let '(s1, l1) := dexec s a in let '(s2, l2) := dexec s1 b in (s2, l1 ++ l2)).
    { clear. induction a as [|m a IHa]; intros b s; cbn [List.app DeployModel.dexec]; [destruct (dexec s b); reflexivity|].
      destruct (dstep s m) as [s1 l1]. rewrite IHa. destruct (dexec s1 a) as [s2 l2]. destruct (dexec s2 b) as [s3 l3]. now rewrite app_assoc. }
    unfold reached_by in H. rewrite EA in H. destruct (dexec _ ms) as [s1 l1] eqn:E1. cbn [DeployModel.dexec] in H.
    destruct (dstep s1 m) as [s2 l2] eqn:E2. inversion H; subst s2. clear H EA.
    specialize (IH s0 s1 l1 E1). pose proof (to_pool _ _ _ _ E1) as HP. pose proof (PoolProofs.reach_pinv count cfg_at op n _ _ HP) as HV.
    assert (LF : forall i, i < count -> SinkLife.Life (cfg_at i) (op i) (PoolModel.leaf (d_pool s1) i)).
    { intros i Hi. eapply SinkLife.reach_life. exact (PoolProofs.V_leaf _ _ _ _ _ _ HV i Hi). }
    assert (ST : forall t o, PoolModel.leaf (fst (pstep (d_pool s1) (PoolModel.XStart t o))) = PoolModel.leaf (d_pool s1)).
    { intros t o. cbn [PoolModel.pstep]. destruct (_ && _ && _ && _); [|reflexivity]. destruct (PoolModel.plan o); reflexivity. }
    destruct m as [c|t x g kn lv e|t i e|t k|t k| |m]; cbn [DeployModel.dstep] in E2.
    + destruct (d_up s1 && silent ds dbg (d_sys s1) c) eqn:EU; inversion E2; subst; cbn [d_pool d_up] in *; apply IH; auto.
      apply andb_true_iff in EU. tauto.
    + destruct (warning dbg (d_sys s1) x g) as [[[Lg G] text]|]; [|inversion E2; subst; auto].
      destruct (l_sink Lg); [|inversion E2; subst; auto].
      destruct (d_up s1) eqn:EU; [|inversion E2; subst; congruence]. rewrite in_pool_eq in E2.
      destruct (snd _) in E2; apply (f_equal fst) in E2; cbn [fst] in E2; subst s; cbn [d_pool]; rewrite ?ST; apply IH; auto.
    + destruct (nth_error (loggers (d_sys s1)) i) as [Lg|]; [|inversion E2; subst; auto].
      destruct (nth_error (groups (d_sys s1)) (l_group Lg)); [|inversion E2; subst; auto].
      destruct (l_sink Lg); [|inversion E2; subst; auto].
      destruct (d_up s1 && l_alive Lg) eqn:EU; [|inversion E2; subst; auto]. apply andb_true_iff in EU.
      rewrite in_pool_eq in E2. apply (f_equal fst) in E2. cbn [fst] in E2. subst s. cbn [d_pool d_up] in *. rewrite ST. apply IH; tauto.
    + destruct (d_up s1 && Nat.ltb k (List.length (sinks (d_sys s1)))) eqn:EU; [|inversion E2; subst; auto]. apply andb_true_iff in EU. destruct EU as [EU _]. rewrite in_pool_eq in E2. apply (f_equal fst) in E2. cbn [fst] in E2. subst s. cbn [d_pool]. rewrite ST. auto.
    + destruct (d_up s1 && Nat.ltb k (List.length (sinks (d_sys s1)))) eqn:EU; [|inversion E2; subst; auto]. apply andb_true_iff in EU. destruct EU as [EU _]. rewrite in_pool_eq in E2. apply (f_equal fst) in E2. cbn [fst] in E2. subst s. cbn [d_pool]. rewrite ST. auto.
    + inversion E2; subst. discriminate Hu.
    + destruct (match m with PoolModel.XStart _ _ => false | PoolModel.XDestroy _ _ => negb (d_up s1) | _ => true end) eqn:OK;
        [|inversion E2; subst; auto].
      rewrite in_pool_eq in E2. apply (f_equal fst) in E2. cbn [fst] in E2. subst s. cbn [d_pool d_up] in *. specialize (IH Hu).
      assert (IL : forall (q : PoolModel.pstate said) i x, PoolModel.leaf q = PoolModel.leaf (d_pool s1) -> i < count ->
        SinkModel.alive (fst (SinkModel.step (cfg_at i) (PoolModel.leaf (d_pool s1) i) x)) = true ->
        SinkModel.alive (PoolModel.leaf (fst (PoolModel.in_leaf cfg_at q i x)) id) = true).
      { intros q i x Eq Hi Ha. rewrite PoolProofs.in_leaf_eq. cbn [fst]. rewrite PoolProofs.set_cases, Eq. destruct (Nat.eqb_spec id i) as [->|]; auto. }
      destruct m as [t o|t|i m|i t]; [discriminate OK| | |rewrite Hu in OK; discriminate OK]; cbn [PoolModel.pstep].
      * destruct (PoolModel.todo (d_pool s1) t) as [|c cs]; [auto|]. destruct (PoolModel.free _ _ _) eqn:FR; [|auto].
        destruct (Nat.ltb (PoolModel.target c) count) eqn:HT; [|cbn; auto]. apply Nat.ltb_lt in HT. apply IL; [reflexivity|exact HT|].
        apply (PoolProofs.alive_call (cfg_at (PoolModel.target c)) (op (PoolModel.target c))); auto.
        -- rewrite PoolProofs.free_all in FR. auto.
        -- destruct c; discriminate.
      * destruct (Nat.ltb i count && negb (PoolModel.begins m)) eqn:EB; [|auto]. apply andb_true_iff in EB. destruct EB as [B1 B2].
        apply Nat.ltb_lt in B1. apply negb_true_iff in B2. apply IL; [reflexivity|exact B1|].
        apply (SinkFair.alive_step (cfg_at i) (op i)); auto. now apply PoolProofs.begins_no_call.
Qed.

(** The trees fit the sinks. *)
Definition fits (p : PoolModel.pstate said) (t : TreeModel.tree) : Prop := PoolModel.usable count cfg_at p t = true.
Lemma null_fits p : fits p (null_sink ds).
Proof. unfold fits, null_sink. cbn. apply Nat.leb_refl. Qed.
Lemma level_at j d : nth_error ds j = Some d -> is_multi d = false -> SinkModel.c_level (cfg_at (S j)) = d_level d.
Proof. intros E M. cbn [DeployModel.cfg_at]. rewrite E. unfold is_multi in M. destruct (d_kind d); try discriminate M; reflexivity. Qed.

Lemma trees_fit p : (forall id, id < count -> SinkModel.alive (PoolModel.leaf p id) = true) ->
  forall todo done ts, done ++ todo = ds -> List.length ts = S (List.length done) -> Forall (fits p) ts ->
    Forall (fits p) (fold_left (next_tree ds) todo ts).
Proof.
  intros HA. induction todo as [|d todo IH]; intros done ts E EL HF; [exact HF|]. cbn [fold_left].
  apply IH with (done := done ++ [d]); [now rewrite <- app_assoc| |].
  - unfold next_tree. rewrite !app_length, EL. cbn. lia.
  - unfold next_tree. apply Forall_app. split; [exact HF|]. constructor; [|constructor].
    assert (EN : nth_error ds (List.length done) = Some d) by (rewrite <- E, nth_error_app2, Nat.sub_diag by lia; reflexivity).
    assert (HC : List.length ts < count) by (unfold DeployModel.count; rewrite EL; apply -> Nat.succ_lt_mono; apply nth_error_Some; congruence).
    assert (LF : is_multi d = false -> fits p (TreeModel.Leaf (List.length ts) (d_level d))).
    { intros M. unfold fits. cbn [PoolModel.usable]. rewrite (proj2 (Nat.ltb_lt _ _) HC), HA by exact HC. rewrite EL, (level_at _ d EN M).
      destruct (d_level d); reflexivity. }
    destruct (d_kind d) eqn:EK; try (apply LF; unfold is_multi; now rewrite EK).
    unfold fits. cbn [PoolModel.usable]. apply forallb_forall. intros t Ht. apply in_map_iff in Ht. destruct Ht as (k & <- & _).
    rewrite Forall_forall in HF. destruct (nth_in_or_default k ts (null_sink ds)) as [Hi|Hi]; [exact (HF _ Hi)|]. rewrite Hi. apply null_fits.
Qed.
Lemma tree_fits p k : (forall id, id < count -> SinkModel.alive (PoolModel.leaf p id) = true) -> fits p (tree_at ds k).
Proof.
  intros HA. pose proof (trees_fit p HA ds [] [null_sink ds] eq_refl eq_refl ltac:(constructor; [apply null_fits|constructor])) as F.
  unfold tree_at, trees. destruct (nth_in_or_default k (fold_left (next_tree ds) ds [null_sink ds]) (null_sink ds)) as [Hi|Hi].
  - rewrite Forall_forall in F. auto.
  - rewrite Hi. apply null_fits.
Qed.

Lemma trees_populated : (forall d, In d ds -> d_kind d <> KMulti []) -> forall k, TreeSpec.populated (tree_at ds k) = true.
Proof.
  intros HM k. assert (G : forall todo ts, incl todo ds -> Forall (fun t => TreeSpec.populated t = true) ts ->
    Forall (fun t => TreeSpec.populated t = true) (fold_left (next_tree ds) todo ts)).
  { induction todo as [|d todo IH]; intros ts HI HF; [exact HF|]. cbn [fold_left]. apply IH; [intros x Hx; apply HI; now right|].
    unfold next_tree. apply Forall_app. split; [exact HF|]. constructor; [|constructor]. pose proof (HM d (HI d (or_introl eq_refl))) as HN.
    destruct (d_kind d) as [| | |ks]; try reflexivity. destruct ks as [|k0 ks]; [congruence|].
    cbn [map TreeSpec.populated]. apply forallb_forall. intros t Ht. change (In t (map (fun k => nth k ts (null_sink ds)) (k0 :: ks))) in Ht.
    apply in_map_iff in Ht. destruct Ht as (k' & <- & _). destruct (nth_in_or_default k' ts (null_sink ds)) as [Hi|Hi]; [|rewrite Hi; reflexivity].
    rewrite Forall_forall in HF. auto. }
  unfold tree_at, trees. specialize (G ds [null_sink ds] (incl_refl _) ltac:(constructor; [reflexivity|constructor])). rewrite Forall_forall in G.
  destruct (nth_in_or_default k (fold_left (next_tree ds) ds [null_sink ds]) (null_sink ds)) as [Hi|Hi]; [auto|rewrite Hi; reflexivity].
Qed.

Lemma log_done lv t l (e : said) : TreeSpec.populated t = true -> exists cs, TreeModel.logger_push lv t l e = TreeModel.Done cs.
Proof.
  intros P. destruct (TreeSpec.passes_b l lv) eqn:E; [|rewrite TreeProofs.logger_rejects by exact E; eauto].
  rewrite TreeProofs.logger_passes by exact E. rewrite TreeProofs.push_exact by (apply TreeProofs.populated_reached; exact P). cbn [TreeModel.andthen]. eauto.
Qed.

(** A logger that exists can be used by any thread that is between two calls. *)
Lemma log_starts s0 ms s tr t k lv l e : reached_by s0 ms s tr -> d_up s = true ->
  (forall d, In d ds -> d_kind d <> KMulti []) -> 1 <= t <= n -> PoolSpec.resting count (d_pool s) t ->
  let o := PoolModel.OLog lv (tree_at ds k) l e in snd (pstep (d_pool s) (PoolModel.XStart t o)) = [PoolModel.PStart t o].
Proof.
  intros HR HU HM Ht [R1 R2] o.
  cbn [PoolModel.pstep]. unfold PoolModel.is_thread. rewrite (proj2 (Nat.leb_le 1 t)), (proj2 (Nat.leb_le t n)) by lia. rewrite R1. cbn [PoolModel.is_nil].
  rewrite (proj2 (PoolProofs.free_all count (d_pool s) t) R2). unfold o at 1. cbn [PoolModel.sink_of].
  pose proof (tree_fits (d_pool s) k (up_alive ms s0 s tr HR HU)) as FT. unfold fits in FT. rewrite FT. cbn [andb].
  unfold o. cbn [PoolModel.plan]. destruct (log_done lv (tree_at ds k) l e (trees_populated HM k)) as [cs ->]. reflexivity.
Qed.
(** Likewise flush() and rotate() of a sink that was made. *)
Theorem flush_begins s0 ms s tr t k : reached_by s0 ms s tr -> d_up s = true ->
  1 <= t <= n -> PoolSpec.resting count (d_pool s) t -> k < List.length (sinks (d_sys s)) ->
  snd (dstep s (DFlush t k)) = [DIn (PoolModel.PStart t (PoolModel.OFlush (tree_at ds k)))] /\
  snd (dstep s (DRotate t k)) = [DIn (PoolModel.PStart t (PoolModel.ORotate (tree_at ds k)))].
Proof.
  intros HR HU Ht [R1 R2] HK. cbn [DeployModel.dstep]. rewrite HU, (proj2 (Nat.ltb_lt _ _) HK). cbn [andb]. rewrite !in_pool_eq. cbn [snd].
  cbn [PoolModel.pstep]. unfold PoolModel.is_thread. rewrite (proj2 (Nat.leb_le 1 t)), (proj2 (Nat.leb_le t n)) by lia. rewrite R1. cbn [PoolModel.is_nil].
  rewrite (proj2 (PoolProofs.free_all count (d_pool s) t) R2). cbn [PoolModel.sink_of].
  pose proof (tree_fits (d_pool s) k (up_alive ms s0 s tr HR HU)) as FT. unfold fits in FT. rewrite FT. cbn [andb].
  cbn [PoolModel.plan]. split; reflexivity.
Qed.
Theorem call_begins s0 ms s tr t i Lg e k G : reached_by s0 ms s tr -> d_up s = true ->
  (forall d, In d ds -> d_kind d <> KMulti []) -> 1 <= t <= n -> PoolSpec.resting count (d_pool s) t ->
  nth_error (loggers (d_sys s)) i = Some Lg -> l_alive Lg = true -> l_sink Lg = Some k -> nth_error (groups (d_sys s)) (l_group Lg) = Some G ->
  said_by t (snd (dstep s (DLog t i e))) = [(g_name G, Lg, e)].
Proof.
  intros HR HU HM Ht RE EL EA EK EG. cbn [DeployModel.dstep]. rewrite EL, EG, EK, HU, EA. cbn [andb]. rewrite in_pool_eq. cbn [snd].
  rewrite (log_starts s0 ms s tr t k) by assumption. cbn [snd List.app map said_by flat_map]. rewrite Nat.eqb_refl. reflexivity.
Qed.
(** Also with the temporary logger of a warning. *)
Theorem warning_begins s0 ms s tr t x g kn lv e Lw G text k : reached_by s0 ms s tr -> d_up s = true ->
  (forall d, In d ds -> d_kind d <> KMulti []) -> 1 <= t <= n -> PoolSpec.resting count (d_pool s) t ->
  warning dbg (d_sys s) x g = Some (Lw, G, text) -> l_sink Lw = Some k ->
  d_sys (fst (dstep s (DGet t x g kn lv e))) = fst (step ord (enough (d_sys s)) dbg (d_sys s) (GetLogger x g kn lv)) /\
  said_by t (snd (dstep s (DGet t x g kn lv e))) = [(g_name G, Lw, warned e text)].
Proof.
  intros HR HU HM Ht RE EW EK. cbn [DeployModel.dstep]. rewrite EW, EK, HU, in_pool_eq.
  rewrite (log_starts s0 ms s tr t k) by assumption. cbn [fst snd d_sys map said_by flat_map]. rewrite Nat.eqb_refl. split; reflexivity.
Qed.
(** ** After configuring with a document *)
Section Doc.
Variable L : lib.
Variable fuel : nat.
Hypothesis UL : usual_lib L.
Hypothesis RH : refuses_huge_buffers L.
Variable busy : bool.
Variable src : source.
Variable doc : node.
Variable w1 : world.
Variable gs : list gdecl.
Hypothesis D : document src doc.
Hypothesis DR : doc_read L false (before_configure busy) doc w1 gs.
Hypothesis ND : NoDup (map e_name (all_entries None gs)).
Hypothesis HD : ds = sinks_of (w_log w1).

Lemma doc_system : exists w', yaml L ord fuel dbg None src (before_configure busy) = (w', Val no_problem) /\
  follows (groups (w_sys w')) (w_sys w') /\
  forall G, In G (groups (w_sys w')) -> exists lv name, group_settings gs (g_name G) = Some (lv, name) /\
    g_level G = lv /\ g_sink G = Some (sink_number ds name).
Proof.
  destruct (tree_made L ord fuel dbg UL RH src doc (before_configure busy) w1 gs D DR) as (w' & Gs & Y & E1 & E2 & E3 & _ & E5 & _ & _ & E8).
  - discriminate.
  - split; [intros n0 i; discriminate|]. intros n0 i. cbn [before_configure w_sys with_configured init smap find sinks List.length].
    destruct (String.eqb _ n0); [|discriminate]. intros H. inversion H. constructor.
  - exact ND.
  - intros e _. reflexivity.
  - exists w'. split; [exact Y|]. split; [split; [reflexivity|]; rewrite E3; intros [|i] X H; discriminate H|].
    intros G HG. rewrite E1 in HG. cbn [before_configure w_sys with_configured init groups List.app] in HG, E1.
    assert (HN : In (g_name G) (map e_name (all_entries None gs))) by (rewrite <- E2; now apply in_map).
    apply in_map_iff in HN. destruct HN as (e & EN & He). destruct (all_settings_hold _ gs E8 ND e He) as (lv & sk & S1 & i & x & S2 & S3 & S4 & S5 & S6).
    rewrite EN in *. assert (x = G) as ->.
    { apply In_nth_error in HG. destruct HG as [j HG]. rewrite E1 in S3. assert (i = j); [|congruence].
      apply (proj1 (NoDup_nth_error (map g_name Gs))); [rewrite E2; exact ND| |].
      - rewrite map_length. apply nth_error_Some. congruence.
      - rewrite !nth_error_map, S3, HG. cbn [option_map]. now rewrite S4. }
    exists lv, sk. split; [exact S1|]. split; [exact S5|]. rewrite S6, E5.
    assert (KN : sinks_known w1).
    { destruct DR as (_ & [[_ ->]|(l & _ & HS)] & _); [apply start_known|]. eapply read_known; [exact HS|apply start_known]. }
    destruct (find (smap (w_sys w1)) sk) as [k|] eqn:EF; [now rewrite HD, (proj2 KN sk k EF)|].
    exfalso. destruct DR as (_ & HS & g & _ & HG'). eapply (settings_known L _ (g_name G) gs g lv sk HG'); [|exact S1|exact EF].
    destruct HS as [[_ ->]|(l & _ & HS)]; [discriminate|]. apply (proj2 (proj2 (proj2 (proj2 (sinks_read_rest L _ _ _ HS))))). discriminate.
Qed.

(** What is due by the document is what the loggers bring. *)
Lemma due_brings w' ms s tr : fst (yaml L ord fuel dbg None src (before_configure busy)) = w' ->
  Forall plain ms -> reached_by (w_sys w') ms s tr ->
  forall t id, flat_map (brings ds id) (said_by t tr) = flat_map (due gs ds id) (said_by t tr).
Proof.
  intros EY HP HR t id. destruct doc_system as (w2 & Y & F & HG). rewrite Y in EY. cbn [fst] in EY. subst w2.
  assert (SD : forall t0 g L0 e, In (DSaid t0 g L0 e) tr -> brings ds id (g, L0, e) = due gs ds id (g, L0, e)).
  { intros t0 g L0 e H. destruct (plain_run (groups (w_sys w')) ms (dstart lt memory address fg_first ds op n (w_sys w')) s tr HP F HR) as [_ S]. destruct (S _ _ _ _ H) as (G & G1 & G2 & G3 & G4).
    destruct (HG G G1) as (lv & name & K1 & K2 & K3). unfold brings, due. rewrite <- G2, K1, G4, K3, G3, K2. reflexivity. }
  clear - SD. induction tr as [|x tr IH]; [reflexivity|]. unfold said_by in *. cbn [flat_map].
  rewrite !flat_map_app, IH by (intros; eapply SD; right; eauto). f_equal. destruct x as [u g L0 e|]; [|reflexivity].
  destruct (Nat.eqb u t); [|reflexivity]. cbn [flat_map]. rewrite (SD u g L0 e (or_introl eq_refl)). reflexivity.
Qed.


(** ** The file *)
Lemma pair_runs {A B} (xs : list (A * B)) : forall runs, concat runs = map snd xs ->
  exists runs', map (map snd) runs' = runs /\ concat runs' = xs.
Proof.
  intros runs. revert xs. induction runs as [|r runs IH]; intros xs E.
  - destruct xs; [|discriminate]. exists []. auto.
  - cbn [concat] in E. destruct (IH (skipn (List.length r) xs)) as (rs & R1 & R2).
    { rewrite <- skipn_map, <- E. now rewrite skipn_app, skipn_all, Nat.sub_diag. }
    exists (firstn (List.length r) xs :: rs). cbn [map concat]. rewrite R1, R2, firstn_skipn, <- firstn_map, <- E. split; [|reflexivity].
    now rewrite firstn_app, firstn_all, Nat.sub_diag, app_nil_r.
Qed.

Definition the_file (d : sink_desc) (ti : EventModel.thread_info) (z : sizes) : EndModel.fsettings :=
  file_settings lt memory address (d_level d) ti z.

Lemma file_cfg j d path ti z : nth_error ds j = Some d -> d_kind d = KFile path ti z ->
  cfg_at (S j) = leaf_cfg SinkModel.KFile (S j) (the_file d ti z) (SinkModel.c_render (EndModel.file_sink (the_file d ti z))).
Proof. intros E1 E2. cbn [DeployModel.cfg_at]. now rewrite E1, E2. Qed.

(** What was read is acceptable to the sink. *)
Lemma doc_sizes d path ti z : In d ds -> d_kind d = KFile path ti z \/ d_kind d = KSyslog path ti z ->
  platform_ok L lt address -> EndSpec.settings_ok (the_file d ti z).
Proof.
  intros Hd Hk (P1 & P2 & P3).
  assert (HS : exists x, sizes_read L false x z).
  { rewrite HD in Hd. assert (forall w l w2, sinks_read L w l w2 -> In d (sinks_of (w_log w2)) -> In d (sinks_of (w_log w)) \/ exists m x, sink_read L m x d).
    { induction 1 as [w|w x d0 l w2 SR M C SS IH]; [auto|]. intros H. destruct (IH H) as [H1|H1]; [|now right].
      unfold world_with_sink in H1. cbn [w_log] in H1. unfold sinks_of in H1. rewrite flat_map_app in H1. apply in_app_or in H1.
      destruct H1 as [H1|[->|[]]]; [now left|]. right. eauto. }
    destruct DR as (_ & [[_ ->]|(l & _ & HS)] & _); [destruct Hd|]. destruct (H _ _ _ HS Hd) as [[]|(m & x & SR)].
    destruct SR as (_ & _ & _ & KR). destruct Hk as [Hk|Hk]; rewrite Hk in KR; inversion KR; subst; eauto. }
  destruct HS as (x & S1 & S2 & S3 & _). destruct UL as [UI _ UE]. unfold EndSpec.settings_ok, the_file, file_settings.
  cbn [EndModel.f_max EndModel.f_buffer EndModel.f_address EndModel.f_localtime EndModel.f_capacity]. rewrite N2Nat.id.
  assert (M : (64 <= or_default (z_message z) file_max_message_default < 2 ^ 31)%N).
  { inversion S3 as [H0 H1|t v Ht (y & Hx & Hg & Hv) H1]; cbn [or_default]; [unfold file_max_message_default; lia|].
    rewrite Hv. cbn [or_default]. unfold good_message in Hg. pose proof (UI t y Hx). lia. }
  assert (B : (416 <= or_default (z_buffer z) file_buffer_default)%N).
  { inversion S2 as [H0 H1|t v Ht (y & Hx & Hg & Hv) H1]; cbn [or_default]; [unfold file_buffer_default; lia|].
    rewrite Hv. cbn [or_default]. unfold good_buffer in Hg. unfold EventModel.sizeof_Event in P3. lia. }
  assert (C : (4 <= or_default (z_capacity z) file_capacity_default)%N).
  { inversion S1 as [H0 H1|t v Ht (y & Hx & Hg & Hv) H1]; cbn [or_default]; [unfold file_capacity_default; lia|].
    rewrite Hv. cbn [or_default]. unfold good_capacity in Hg. lia. }
  repeat split; try lia; auto; apply P1.
Qed.

Lemma in_brings id x e : In e (brings ds id x) -> e = named (snd (fst x)) (snd x).
Proof.
  destruct x as [[g Lg] y]. unfold brings. destruct (l_sink Lg); [|intros []]. destruct (TreeSpec.passes_b _ _); [|intros []].
  intros H. apply repeat_spec in H. exact H.
Qed.
Lemma in_said t x tr : In x (said_by t tr) -> In (DSaid t (fst (fst x)) (snd (fst x)) (snd x)) tr.
Proof.
  unfold said_by. rewrite in_flat_map. intros (l & H1 & H2). destruct l as [u g Lg e|]; [|destruct H2]. destruct (Nat.eqb_spec u t) as [->|]; [|destruct H2].
  destruct H2 as [<-|[]]. exact H1.
Qed.

(** Everything accepted was said. *)
Lemma accepted_said s0 ms s tr id (Q : said -> Prop) : reached_by s0 ms s tr -> id < count ->
  (forall t g Lg e, In (DSaid t g Lg e) tr -> Q (named Lg e)) -> Forall Q (SinkSpec.accepted (in_sink id tr)).
Proof.
  intros H Hid HQ. destruct (deployed_so_far s0 ms s tr id H Hid) as [P1 P2]. apply Forall_forall. intros e He.
  unfold SinkSpec.accepted in He. apply in_map_iff in He. destruct He as ([t e'] & E & Hx). cbn [snd] in E. subst e'.
  rewrite Forall_forall in P2. specialize (P2 _ Hx). cbn [fst] in P2. destruct (P1 t P2) as [c Hc].
  assert (In e (flat_map (brings ds id) (said_by t tr))) as Hi.
  { rewrite Hc. apply in_or_app. left. unfold SinkSpec.accepted_by. apply in_map_iff. exists (t, e). split; [reflexivity|]. apply filter_In. split; [exact Hx|]. apply Nat.eqb_refl. }
  apply in_flat_map in Hi. destruct Hi as (x & X1 & X2). rewrite (in_brings _ _ _ X2). eapply HQ. apply in_said. exact X1.
Qed.

Definition sane_call (id : nat) (tr : list dlabel) : Prop :=
  forall t g Lg e, In (DSaid t g Lg e) tr ->
    EndSpec.call_ok (logged_at id (named Lg e)) /\ EndSpec.legible (logged_at id (named Lg e)).

Theorem read_back w' ms s tr j d path ti z u :
  fst (yaml L ord fuel dbg None src (before_configure busy)) = w' -> Forall plain ms -> reached_by (w_sys w') ms s tr ->
  nth_error ds j = Some d -> d_kind d = KFile path ti z -> z_latency z <> Some 0%N -> op (S j) = true ->
  In (SinkModel.LDestroyed u) (in_sink (S j) tr) -> platform_ok L lt address -> sane_call (S j) tr ->
  EndModel.f_thread (the_file d ti z) = ti /\ EndModel.f_localtime (the_file d ti z) = lt /\
  EndModel.f_max (the_file d ti z) = N.to_nat (match z_message z with Some m => m | None => 1024 end) /\
  exists runs : list (list (nat * said)),
    List.length runs = 1 + SinkSpec.fresh_files (in_sink (S j) tr) /\
    map (EndSpec.read_file (the_file d ti z)) (SinkSpec.disk (PoolModel.leaf (d_pool s) (S j))) =
      map (map (fun x => EndSpec.reads (the_file d ti z) (logged_at (S j) (snd x)))) runs /\
    Forall (fun x => 1 <= fst x <= n) (concat runs) /\
    forall t, 1 <= t <= n -> map snd (filter (fun x => Nat.eqb (fst x) t) (concat runs)) = flat_map (due gs ds (S j)) (said_by t tr).
Proof.
  intros EY HP HR Ej Ek Hz Ho Hd PO SC. do 3 (split; [reflexivity|]). set (F := the_file d ti z).
  assert (Hid : S j < count) by (unfold DeployModel.count; apply -> Nat.succ_lt_mono; apply nth_error_Some; congruence).
  pose proof (file_cfg j d path ti z Ej Ek) as EC. fold F in EC.
  pose proof (doc_sizes d path ti z (nth_error_In _ _ Ej) (or_introl Ek) PO) as SO. fold F in SO.
  pose proof (PoolProofs.leaf_reach count cfg_at op n _ _ (S j) (to_pool _ _ _ _ HR) Hid) as RL. rewrite Ho in RL.
  assert (SZ : SinkSpec.sizes_ok (cfg_at (S j))).
  { rewrite EC. intros e. exact (EndProofs.file_sizes F (logged_at (S j) e)). }
  assert (LZ : SinkModel.c_lat0 (cfg_at (S j)) = false).
  { rewrite EC. unfold F, the_file, file_settings. cbn. destruct (z_latency z) as [x|]; cbn; [|reflexivity].
    apply N.eqb_neq. intros ->. now apply Hz. }
  destruct (SinkReturn.destroyed_complete (cfg_at (S j)) n _ _ u SZ LZ RL Hd) as (W & _ & DK).
  destruct (SinkMore.rotation_runs (cfg_at (S j)) n _ _ SZ RL) as (runs & R1 & R2 & R3).
  rewrite W in R2. destruct (pair_runs (SinkSpec.accepts (in_sink (S j) tr)) runs R2) as (prs & Q1 & Q2).
  exists prs. split; [rewrite <- Q1, map_length in R1; exact R1|]. split; [|split].
  - rewrite DK by (rewrite EC; reflexivity). rewrite R3, EC.
    replace (map (fun r => concat (map (SinkModel.c_render (leaf_cfg SinkModel.KFile (S j) F (SinkModel.c_render (EndModel.file_sink F)))) r)) runs)
      with (map (fun r => concat (map (SinkModel.c_render (EndModel.file_sink F)) r)) (map (map (logged_at (S j))) runs)).
    2:{ rewrite map_map. apply map_ext. intros r. rewrite map_map. reflexivity. }
    rewrite (EndProofs.runs_read F SO).
    + rewrite map_map, <- Q1, map_map. apply map_ext. intros r. rewrite !map_map. reflexivity.
    + rewrite <- concat_map, R2. apply Forall_map. apply (accepted_said (w_sys w') ms s tr (S j) _ HR Hid). exact SC.
  - rewrite Q2. apply (proj2 (deployed_so_far _ _ _ _ _ HR Hid)).
  - intros t Ht. rewrite Q2. rewrite <- (due_brings w' ms s tr EY HP HR t (S j)). exact (deployed_destroyed _ _ _ _ t u _ HR Hid Ht Hd).
Qed.

Theorem read_back_crash w' ms s tr j d path ti z :
  fst (yaml L ord fuel dbg None src (before_configure busy)) = w' -> Forall plain ms -> reached_by (w_sys w') ms s tr ->
  nth_error ds j = Some d -> d_kind d = KFile path ti z -> op (S j) = true ->
  platform_ok L lt address -> sane_call (S j) tr ->
  EndModel.f_thread (the_file d ti z) = ti /\ EndModel.f_localtime (the_file d ti z) = lt /\
  EndModel.f_max (the_file d ti z) = N.to_nat (match z_message z with Some m => m | None => 1024 end) /\
  exists lines : list (nat * said),
    flat_map (EndSpec.read_file (the_file d ti z)) (SinkSpec.disk (PoolModel.leaf (d_pool s) (S j))) =
      map (fun x => EndSpec.reads (the_file d ti z) (logged_at (S j) (snd x))) lines /\
    Forall (fun x => 1 <= fst x <= n) lines /\
    forall t, 1 <= t <= n ->
      SinkSpec.is_prefix (map snd (filter (fun x => Nat.eqb (fst x) t) lines)) (flat_map (due gs ds (S j)) (said_by t tr)).
Proof.
  intros EY HP HR Ej Ek Ho PO SC. do 3 (split; [reflexivity|]). set (F := the_file d ti z).
  assert (Hid : S j < count) by (unfold DeployModel.count; apply -> Nat.succ_lt_mono; apply nth_error_Some; congruence).
  pose proof (file_cfg j d path ti z Ej Ek) as EC. fold F in EC.
  pose proof (doc_sizes d path ti z (nth_error_In _ _ Ej) (or_introl Ek) PO) as SO. fold F in SO.
  pose proof (PoolProofs.leaf_reach count cfg_at op n _ _ (S j) (to_pool _ _ _ _ HR) Hid) as RL. rewrite Ho in RL.
  assert (SZ : SinkSpec.sizes_ok (cfg_at (S j))).
  { rewrite EC. intros e. exact (EndProofs.file_sizes F (logged_at (S j) e)). }
  fold (in_sink (S j) tr) in RL. set (ls := in_sink (S j) tr) in *.
  destruct (SinkMore.crash_prefix (cfg_at (S j)) n _ _ SZ ltac:(rewrite EC; discriminate) RL) as (_ & runs & last & before & beyond & W & DK & B).
  destruct (SinkProps.per_thread_order (cfg_at (S j)) n _ _ SZ RL) as [(k0 & K) _].
  assert (CR : forall r, map (SinkModel.c_render (cfg_at (S j))) r = map (SinkModel.c_render (EndModel.file_sink F)) (map (logged_at (S j)) r)).
  { intros r. rewrite EC, map_map. reflexivity. }
  set (ok := fun e => EndSpec.call_ok e /\ EndSpec.legible e).
  assert (Hw : Forall ok (map (logged_at (S j)) (SinkSpec.written ls))).
  { rewrite K. pose proof (accepted_said (w_sys w') ms s tr (S j) (fun e => ok (logged_at (S j) e)) HR Hid SC) as HA. apply Forall_map.
    fold ls in HA. unfold SinkSpec.accepted in HA. rewrite Forall_forall in *. intros e He. apply HA.
    rewrite <- firstn_map in He. rewrite <- (firstn_skipn k0). apply in_or_app. now left. }
  rewrite concat_app in W. cbn [concat] in W. rewrite app_nil_r in W. rewrite W, map_app in Hw. apply Forall_app in Hw. destruct Hw as [H1 H2].
  rewrite CR in B. destruct (EndProofs.read_prefix F before beyond) as (k2 & K2). rewrite <- B, EndProofs.read_many in K2 by auto.
  exists (firstn (List.length (concat runs) + k2) (firstn k0 (SinkSpec.accepts ls))). split; [|split].
  - rewrite DK, flat_map_app. cbn [flat_map]. rewrite app_nil_r.
    replace (map (fun r => concat (map (SinkModel.c_render (cfg_at (S j))) r)) runs)
      with (map (fun r => concat (map (SinkModel.c_render (EndModel.file_sink F)) r)) (map (map (logged_at (S j))) runs)).
    2:{ rewrite map_map. apply map_ext. intros r. now rewrite CR. }
    rewrite flat_map_concat_map, (EndProofs.runs_read F SO) by (rewrite <- concat_map; exact H1).
    rewrite K2, <- concat_map, <- concat_map.
    rewrite <- (map_map snd (fun e => EndSpec.reads F (logged_at (S j) e))), <- (map_map (logged_at (S j)) (EndSpec.reads F)).
    rewrite <- firstn_map, <- K, W, firstn_app_2, !map_app, firstn_map, firstn_map. reflexivity.
  - pose proof (proj2 (deployed_so_far _ _ _ _ _ HR Hid)) as P2. fold ls in P2. rewrite firstn_firstn.
    rewrite Forall_forall in *. intros x Hx. apply P2. rewrite <- (firstn_skipn (Nat.min (List.length (concat runs) + k2) k0)). apply in_or_app. now left.
  - intros t Ht. rewrite <- (due_brings w' ms s tr EY HP HR t (S j)). destruct (proj1 (deployed_so_far _ _ _ _ _ HR Hid) t Ht) as [c Hc]. fold ls in Hc.
    rewrite firstn_firstn. rewrite Hc. unfold SinkSpec.accepted_by. rewrite <- (firstn_skipn (Nat.min (List.length (concat runs) + k2) k0) (SinkSpec.accepts ls)) at 2.
    rewrite filter_app, map_app, <- app_assoc. eexists. reflexivity.
Qed.

Theorem doc_call_begins w' ms s tr t i Lg e :
  fst (yaml L ord fuel dbg None src (before_configure busy)) = w' -> Forall plain ms -> reached_by (w_sys w') ms s tr -> d_up s = true ->
  (forall d, In d ds -> d_kind d <> KMulti []) -> 1 <= t <= n -> PoolSpec.resting count (d_pool s) t ->
  nth_error (loggers (d_sys s)) i = Some Lg -> l_alive Lg = true ->
  exists g, said_by t (snd (dstep s (DLog t i e))) = [(g, Lg, e)] /\ group_settings gs g <> None.
Proof.
  intros EY HP HR HU HM Ht RS EL EA. destruct doc_system as (w2 & Y & F & HG). rewrite Y in EY. cbn [fst] in EY. subst w2.
  destruct (plain_run (groups (w_sys w')) ms (dstart lt memory address fg_first ds op n (w_sys w')) s tr HP F HR) as [[F1 F2] _].
  destruct (F2 i Lg EL) as (G & G1 & G2 & G3). destruct (HG G (nth_error_In _ _ G1)) as (lv & name & K1 & K2 & K3). exists (g_name G). split; [|congruence].
  apply (call_begins (w_sys w') ms s tr t i Lg e (sink_number ds name) G); auto; congruence.
Qed.

(** ** The console *)
Theorem console_out w' ms s tr j d st color ti z u :
  fst (yaml L ord fuel dbg None src (before_configure busy)) = w' -> Forall plain ms -> reached_by (w_sys w') ms s tr ->
  nth_error ds j = Some d -> d_kind d = KConsole st color ti z -> z_latency z <> Some 0%N -> op (S j) = true ->
  In (SinkModel.LDestroyed u) (in_sink (S j) tr) ->
  let F := console_settings lt memory address (d_level d) ti z in
  EndModel.f_thread F = ti /\ EndModel.f_localtime F = lt /\
  EndModel.f_max F = N.to_nat (match z_message z with Some m => m | None => 1024 end) /\
  exists lines : list (nat * said),
    concat (SinkSpec.files (PoolModel.leaf (d_pool s) (S j))) =
      concat (map (fun x => console_record lt fg_first color F (logged_at (S j) (snd x))) lines) /\
    Forall (fun x => 1 <= fst x <= n) lines /\
    forall t, 1 <= t <= n -> map snd (filter (fun x => Nat.eqb (fst x) t) lines) = flat_map (due gs ds (S j)) (said_by t tr).
Proof.
  intros EY HP HR Ej Ek Hz Ho Hd F. do 3 (split; [reflexivity|]).
  assert (Hid : S j < count) by (unfold DeployModel.count; apply -> Nat.succ_lt_mono; apply nth_error_Some; congruence).
  assert (EC : cfg_at (S j) = leaf_cfg SinkModel.KConsole (S j) F (console_record lt fg_first color F)) by (cbn [DeployModel.cfg_at]; now rewrite Ej, Ek).
  pose proof (PoolProofs.leaf_reach count cfg_at op n _ _ (S j) (to_pool _ _ _ _ HR) Hid) as RL. rewrite Ho in RL.
  assert (SZ : SinkSpec.sizes_ok (cfg_at (S j))).
  { rewrite EC. intros e. exact (EndProofs.file_sizes F (logged_at (S j) e)). }
  assert (LZ : SinkModel.c_lat0 (cfg_at (S j)) = false).
  { rewrite EC. unfold F, console_settings. cbn. destruct (z_latency z) as [x|]; cbn; [|reflexivity]. apply N.eqb_neq. intros ->. now apply Hz. }
  destruct (SinkReturn.destroyed_complete (cfg_at (S j)) n _ _ u SZ LZ RL Hd) as (_ & W & _). specialize (W ltac:(rewrite EC; discriminate)).
  exists (SinkSpec.accepts (in_sink (S j) tr)). split; [|split].
  - rewrite W. unfold SinkSpec.accepted. rewrite map_map, EC. reflexivity.
  - apply (proj2 (deployed_so_far _ _ _ _ _ HR Hid)).
  - intros t Ht. rewrite <- (due_brings w' ms s tr EY HP HR t (S j)). exact (deployed_destroyed _ _ _ _ t u _ HR Hid Ht Hd).
Qed.

(** ** The syslog daemon *)
Theorem syslog_out w' ms s tr j d ident ti z u sent :
  fst (yaml L ord fuel dbg None src (before_configure busy)) = w' -> Forall plain ms -> reached_by (w_sys w') ms s tr ->
  nth_error ds j = Some d -> d_kind d = KSyslog ident ti z -> z_latency z <> Some 0%N -> op (S j) = true ->
  In (SinkModel.LDestroyed u) (in_sink (S j) tr) -> platform_ok L lt address ->
  (forall t g Lg e, In (DSaid t g Lg e) tr -> EndSpec.call_ok (logged_at (S j) (named Lg e))) ->
  let F := file_settings lt memory address (d_level d) ti z in
  SyslogRunModel.received (logged_at (S j)) F (in_sink (S j) tr) = Some sent ->
  exists lines : list (nat * said),
    map fst sent = flat_map (fun x => SyslogRunSpec.urgency (logged_at (S j) (snd x))) lines /\
    Forall (fun x => 1 <= fst x <= n) lines /\
    forall t, 1 <= t <= n -> map snd (filter (fun x => Nat.eqb (fst x) t) lines) = flat_map (due gs ds (S j)) (said_by t tr).
Proof.
  intros EY HP HR Ej Ek Hz Ho Hd PO SC F HE.
  assert (Hid : S j < count) by (unfold DeployModel.count; apply -> Nat.succ_lt_mono; apply nth_error_Some; congruence).
  assert (EC : cfg_at (S j) = SyslogRunModel.syslog_sink (logged_at (S j)) F) by (cbn [DeployModel.cfg_at]; rewrite Ej, Ek; reflexivity).
  pose proof (doc_sizes d ident ti z (nth_error_In _ _ Ej) (or_intror Ek) PO) as SO.
  pose proof (PoolProofs.leaf_reach count cfg_at op n _ _ (S j) (to_pool _ _ _ _ HR) Hid) as RL. rewrite Ho, EC in RL.
  fold (in_sink (S j) tr) in RL.
  assert (LZ : EndModel.f_lat0 F = false).
  { unfold F, file_settings. cbn [EndModel.f_lat0]. destruct (z_latency z) as [x|]; cbn; [|reflexivity]. apply N.eqb_neq. intros ->. now apply Hz. }
  exists (SinkSpec.accepts (in_sink (S j) tr)). split; [|split].
  - rewrite (SyslogRunProofs.destroyed (logged_at (S j)) F n _ _ u sent SO LZ RL Hd); [|apply (accepted_said (w_sys w') ms s tr (S j) _ HR Hid); exact SC|exact HE].
    unfold SinkSpec.accepted. clear. induction (SinkSpec.accepts (in_sink (S j) tr)) as [|x l IH]; [reflexivity|]. cbn [map flat_map]. now rewrite IH.
  - apply (proj2 (deployed_so_far _ _ _ _ _ HR Hid)).
  - intros t Ht. rewrite <- (due_brings w' ms s tr EY HP HR t (S j)). exact (deployed_destroyed _ _ _ _ t u _ HR Hid Ht Hd).
Qed.
Lemma regroup {A B : Type} (fs : list (list B)) : forall l : list (A * B), map snd l = concat fs ->
  exists gs : list (list (A * B)), concat gs = l /\ map (map snd) gs = fs.
Proof using Type.
  clear. induction fs as [|f fs IH]; intros l H; cbn [concat] in H.
  - destruct l; [|discriminate]. exists []. split; reflexivity.
  - destruct (IH (skipn (List.length f) l)) as (gs & G1 & G2).
    { rewrite <- skipn_map, H, skipn_app, skipn_all, Nat.sub_diag. reflexivity. }
    exists (firstn (List.length f) l :: gs). cbn [concat map]. rewrite G1, G2, firstn_skipn. split; [reflexivity|].
    rewrite <- firstn_map, H, firstn_app, Nat.sub_diag, firstn_all, app_nil_r. reflexivity.
Qed.

Theorem syslog_texts w' ms s tr j d ident ti z u sent :
  fst (yaml L ord fuel dbg None src (before_configure busy)) = w' -> Forall plain ms -> reached_by (w_sys w') ms s tr ->
  nth_error ds j = Some d -> d_kind d = KSyslog ident ti z -> z_latency z <> Some 0%N -> op (S j) = true ->
  In (SinkModel.LDestroyed u) (in_sink (S j) tr) -> platform_ok L lt address ->
  let F := file_settings lt memory address (d_level d) ti z in
  (forall t g Lg e, In (DSaid t g Lg e) tr -> SyslogRunSpec.sendable F (logged_at (S j) (named Lg e))) ->
  SyslogRunModel.received (logged_at (S j)) F (in_sink (S j) tr) = Some sent ->
  exists flushed : list (list (nat * said)),
    sent = flat_map (fun xs => match xs with
                               | [] => []
                               | x :: _ => map (fun p => (p, SyslogRunSpec.tells F (logged_at (S j) (snd x))))
                                               (flat_map (fun y => SyslogRunSpec.urgency (logged_at (S j) (snd y))) xs)
                               end) flushed /\
    Forall (fun x => 1 <= fst x <= n) (concat flushed) /\
    forall t, 1 <= t <= n ->
      map snd (filter (fun x => Nat.eqb (fst x) t) (concat flushed)) = flat_map (due gs ds (S j)) (said_by t tr).
Proof.
  intros EY HP HR Ej Ek Hz Ho Hd PO F SC HE.
  assert (Hid : S j < count) by (unfold DeployModel.count; apply -> Nat.succ_lt_mono; apply nth_error_Some; congruence).
  assert (EC : cfg_at (S j) = SyslogRunModel.syslog_sink (logged_at (S j)) F) by (cbn [DeployModel.cfg_at]; rewrite Ej, Ek; reflexivity).
  pose proof (doc_sizes d ident ti z (nth_error_In _ _ Ej) (or_intror Ek) PO) as SO.
  pose proof (PoolProofs.leaf_reach count cfg_at op n _ _ (S j) (to_pool _ _ _ _ HR) Hid) as RL. rewrite Ho, EC in RL.
  fold (in_sink (S j) tr) in RL.
  assert (LZ : EndModel.f_lat0 F = false).
  { unfold F, file_settings. cbn [EndModel.f_lat0]. destruct (z_latency z) as [x|]; cbn; [|reflexivity]. apply N.eqb_neq. intros ->. now apply Hz. }
  pose proof (accepted_said (w_sys w') ms s tr (S j) (fun e => SyslogRunSpec.sendable F (logged_at (S j) e)) HR Hid SC) as SA.
  pose proof (SyslogRunProofs.texts (logged_at (S j)) F n _ _ sent SO RL SA HE) as TX.
  destruct (SinkReturn.destroyed_complete (SyslogRunModel.syslog_sink (logged_at (S j)) F) n _ _ u
             (SyslogRunProofs.sink_sizes (logged_at (S j)) F) LZ RL Hd) as (W & _).
  destruct (regroup (SyslogRunModel.flushes (in_sink (S j) tr)) (SinkSpec.accepts (in_sink (S j) tr))) as (gs' & G1 & G2).
  { rewrite SyslogRunProofs.flushes_concat, W. reflexivity. }
  exists gs'. rewrite G1. split; [|split].
  - rewrite TX, <- G2. clear. induction gs' as [|g l IH]; [reflexivity|]. cbn [map flat_map]. rewrite IH. f_equal.
    destruct g as [|x g]; [reflexivity|]. unfold SyslogRunProofs.first_text. cbn [map]. f_equal.
    assert (Q : forall k : list (nat * said), flat_map (fun e => SyslogRunSpec.urgency (logged_at (S j) e)) (map snd k) =
                          flat_map (fun y => SyslogRunSpec.urgency (logged_at (S j) (snd y))) k).
    { induction k as [|y k IHk]; [reflexivity|]. cbn [map flat_map]. now rewrite IHk. }
    exact (Q (x :: g)).
  - apply (proj2 (deployed_so_far _ _ _ _ _ HR Hid)).
  - intros t Ht. rewrite <- (due_brings w' ms s tr EY HP HR t (S j)). exact (deployed_destroyed _ _ _ _ t u _ HR Hid Ht Hd).
Qed.
End Doc.

End Run.
