(** * Proofs for C120: the group a logger was asked for *)
From Coq Require Import Ascii String NArith ZArith List Arith Bool Lia Permutation.
From Verif Require Import Base LevelModel SinkConfig SysModel SysSpec YamlModel YamlSpec YamlActSpec YamlDoc YamlKeep DeployModel DeploySpec DeployProofs DeployEnd.
From Verif Require EventModel RecordModel SinkModel PoolModel PoolSpec YamlOutSpec SysBase SysSteps SysProps YamlGroups YamlActs YamlProps YamlConf.
Import ListNotations.

(** Names are unique in the table of groups. *)
Lemma acts_unique L (safe : Prop) ord fuel dbg w l w' : acts L safe ord fuel dbg w l w' ->
  NoDup (map fst (gmap (w_sys w))) -> NoDup (map fst (gmap (w_sys w'))).
Proof.
  induction 1 as [w|w c l w' S A IH|w d l w' S A IH]; auto. intros H. apply IH. clear IH A l w'.
  rewrite YamlActs.fst_call. set (s := w_sys w) in *. destruct c; try contradiction.
  - destruct (YamlActs.make_effect ord fuel dbg s name parent sink lv) as [->|(X & _ & ->)]; [exact H|].
    unfold register. cbn [gmap with_gmap with_groups]. apply SysBase.assign_nodup. destruct (find (gmap s) "*"); [exact H|apply SysBase.assign_nodup, H].
  - cbn [step]. destruct (find (gmap s) g); [|exact H]. cbn [fst gmap with_gmap]. apply SysBase.assign_nodup, H.
  - destruct (YamlGroups.set_call_maps ord fuel dbg s (SetParentOfGroup g p) Logic.I) as [-> _]. exact H.
  - destruct (YamlGroups.set_call_maps ord fuel dbg s (SetSinkOfGroup g k) Logic.I) as [-> _]. exact H.
  - destruct (YamlGroups.set_call_maps ord fuel dbg s (SetLevelOfGroup g lv) Logic.I) as [-> _]. exact H.
Qed.

(** A document with different names has no group directly below one of its name. *)
Lemma read_in L known root gs : forall l n, groups_read L known root gs l -> In n l -> exists d, In d gs /\ group_read L known root d n.
Proof.
  induction gs as [|d gs IH]; intros [|m l] n R I; try destruct R; try destruct I.
  - subst. exists d. split; [apply in_eq|assumption].
  - destruct (IH l n ltac:(assumption) ltac:(assumption)) as (d' & ? & ?). exists d'. split; [apply in_cons; assumption|assumption].
Qed.
Lemma nodup_flat {A B} (f : A -> list B) l : NoDup (flat_map f l) -> forall x, In x l -> NoDup (f x).
Proof.
  induction l as [|a l IH]; intros H x I; cbn [flat_map] in H; [destruct I|]. destruct I as [E|I].
  - subst. revert H. generalize (flat_map f l) as b. clear. induction (f x) as [|y z IH]; intros b H; [constructor|]. inversion H; subst. constructor; [|eapply IH; eassumption].
    intros Q. apply H2. apply in_or_app. left. exact Q.
  - apply IH; [|exact I]. clear -H. induction (f a) as [|y z IH]; [exact H|]. inversion H; subst. now apply IH.
Qed.
Lemma map_flat {A B C} (g : B -> C) (f : A -> list B) l : map g (flat_map f l) = flat_map (fun x => map g (f x)) l.
Proof. induction l as [|a l IH]; [reflexivity|]. cbn [flat_map]. rewrite map_app, IH. reflexivity. Qed.
Lemma nested_named L p l : nested p l -> forall known root gs parent, groups_read L known root gs l ->
  NoDup (map e_name (all_entries parent gs)) -> match p with Some q => In q (map e_name (all_entries parent gs)) | None => False end.
Proof.
  induction 1 as [p n l I G|p n l t I G B IH]; intros known root gs parent R ND; destruct (read_in L known root gs l n R I) as (d & Id & Rd);
    destruct d as [name fb sk lv ch]; cbn [group_read] in Rd; destruct Rd as (G' & _ & _ & _ & _ & _ & _ & l2 & C & Rc);
    (rewrite G in G'; injection G' as ->).
  - apply in_map_iff. eexists. split; [|unfold all_entries; apply in_flat_map; eexists; split; [exact Id|apply in_eq]]. reflexivity.
  - exfalso. assert (EC : YamlOutSpec.children_of n = l2). { unfold YamlOutSpec.children_of. destruct C as [->|[[->| ->] ->]]; reflexivity. }
    rewrite EC in IH. pose proof ND as ND'. unfold all_entries in ND'. rewrite map_flat in ND'.
    apply (nodup_flat _ _ ND' _) in Id. cbn [entries map e_name] in Id. inversion Id as [|? ? N1 N2]; subst.
    refine (N1 (IH known false ch (Some name) _ N2)). clear -Rc. rename Rc into R. revert R. generalize (YamlOutSpec.children_of n) as l.
    induction ch as [|c ch IHc]; intros [|x l] R; try contradiction; [exact Logic.I|]. destruct R as [R1 R2]. split; [exact R1|apply IHc; exact R2].
Qed.
Lemma read_unnested L busy src doc w1 gs : document src doc -> doc_read L false (before_configure busy) doc w1 gs ->
  NoDup (map e_name (all_entries None gs)) -> not_nested src.
Proof.
  intros D DR ND n D'. assert (n = doc) as -> by (destruct D as [->|[q ->]], D' as [E|[q' E]]; congruence).
  destruct DR as (_ & _ & g & Eg & R). unfold top_groups. rewrite Eg. intros N. exact (nested_named L _ _ N _ _ _ _ R ND).
Qed.

Section Run.
Variable lt : N -> RecordModel.tm.
Variable memory : EventModel.mem.
Variable address : N.
Variable fg_first : bool.
Variable ds : list sink_desc.
Variable op : nat -> bool.
Variable n : nat.
Variable ord : list nat -> list nat.
Variable dbg : bool.

Notation cfg_at := (cfg_at lt memory address fg_first ds).
Notation count := (count ds).
Notation dstep := (dstep lt memory address fg_first ds n ord dbg).
Notation dexec := (dexec lt memory address fg_first ds n ord dbg).
Notation reached_by := (reached_by lt memory address fg_first ds op n ord dbg).

(** ** What plain programs leave alone *)
Record Kept (s0 s : sys) : Prop := mkKept {
  K_groups : groups s = groups s0;
  K_conf : configured s = configured s0;
  K_uniq : NoDup (map fst (gmap s));
  K_find : forall m, find (gmap s) m = find (gmap s0) m;
  K_log : forall i L, nth_error (loggers s0) i = Some L ->
    exists L', nth_error (loggers s) i = Some L' /\ l_name L' = l_name L /\ l_group L' = l_group L
}.
Lemma kept_refl s : NoDup (map fst (gmap s)) -> Kept s s.
Proof. intros H. constructor; auto. intros i L E. eauto. Qed.
Lemma kept_trans a b c : Kept a b -> Kept b c -> Kept a c.
Proof.
  intros [A1 A2 A3 A4 A5] [B1 B2 B3 B4 B5]. constructor; [congruence|congruence|exact B3| |].
  - intros m. rewrite B4. apply A4.
  - intros i L E. destruct (A5 i L E) as (L1 & E1 & N1 & G1). destruct (B5 i L1 E1) as (L2 & E2 & N2 & G2). exists L2. split; [exact E2|]. split; congruence.
Qed.

Lemma set_at_eq {A} (l : list A) : forall i x y, nth_error l i = Some y -> nth_error (set_at l i x) i = Some x.
Proof. induction l as [|a l IH]; intros [|i] x y; cbn; try discriminate; [auto|]. apply IH. Qed.
Lemma set_at_ne {A} (l : list A) : forall i x j, i <> j -> nth_error (set_at l i x) j = nth_error l j.
Proof. induction l as [|a l IH]; intros [|i] x [|j] H; cbn; try reflexivity; [congruence|]. apply IH. congruence. Qed.

Lemma kept_call s c : plain (DSys c) -> NoDup (map fst (gmap s)) -> Kept s (fst (step ord (enough s) dbg s c)).
Proof.
  intros P H. destruct c; cbn [plain] in P; try contradiction; cbn [step].
  - destruct k; [contradiction|]. destruct lv; [contradiction|]. unfold get_logger.
    destruct (negb (configured s)); [now apply kept_refl|]. destruct (live s x); [now apply kept_refl|].
    assert (C : forall j y, Kept s (with_loggers s (loggers s ++ [l_construct x j y]) (assign (lmap s) x (List.length (loggers s))))).
    { intros j y. constructor; auto. intros i L E. exists L. cbn [loggers with_loggers]. rewrite nth_error_app1; [auto|]. apply nth_error_Some. congruence. }
    repeat match goal with
           | |- context [if ?b then _ else _] => destruct b
           | |- context [match find (gmap s) ?g with _ => _ end] => destruct (find (gmap s) g)
           | |- context [match nth_error (groups s) ?g with _ => _ end] => destruct (nth_error (groups s) g) eqn:?
           end; cbn [fst]; try (now apply kept_refl); now apply C.
  - unfold mod_logger. destruct (nth_error (loggers s) i) as [x|] eqn:Ex; [|now apply kept_refl]. constructor; auto. cbn [fst with_loggers loggers].
    intros j L E. destruct (Nat.eq_dec i j) as [<-|Hn].
    + rewrite (set_at_eq _ _ _ _ E). eexists. split; [reflexivity|]. assert (x = L) as -> by congruence. auto.
    + rewrite set_at_ne by exact Hn. eauto.
  - cbn [fst]. constructor; cbn [with_gmap groups configured gmap loggers]; auto.
    + eapply Permutation_NoDup; [apply Permutation_map, Permutation_sym, SysBase.swap_perm|exact H].
    + intros m. symmetry. apply SysBase.find_perm; [apply Permutation_sym, SysBase.swap_perm|exact H].
    + eauto.
  - cbn [fst]. constructor; cbn [with_loggers groups configured gmap loggers]; auto. eauto.
Qed.

Definition calls (c : call) (m : dmove) : Prop :=
  match m with
  | DSys c' => c = c'
  | DGet _ x g k lv _ => c = GetLogger x g k lv
  | _ => False
  end.
Lemma plain_calls c m : plain m -> calls c m -> plain (DSys c).
Proof.
  destruct m; cbn [calls plain]; intros H E; try contradiction; subst c; [exact H|]. destruct k; [contradiction|]. destruct lv; [contradiction|exact I].
Qed.
Lemma sys_step s m : d_sys (fst (dstep s m)) = d_sys s \/ exists c, calls c m /\ d_sys (fst (dstep s m)) = fst (step ord (enough (d_sys s)) dbg (d_sys s) c).
Proof.
  destruct m as [c|t x g kn lv e|t i e|t k|t k| |m]; cbn [DeployModel.dstep].
  - destruct (d_up s && silent ds dbg (d_sys s) c); [right; exists c; split; reflexivity|left; reflexivity].
  - destruct (warning dbg (d_sys s) x g) as [[[L G] text]|]; [|left; reflexivity]. destruct (l_sink L); [|left; reflexivity].
    destruct (d_up s); [|left; reflexivity]. rewrite in_pool_eq. destruct (snd _); [left; reflexivity|]. right. eexists. split; reflexivity.
  - left. destruct (nth_error (loggers (d_sys s)) i) as [L|]; [|reflexivity]. destruct (nth_error (groups (d_sys s)) (l_group L)) as [G|]; [|reflexivity].
    destruct (l_sink L) as [k|]; [|reflexivity]. destruct (d_up s && l_alive L); [|reflexivity]. rewrite in_pool_eq. reflexivity.
  - left. destruct (d_up s && Nat.ltb k (List.length (sinks (d_sys s)))); [|reflexivity]. rewrite in_pool_eq. reflexivity.
  - left. destruct (d_up s && Nat.ltb k (List.length (sinks (d_sys s)))); [|reflexivity]. rewrite in_pool_eq. reflexivity.
  - left. reflexivity.
  - left. destruct (match m with PoolModel.XStart _ _ => false | PoolModel.XDestroy _ _ => negb (d_up s) | _ => true end); [|reflexivity]. rewrite in_pool_eq. reflexivity.
Qed.

Lemma kept_run ms : forall s, Forall plain ms -> NoDup (map fst (gmap (d_sys s))) -> Kept (d_sys s) (d_sys (fst (dexec s ms))).
Proof.
  induction ms as [|m ms IH]; intros s HP H; cbn [DeployModel.dexec]; [now apply kept_refl|]. inversion HP as [|? ? P1 P2]; subst.
  assert (K1 : Kept (d_sys s) (d_sys (fst (dstep s m)))).
  { destruct (sys_step s m) as [->|(c & C & ->)]; [now apply kept_refl|]. apply kept_call; [|exact H]. exact (plain_calls _ _ P1 C). }
  destruct (dstep s m) as [s1 l1]. cbn [fst] in K1. specialize (IH s1 P2 (K_uniq _ _ K1)). destruct (dexec s1 ms) as [s2 l2]. exact (kept_trans _ _ _ K1 IH).
Qed.

Section Doc.
Variable L : lib.
Variable fuel : nat.
Hypothesis UL : usual_lib L.
Hypothesis RH : refuses_huge_buffers L.
Variable busy : bool.
Variable src : source.
Variable doc : node.
Variable w1 : world.
Variable gs : list gdecl.
Hypothesis D : document src doc.
Hypothesis DR : doc_read L false (before_configure busy) doc w1 gs.
Hypothesis ND : NoDup (map e_name (all_entries None gs)).
Hypothesis HD : ds = sinks_of (w_log w1).

(** The names of the document. *)
Lemma doc_names w' : fst (yaml L ord fuel dbg None src (before_configure busy)) = w' ->
  NoDup (map fst (gmap (w_sys w'))) /\ configured (w_sys w') = true /\
  (forall g G i, find (gmap (w_sys w')) g = Some i -> nth_error (groups (w_sys w')) i = Some G -> group_meant gs g = Some (g_name G) \/ g = "*"%string) /\
  (forall g, g <> "*"%string -> find (gmap (w_sys w')) g = None -> group_meant gs g = fallback_of gs) /\
  (all_entries None gs <> [] -> exists i G, find (gmap (w_sys w')) "*" = Some i /\ nth_error (groups (w_sys w')) i = Some G /\ fallback_of gs = Some (g_name G)) /\
  group_meant gs "*" = fallback_of gs /\
  (forall g i, g <> "*"%string -> find (gmap (w_sys w')) g = Some i -> exists G, nth_error (groups (w_sys w')) i = Some G /\ g_name G = g) /\
  (forall g, g <> "*"%string -> match find (gmap (w_sys w')) g with Some _ => in_document gs g = true | None => in_document gs g = false end).
Proof.
  intros EY.
  destruct (tree_made L ord fuel dbg UL RH src doc (before_configure busy) w1 gs D DR) as (w2 & Gs & Y & E1 & E2 & E3 & E4 & E5 & E6 & E7 & E8).
  - discriminate.
  - split; [intros n0 i; discriminate|]. intros n0 i. cbn [before_configure w_sys with_configured init smap find sinks List.length].
    destruct (String.eqb _ n0); [|discriminate]. intros H. inversion H. constructor.
  - exact ND.
  - intros e _. reflexivity.
  - rewrite Y in EY. cbn [fst] in EY. subst w2.
    assert (IN : forall g, In g (map e_name (all_entries None gs)) -> exists i G, find (gmap (w_sys w')) g = Some i /\ nth_error (groups (w_sys w')) i = Some G /\ g_name G = g).
    { intros g Hg. apply in_map_iff in Hg. destruct Hg as (e & <- & He). rewrite Forall_forall in E8. destruct (E8 e He) as (i & G & F1 & F2 & F3 & _). eauto. }
    assert (OUT : forall g, g <> "*"%string -> ~ In g (map e_name (all_entries None gs)) -> find (gmap (w_sys w')) g = None).
    { intros g H1 H2. rewrite (E6 g H1 H2). reflexivity. }
    assert (EX : forall g, existsb (String.eqb g) (map e_name (all_entries None gs)) = true <-> In g (map e_name (all_entries None gs))).
    { intros g. rewrite existsb_exists. split; [intros (x & X1 & X2); apply String.eqb_eq in X2; subst; exact X1|]. intros H. exists g. split; [exact H|apply String.eqb_refl]. }
    destruct (YamlProps.yaml_acts L ord fuel dbg src (before_configure busy) w' (Val no_problem) ltac:(discriminate) Y) as (l & A & _).
    assert (FB : all_entries None gs <> [] -> exists i G, find (gmap (w_sys w')) "*" = Some i /\ nth_error (groups (w_sys w')) i = Some G /\ fallback_of gs = Some (g_name G)).
    { intros NE. rewrite E7. unfold fallback_after, fallback_of. destruct (filter e_fallback (rev (all_entries None gs))) as [|e es] eqn:EF.
      - cbn [before_configure w_sys with_configured init gmap find]. destruct (all_entries None gs) as [|e es] eqn:EA; [congruence|].
        destruct (IN (e_name e)) as (i & G & F1 & F2 & F3); [apply in_map; apply in_eq|]. exists i, G. rewrite F3. auto.
      - assert (He : In e (all_entries None gs)). { apply in_rev. assert (In e (filter e_fallback (rev (all_entries None gs)))) as Hx by (rewrite EF; apply in_eq). apply filter_In in Hx. tauto. }
        destruct (IN (e_name e)) as (i & G & F1 & F2 & F3); [apply in_map; exact He|]. exists i, G. rewrite F3. auto. }
    split; [eapply acts_unique; [exact A|constructor]|]. split; [|split; [|split; [|split; [exact FB|split; [|split]]]]].
    + assert (CF : forall w l w', acts L (not_nested src) ord fuel dbg w l w' -> configured (w_sys w) = true -> configured (w_sys w') = true).
      { clear. induction 1 as [w|w c l w' S A IH|w d l w' S A IH]; auto. intros H. apply IH. rewrite YamlActs.fst_call, SysProps.step_configured. exact H. }
      exact (CF _ _ _ A eq_refl).
    + intros g G i F1 F2. destruct (String.eqb_spec g "*") as [->|Hg]; [right; reflexivity|left]. unfold group_meant.
      destruct (existsb (String.eqb g) (map e_name (all_entries None gs))) eqn:Ex.
      * apply EX in Ex. destruct (IN g Ex) as (i' & G' & I1 & I2 & I3). congruence.
      * rewrite OUT in F1; [discriminate|exact Hg|]. intros H. apply EX in H. congruence.
    + intros g Hg F. unfold group_meant. destruct (existsb (String.eqb g) (map e_name (all_entries None gs))) eqn:Ex; [|reflexivity].
      apply EX in Ex. destruct (IN g Ex) as (i' & G' & I1 & _). congruence.
    + unfold group_meant. destruct (existsb (String.eqb "*") (map e_name (all_entries None gs))) eqn:Ex; [|reflexivity]. apply EX in Ex.
      destruct FB as (i & G & F1 & F2 & F3); [intros Q; rewrite Q in Ex; destruct Ex|]. destruct (IN "*"%string Ex) as (i' & G' & I1 & I2 & I3). congruence.
    + intros g i Hg F. destruct (existsb (String.eqb g) (map e_name (all_entries None gs))) eqn:Ex.
      * apply EX in Ex. destruct (IN g Ex) as (i' & G' & I1 & I2 & I3). exists G'. split; congruence.
      * rewrite OUT in F; [discriminate|exact Hg|]. intros H. apply EX in H. congruence.
    + intros g Hg. unfold in_document. destruct (existsb (String.eqb g) (map e_name (all_entries None gs))) eqn:Ex.
      * apply EX in Ex. destruct (IN g Ex) as (i' & G' & I1 & _). now rewrite I1.
      * rewrite OUT; [reflexivity|exact Hg|]. intros H. apply EX in H. congruence.
Qed.

Lemma construct_group x j G : l_group (l_construct x j G) = j.
Proof. unfold l_construct, l_level_from, l_sink_from. destruct (g_sink G); reflexivity. Qed.
Lemma construct_name x j G : l_name (l_construct x j G) = x.
Proof. unfold l_construct, l_level_from, l_sink_from. destruct (g_sink G); reflexivity. Qed.
Lemma construct_alive x j G : l_alive (l_construct x j G) = true.
Proof. unfold l_construct, l_level_from, l_sink_from. destruct (g_sink G); reflexivity. Qed.
Lemma construct_sink x j G : l_sink (l_construct x j G) = g_sink G.
Proof. unfold l_construct, l_level_from, l_sink_from. destruct (g_sink G) eqn:Q; cbn [l_sink]; auto. Qed.

Section Asking.
Variable w' : world.
Variable ms : list dmove.
Variable s : dstate.
Variable tr : list dlabel.
Variable x g : string.
Hypothesis EY : fst (yaml L ord fuel dbg None src (before_configure busy)) = w'.
Hypothesis HP : Forall plain ms.
Hypothesis HR : reached_by (w_sys w') ms s tr.
Hypothesis NE : all_entries None gs <> [].
Hypothesis HS : g = "*"%string -> dbg = false.
Hypothesis HL : forall i, ~ live_named (d_sys s) x i.
Let i := List.length (loggers (d_sys s)).
Let made j G := with_loggers (d_sys s) (loggers (d_sys s) ++ [l_construct x j G])%list (assign (lmap (d_sys s)) x i).

Lemma made_live j G : live_named (made j G) x i.
Proof.
  split.
  - apply SysBase.find_In. unfold made. cbn [with_loggers lmap]. rewrite SysBase.find_assign, String.eqb_refl. reflexivity.
  - exists (l_construct x j G). unfold made. cbn [with_loggers loggers]. split; [|apply construct_alive].
    rewrite nth_error_app2 by (apply Nat.le_refl). unfold i. rewrite Nat.sub_diag. reflexivity.
Qed.

Lemma ask_main : NoDup (map fst (gmap (d_sys s))) /\ exists j G, nth_error (groups (d_sys s)) j = Some G /\ group_meant gs g = Some (g_name G) /\
  step ord (enough (d_sys s)) dbg (d_sys s) (GetLogger x g None None) = (made j G, RLogger i) /\
  (g <> "*"%string /\ in_document gs g = true /\ warning dbg (d_sys s) x g = None \/
   (g = "*"%string \/ in_document gs g = false) /\ g_sink G <> None /\
   warning dbg (d_sys s) x g = Some (l_construct "Soralog" j G, G, complaint x g (g_name G))).
Proof.
  destruct (doc_names w' EY) as (U & CF & N1 & N2 & N3 & N4 & N5 & N6).
  assert (GSK : forall G, In G (groups (w_sys w')) -> g_sink G <> None).
  { destruct (doc_system ds ord dbg L fuel UL RH busy src doc w1 gs D DR ND HD) as (w2 & Y & _ & H). rewrite Y in EY. cbn [fst] in EY. subst w2.
    intros G HG. destruct (H G HG) as (lv & nm & _ & _ & ->). discriminate. }
  pose proof (kept_run ms (dstart lt memory address fg_first ds op n (w_sys w')) HP U) as K. unfold DeployProofs.reached_by in HR. rewrite HR in K. cbn [fst d_sys DeployModel.dstart] in K.
  destruct K as [K1 K2 K3 K4 _]. split; [exact K3|].
  assert (LN : live (d_sys s) x = None).
  { destruct (live (d_sys s) x) as [j|] eqn:Q; [|reflexivity]. exfalso. apply (HL j). destruct (SysSteps.live_some _ _ _ Q) as (Lx & F & E & A). split; [apply SysBase.find_In; exact F|eauto]. }
  assert (ST : exists j G, find (gmap (d_sys s)) "*" = Some j /\ nth_error (groups (w_sys w')) j = Some G /\ fallback_of gs = Some (g_name G) /\ can_warn G = true /\ g_sink G <> None).
  { destruct (N3 NE) as (j & G & F1 & F2 & F3). exists j, G. rewrite K4. repeat split; auto; [|exact (GSK G (nth_error_In _ _ F2))]. unfold can_warn.
    destruct (g_sink G) eqn:Q; [reflexivity|]. exfalso. exact (GSK G (nth_error_In _ _ F2) Q). }
  destruct ST as (j0 & G0 & S1 & S2 & S3 & S4 & S5).
  assert (BF : forall text, by_fallback (d_sys s) text = Some (l_construct "Soralog" j0 G0, G0, text G0)).
  { intros text. unfold by_fallback. rewrite S1, K1, S2. destruct (g_sink G0); [reflexivity|congruence]. }
  assert (MT : missing_text x g G0 = String.concat "" ["Group '"; g; "' for logger '"; x; "' is not found. Fallback group will be used (it is group '"; g_name G0; "' right now)."]%string) by reflexivity.
  cbn [step]. unfold get_logger, warning, complaint. rewrite K2, CF. cbn [negb]. rewrite LN, !BF, K1.
  destruct (String.eqb_spec g "*") as [Hg|Hg].
  - rewrite (HS Hg), S1, S2, S4. cbn [negb andb]. exists j0, G0. split; [exact S2|]. split; [rewrite Hg, N4; exact S3|]. split; [reflexivity|]. right. auto.
  - pose proof (N6 g Hg) as N6'. rewrite <- K4 in N6'. destruct (find (gmap (d_sys s)) g) as [j|] eqn:F.
    + rewrite K4 in F.
      assert (HG : exists G, nth_error (groups (w_sys w')) j = Some G) by (destruct (N5 g j Hg F) as (G & E & _); eauto).
      destruct HG as [G E]. rewrite E. cbn [negb andb]. exists j, G. split; [exact E|]. split; [|split; [reflexivity|left; auto]].
      destruct (N1 g G j F E) as [Q|Q]; [exact Q|contradiction].
    + rewrite S1, S2, S4. cbn [negb andb]. exists j0, G0. split; [exact S2|]. split; [rewrite K4 in F; rewrite (N2 g Hg F); exact S3|].
      split; [reflexivity|]. right. rewrite <- MT. auto.
Qed.

Theorem asked : snd (step ord (enough (d_sys s)) dbg (d_sys s) (GetLogger x g None None)) = RLogger i /\
  forall t0 e0 m, asks x g t0 e0 m -> live_named (d_sys (fst (dstep s m))) x i ->
  forall ms2 s2 tr2, Forall plain ms2 -> dexec s (m :: ms2) = (s2, tr2) ->
  forall t e u g' Lg e', In (DSaid u g' Lg e') (snd (dstep s2 (DLog t i e))) ->
    u = t /\ e' = e /\ l_name Lg = x /\ group_meant gs g = Some g'.
Proof.
  destruct ask_main as (K3 & j & G & E1 & E2 & E3 & _). split; [rewrite E3; reflexivity|].
  intros t0 e0 m A LV ms2 s2 tr2 P2 X t e u g' Lg e' HI. cbn [DeployModel.dexec] in X.
  assert (X1 : d_sys (fst (dstep s m)) = made j G).
  { destruct (sys_step s m) as [Q|(c & C & Q)]; [exfalso; apply (HL i); rewrite <- Q; exact LV|]. rewrite Q.
    destruct A as [-> | ->]; cbn [calls] in C; subst c; rewrite E3; reflexivity. }
  destruct (dstep s m) as [s1 l1]. cbn [fst] in X1.
  pose proof (kept_run ms2 s1 P2) as KR. destruct (dexec s1 ms2) as [s3 l3] eqn:X2. inversion X; subst s3 tr2; clear X X2.
  cbn [fst] in KR. rewrite X1 in KR. destruct (KR K3) as [Q1 _ _ _ Q5]. unfold made in Q1, Q5. cbn [with_loggers loggers groups] in Q1, Q5.
  destruct (Q5 i (l_construct x j G)) as (L' & R1 & R2 & R3). { rewrite nth_error_app2 by (apply Nat.le_refl). unfold i. rewrite Nat.sub_diag. reflexivity. }
  cbn [DeployModel.dstep] in HI. rewrite R1, Q1, R3, construct_group, E1 in HI.
  destruct (l_sink L') as [k|]; [|destruct HI]. destruct (d_up s2 && l_alive L'); [|destruct HI]. rewrite in_pool_eq in HI.
  apply in_app_or in HI. destruct HI as [HI|HI]; [|apply in_map_iff in HI; destruct HI as (? & HI & _); discriminate HI].
  destruct (snd _) in HI; [destruct HI|]. destruct HI as [HI|[]]. inversion HI; subst. split; [reflexivity|]. split; [reflexivity|]. split; [|exact E2].
  rewrite R2. apply construct_name.
Qed.

(** A thread between two calls can ask, and is warned if another group than the one asked for takes its place. *)
Theorem asking t e : d_up s = true -> (forall d, In d ds -> d_kind d <> KMulti []) -> 1 <= t <= n -> PoolSpec.resting count (d_pool s) t ->
  exists m, asks x g t e m /\ live_named (d_sys (fst (dstep s m))) x i /\
    if String.eqb g "*" || negb (in_document gs g)
    then exists g' Lw e', said_by t (snd (dstep s m)) = [(g', Lw, e')] /\ l_name Lw = "Soralog"%string /\ x_level e' = WARN /\
           x_result e' = EventModel.FmtOk (bs (complaint x g g')) /\ group_meant gs g = Some g'
    else snd (dstep s m) = [].
Proof.
  intros UP HM Ht RE. destruct ask_main as (K3 & j & G & E1 & E2 & E3 & [(W1 & W2 & W3)|(W1 & W2 & W3)]).
  - exists (DSys (GetLogger x g None None)). split; [now left|]. apply String.eqb_neq in W1. rewrite W1, W2. cbn [orb negb DeployModel.dstep silent].
    rewrite UP, W3. cbn [andb fst snd d_sys]. rewrite E3. split; [apply made_live|reflexivity].
  - exists (DGet t x g None None e). split; [now right|].
    destruct (g_sink G) as [k|] eqn:EK; [|congruence].
    destruct (DeployProofs.warning_begins lt memory address fg_first ds op n ord dbg (w_sys w') ms s tr t x g None None e
               (l_construct "Soralog" j G) G (complaint x g (g_name G)) k HR UP HM Ht RE W3) as [B1 B2]; [now rewrite construct_sink|].
    rewrite B1, B2, E3. split; [apply made_live|].
    replace (String.eqb g "*" || negb (in_document gs g)) with true
      by (destruct W1 as [-> | ->]; [rewrite String.eqb_refl; reflexivity|now destruct (String.eqb g "*")]).
    exists (g_name G), (l_construct "Soralog" j G), (warned e (complaint x g (g_name G))). rewrite construct_name. auto.
Qed.

(** Whoever says something while asking is the one who is warned. *)
Theorem asking_says t e m u g' Lw e' : asks x g t e m -> In (DSaid u g' Lw e') (snd (dstep s m)) ->
  u = t /\ l_name Lw = "Soralog"%string /\ x_level e' = WARN /\ x_result e' = EventModel.FmtOk (bs (complaint x g g')) /\
  group_meant gs g = Some g' /\ (g = "*"%string \/ in_document gs g = false).
Proof.
  destruct ask_main as (K3 & j & G & E1 & E2 & E3 & H). intros [-> | ->]; cbn [DeployModel.dstep].
  - destruct (_ && _); intros [].
  - destruct H as [(W1 & W2 & W3)|(W1 & W2 & W3)]; rewrite W3; [intros []|]. rewrite construct_sink. destruct (g_sink G); [|intros []].
    destruct (d_up s); [|intros []]. rewrite in_pool_eq.
    match goal with |- context [match snd ?z with _ => _ end] => destruct (snd z) end; [intros []|].
    intros [HI|HI]; [|apply in_map_iff in HI; destruct HI as (? & HI & _); discriminate HI]. inversion HI; subst. rewrite construct_name. auto 8.
Qed.
End Asking.

Theorem doc_configured : SysProps.rearranges ord -> all_entries None gs <> [] -> enough init + 8 * total_size [src] <= fuel ->
  let w' := fst (yaml L ord fuel dbg None src (before_configure busy)) in
  exists out, configure ord fuel dbg init (script_of (yaml L ord fuel dbg None src) busy init) = (w_sys w', (Some out, RUnit)) /\
    has_error out = false /\ message out = map nowhere_warning (filter (sends_nowhere (w_sys w')) (gmap (w_sys w'))).
Proof.
  intros HO NE HF w'. pose proof (read_unnested _ _ _ _ _ _ D DR ND) as NN. destruct (doc_system ds ord dbg L fuel UL RH busy src doc w1 gs D DR ND HD) as (w2 & Y & _).
  pose proof (YamlConf.configure_layered L ord fuel dbg HO init [src] (yaml L ord fuel dbg None src) busy (reach_init _ _ _)) as H.
  assert (T : tidy init) by (split; [intros a b i _ _; discriminate|intros i; discriminate]).
  specialize (H T eq_refl eq_refl (Forall_cons _ NN (Forall_nil _)) HF). change (mkWorld (with_configured init) busy []) with (before_configure busy) in H.
  unfold w'. rewrite Y in H |- *. cbn [fst]. destruct H as (_ & _ & out & E & C). exists out. split; [exact E|]. unfold completed in C.
  destruct (doc_names w2) as (_ & _ & _ & _ & N3 & _); [now rewrite Y|]. destruct (N3 NE) as (i & G & F & _).
  destruct (gmap (w_sys w2)) as [|p l] eqn:EG; [discriminate F|]. rewrite C. split; reflexivity.
Qed.
End Doc.
End Run.
