(** * The group tree of a document becomes the group tree of the system *)
From Coq Require Import String List Arith ZArith NArith Bool Lia.
From Verif Require Import Base LevelModel EventModel SysModel YamlModel YamlSpec YamlFacts YamlRead YamlSinks YamlGroups YamlDoc.
Import ListNotations.
Local Open Scope string_scope.
Local Open Scope list_scope.

Definition wf_gmap (s : sys) : Prop := forall n i, find (gmap s) n = Some i -> i < length (groups s).

Section Tree.
Variable L : lib.
Variable ord : list nat -> list nat.
Variable fuel : nat.
Variable dbg : bool.

Definition can_make (P : string -> Prop) (K : string -> Prop) (e : entry) : Prop :=
  e_name e <> "*" /\
  match e_parent e with None => e_level e <> None | Some p => P p /\ p <> "*" end /\
  match entry_sink e with Some k => K k | None => True end.
Fixpoint all_make (P : string -> Prop) (K : string -> Prop) (es : list entry) : Prop :=
  match es with
  | [] => True
  | e :: es' => can_make P K e /\ all_make (fun n => P n \/ n = e_name e) K es'
  end.

Lemma all_make_weaken K es : forall P Q : string -> Prop, (forall n, P n -> Q n) -> all_make P K es -> all_make Q K es.
Proof.
  induction es as [|e es IH]; intros P Q H A; cbn in *; auto.
  destruct A as [(A1 & A2 & A3) B]. split.
  - split; auto. split; auto. destruct (e_parent e); intuition.
  - eapply IH; [|exact B]. cbn. intuition.
Qed.
Lemma all_make_app K es1 : forall (P : string -> Prop) es2, all_make P K es1 ->
  (forall Q : string -> Prop, (forall n, P n -> Q n) -> all_make Q K es2) -> all_make P K (es1 ++ es2).
Proof.
  induction es1 as [|e es1 IH]; intros P es2 A B; cbn in *.
  - apply B. auto.
  - destruct A as [A1 A2]. split; auto.
Qed.

Lemma entry_make K P e n w : header L w n e -> (forall t, K t <-> known w t) -> K "*" ->
  (forall p, e_parent e = Some p -> P p /\ p <> "*") -> can_make P K e.
Proof.
  intros (H1 & H2 & H3 & H4 & H5 & H6 & _) HK KS HP. split; auto. split.
  - destruct (e_parent e); auto.
  - unfold entry_sink. rewrite setting_cases in H4. destruct H4 as [[_ ->]|(t & _ & -> & Q)].
    + destruct (e_parent e); auto.
    + now apply HK.
Qed.

Lemma entries_make w K : (forall t, K t <-> known w t) -> K "*" ->
  forall d parent n P, group_read L K (match parent with None => true | Some _ => false end) d n ->
    (forall p, parent = Some p -> P p /\ p <> "*") -> all_make P K (entries parent d).
Proof.
  intros HK KS. fix IH 1. intros d. destruct d as [nm fb sk lv ch]. intros parent n P G HP.
  assert (HH : header L w n (mkEntry parent nm fb sk lv)).
  { apply (group_read_header L K w parent _ n HK) in G as (e & ch' & E & Hp & HH & _).
    destruct e; cbn in *. inversion E; subst. exact HH. }
  rewrite entries_eq. cbn [all_make]. split.
  - eapply entry_make; eauto.
  - destruct G as (_ & NS & _ & _ & _ & _ & _ & l & _ & HC). cbn [e_name].
    assert (Q : forall P : string -> Prop, P nm -> all_make P K (all_entries (Some nm) ch)).
    { revert l HC. induction ch as [|c ch IHc]; intros [|x l] HC Q HQ; try contradiction; [exact I|].
      destruct HC as [HC1 HC2]. unfold all_entries. cbn [flat_map]. apply all_make_app.
      - eapply (IH c (Some nm)); [exact HC1|]. intros p Hq. inversion Hq; subst. auto.
      - intros R HR. eapply IHc; [exact HC2|apply HR, HQ]. }
    apply Q. auto.
Qed.
Lemma all_entries_make w K : (forall t, K t <-> known w t) -> K "*" ->
  forall ds l P, groups_read L K true ds l -> all_make P K (all_entries None ds).
Proof.
  intros HK KS. induction ds as [|d ds IH]; intros [|n l] P G; try contradiction; [exact I|].
  destruct G as [G1 G2]. unfold all_entries. cbn [flat_map]. apply all_make_app.
  - eapply (entries_make w K HK KS d None); [exact G1|discriminate].
  - intros Q _. eapply IH. exact G2.
Qed.

(** One new group. *)
Lemma make_entry w e : wf_gmap (w_sys w) ->
  can_make (fun p => find (gmap (w_sys w)) p <> None) (known w) e ->
  find (gmap (w_sys w)) (e_name e) = None ->
  exists w' x, calls_run ord fuel dbg (entry_calls true e) w = (w', Val tt) /\
    groups (w_sys w') = groups (w_sys w) ++ [x] /\ smap (w_sys w') = smap (w_sys w) /\
    loggers (w_sys w') = loggers (w_sys w) /\ sinks (w_sys w') = sinks (w_sys w) /\ lmap (w_sys w') = lmap (w_sys w) /\
    find (gmap (w_sys w')) (e_name e) = Some (length (groups (w_sys w))) /\
    find (gmap (w_sys w')) "*" = (if e_fallback e then Some (length (groups (w_sys w)))
                                  else match find (gmap (w_sys w)) "*" with
                                       | Some i => Some i | None => Some (length (groups (w_sys w))) end) /\
    (forall m, m <> "*" -> m <> e_name e -> find (gmap (w_sys w')) m = find (gmap (w_sys w)) m) /\
    entry_holds (w_sys w') e /\ wf_gmap (w_sys w').
Proof.
  intros WF (NS & HP & HK) NEW. destruct w as [s busy log]. cbn [w_sys] in *. unfold known in HK. cbn [w_sys] in HK.
  unfold entry_calls. cbn [Datatypes.app].
  (* the object *)
  assert (OBJ : exists x, construct s (e_name e) (e_parent e) (entry_sink e) (e_level e) =
      Some (with_groups s (groups s ++ [x]), length (groups s)) /\ g_name x = e_name e /\
      match e_parent e with
      | None => g_parent x = None /\ g_sink x = find (smap s) (match e_sink e with Some k => k | None => "*" end) /\
                Some (g_level x) = e_level e
      | Some p => exists j y, find (gmap s) p = Some j /\ nth_error (groups s) j = Some y /\ g_parent x = Some j /\
        g_sink x = match e_sink e with Some k => find (smap s) k | None => g_sink y end /\
        g_sov x = match e_sink e with Some _ => true | None => false end /\
        g_level x = match e_level e with Some l => l | None => g_level y end /\
        g_lov x = match e_level e with Some _ => true | None => false end
      end).
  { unfold construct, g_construct. destruct e as [parent name fb sk lv]; cbn in *. destruct parent as [p|].
    - destruct (find (gmap s) p) as [j|] eqn:Ej; [|tauto].
      destruct (nth_error (groups s) j) as [y|] eqn:Ey.
      2: { apply WF in Ej. apply nth_error_None in Ey. lia. }
      destruct sk as [k|]; cbn in HK |- *.
      + destruct (find (smap s) k) as [ki|]; [|congruence]. cbn [oeqb Nat.eqb negb]. rewrite ?Nat.eqb_refl.
        destruct lv; eexists; (split; [reflexivity|]); cbn; (split; [reflexivity|]); exists j, y; repeat split; auto;
          rewrite ?Nat.eqb_refl; reflexivity.
      + destruct lv; eexists; (split; [reflexivity|]); cbn; (split; [reflexivity|]); exists j, y; repeat split; auto;
          rewrite ?Nat.eqb_refl; reflexivity.
    - destruct lv as [l|]; [|congruence].
      destruct sk as [k|]; cbn in HK |- *.
      + destruct (find (smap s) k) as [ki|]; [|congruence]. eexists; (split; [reflexivity|]); cbn; auto.
      + destruct (find (smap s) "*") as [ki|]; [|congruence]. eexists; (split; [reflexivity|]); cbn; auto. }
  destruct OBJ as (x & OC & XN & XP).
  set (i := length (groups s)) in *.
  set (m := match find (gmap s) "*" with None => assign (gmap s) "*" i | Some _ => gmap s end).
  set (s1 := mkSys (groups s ++ [x]) (loggers s) (sinks s) (assign m (e_name e) i) (lmap s) (smap s) (configured s)).
  set (w1 := mkWorld s1 busy (log ++ [ACall (MakeGroup (e_name e) (e_parent e) (entry_sink e) (e_level e))])).
  assert (R1 : world_call ord fuel dbg (MakeGroup (e_name e) (e_parent e) (entry_sink e) (e_level e)) (mkWorld s busy log) = (w1, Val tt)).
  { unfold world_call. cbn [w_sys step]. rewrite OC. reflexivity. }
  assert (Fm : forall n, n <> "*" -> find m n = find (gmap s) n).
  { intros n Hn. unfold m. destruct (find (gmap s) "*"); auto. rewrite find_assign. destruct (String.eqb_spec "*" n); congruence. }
  assert (Fs : find m "*" = match find (gmap s) "*" with Some i => Some i | None => Some i end).
  { unfold m. destruct (find (gmap s) "*") eqn:E; auto. now rewrite find_assign, String.eqb_refl. }
  assert (F1 : find (assign m (e_name e) i) (e_name e) = Some i) by now rewrite find_assign, String.eqb_refl.
  assert (F2 : forall n, n <> e_name e -> find (assign m (e_name e) i) n = find m n).
  { intros n Hn. rewrite find_assign. destruct (String.eqb_spec (e_name e) n); congruence. }
  (* the map afterwards *)
  set (gm := if e_fallback e then assign (assign m (e_name e) i) "*" i else assign m (e_name e) i).
  set (s2 := mkSys (groups s ++ [x]) (loggers s) (sinks s) gm (lmap s) (smap s) (configured s)).
  set (w2 := mkWorld s2 busy (w_log w1 ++ if e_fallback e then [ACall (SetFallbackGroup (e_name e))] else [])).
  assert (G1 : find gm (e_name e) = Some i).
  { unfold gm. destruct (e_fallback e); auto. rewrite find_assign. destruct (String.eqb_spec "*" (e_name e)); congruence. }
  assert (G2 : forall n, n <> "*" -> n <> e_name e -> find gm n = find (gmap s) n).
  { intros n N1 N2. unfold gm. rewrite <- (Fm n N1), <- (F2 n N2). destruct (e_fallback e); auto.
    rewrite find_assign. destruct (String.eqb_spec "*" n); congruence. }
  assert (G3 : find gm "*" = (if e_fallback e then Some i else match find (gmap s) "*" with Some i => Some i | None => Some i end)).
  { unfold gm. destruct (e_fallback e); [now rewrite find_assign, String.eqb_refl|]. rewrite F2 by congruence. exact Fs. }
  exists w2, x. repeat match goal with |- _ /\ _ => split end; auto.
  - cbn [calls_run Datatypes.app]. rewrite R1. unfold w2, s2, gm. destruct (e_fallback e); cbn [calls_run].
    + unfold world_call, w1, s1. cbn [w_sys step gmap]. rewrite F1. reflexivity.
    + rewrite app_nil_r. reflexivity.
  - exists i, x. cbn [gmap groups smap s2 w2 w_sys].
    assert (nth_error (groups s ++ [x]) i = Some x) as NX.
    { rewrite nth_error_app2 by (unfold i; lia). unfold i. now rewrite Nat.sub_diag. }
    repeat match goal with |- _ /\ _ => split end; auto.
    destruct (e_parent e) as [p|] eqn:EP; auto.
    destruct XP as (j & y & Hj & Hy & XP). exists j, y. split; [|split; [|exact XP]].
    + rewrite G2; [exact Hj|tauto|congruence].
    + rewrite nth_error_app1; auto. apply nth_error_Some. congruence.
  - intros n k Hk. cbn [gmap groups s2 w2 w_sys] in *. rewrite app_length. cbn.
    destruct (String.eqb_spec n "*") as [->|Q].
    + rewrite G3 in Hk. destruct (e_fallback e); [inversion Hk; subst; unfold i; lia|].
      destruct (find (gmap s) "*") eqn:E; inversion Hk; subst; [apply WF in E; lia|unfold i; lia].
    + destruct (String.eqb_spec n (e_name e)) as [->|Q2].
      * rewrite G1 in Hk. inversion Hk; subst. unfold i. lia.
      * rewrite G2 in Hk; auto. apply WF in Hk. lia.
Qed.

Lemma entry_holds_ext s s' x e : groups s' = groups s ++ [x] -> smap s' = smap s ->
  find (gmap s') (e_name e) = find (gmap s) (e_name e) ->
  (forall p, e_parent e = Some p -> find (gmap s') p = find (gmap s) p) ->
  entry_holds s e -> entry_holds s' e.
Proof.
  intros G S F FP (i & y & H1 & H2 & H3 & H4). exists i, y. rewrite F, G, S. split; auto. split.
  { rewrite nth_error_app1; auto. apply nth_error_Some. congruence. }
  split; auto. destruct (e_parent e) as [p|]; auto.
  destruct H4 as (j & z & A & B & C). exists j, z. rewrite (FP p eq_refl). split; auto. split; auto.
  rewrite nth_error_app1; auto. apply nth_error_Some. congruence.
Qed.

Lemma entry_holds_parent s e p : entry_holds s e -> e_parent e = Some p -> find (gmap s) p <> None.
Proof. intros (i & y & _ & _ & _ & H) E. rewrite E in H. destruct H as (j & _ & -> & _). discriminate. Qed.

(** All of them, when none exists. *)
Lemma make_entries es : forall names w, wf_gmap (w_sys w) -> covers names w ->
  all_make (fun p => find (gmap (w_sys w)) p <> None) (known w) es ->
  NoDup (map e_name es) -> (forall e, In e es -> find (gmap (w_sys w)) (e_name e) = None) ->
  exists w' gs, calls_run ord fuel dbg (entries_calls names es) w = (w', Val tt) /\
    groups (w_sys w') = groups (w_sys w) ++ gs /\ map g_name gs = map e_name es /\
    smap (w_sys w') = smap (w_sys w) /\
    loggers (w_sys w') = loggers (w_sys w) /\ sinks (w_sys w') = sinks (w_sys w) /\ lmap (w_sys w') = lmap (w_sys w) /\
    (forall k e, nth_error es k = Some e -> find (gmap (w_sys w')) (e_name e) = Some (length (groups (w_sys w)) + k)) /\
    (forall m, m <> "*" -> ~ In m (map e_name es) -> find (gmap (w_sys w')) m = find (gmap (w_sys w)) m) /\
    find (gmap (w_sys w')) "*" = fallback_after (w_sys w) (w_sys w') es /\
    Forall (entry_holds (w_sys w')) es /\
    (forall e, entry_holds (w_sys w) e -> e_name e <> "*" -> ~ In (e_name e) (map e_name es) ->
       e_parent e <> Some "*" -> entry_holds (w_sys w') e).
Proof.
  induction es as [|e es IH]; intros names w WF CV AM ND NEW.
  - exists w, []. cbn. rewrite app_nil_r. repeat match goal with |- _ /\ _ => split end; auto.
    + intros [|k] ? H; discriminate.
    + unfold fallback_after. cbn. now destruct (find _ _).
  - destruct AM as [CM AM]. inversion ND as [|? ? ND1 ND2]; subst.
    assert (NS : e_name e <> "*") by apply CM.
    destruct (make_entry w e WF CM (NEW e (or_introl eq_refl)))
      as (w1 & x & R & G & S & HL & HS & HM & FE & FS & FO & EH & WF1).
    assert (E0 : negb (existsb (String.eqb (e_name e)) names) = true).
    { rewrite <- (is_new names w); auto. now rewrite (NEW e (or_introl eq_refl)). }
    assert (CV1 : covers (e_name e :: names) w1).
    { assert (R' := R). rewrite <- E0 in R'. now apply (entry_covers _ _ _ names e w w1 NS CV) in R'. }
    destruct (IH (e_name e :: names) w1 WF1 CV1) as
      (w' & gs & R2 & G2 & N2 & S2 & HL2 & HS2 & HM2 & FE2 & FO2 & FS2 & EH2 & K2).
    + eapply all_make_weaken; [|].
      2: { instantiate (1 := fun n => find (gmap (w_sys w)) n <> None \/ n = e_name e).
           clear - AM S. revert AM. generalize (fun n => find (gmap (w_sys w)) n <> None \/ n = e_name e).
           intros P AM. assert (K : forall k, known w k -> known w1 k) by (unfold known; rewrite S; auto).
           revert P AM. induction es as [|e' es IH]; intros P AM; cbn in *; auto.
           destruct AM as [(A1 & A2 & A3) B]. split; [|auto]. split; auto. split; auto. destruct (entry_sink e'); auto. }
      cbn. intros n [H| ->]; [|congruence].
      destruct (String.eqb_spec n "*") as [->|Q].
      * rewrite FS. destruct (e_fallback e); [discriminate|]. destruct (find (gmap (w_sys w)) "*"); [discriminate|congruence].
      * destruct (String.eqb_spec n (e_name e)) as [->|Q2]; [congruence|]. rewrite FO; auto.
    + exact ND2.
    + intros e' He'. destruct (String.eqb_spec (e_name e') "*") as [Q|Q].
      { exfalso. clear - AM He' Q. revert AM He'. generalize (fun n => find (gmap (w_sys w)) n <> None \/ n = e_name e).
        induction es as [|y es IH]; intros P AM He'; [contradiction|]. destruct AM as [A B]. destruct He' as [->|He'].
        - now destruct A.
        - eapply IH; eauto. }
      assert (e_name e' <> e_name e). { intros H. apply ND1. rewrite <- H. now apply in_map. }
      rewrite FO; auto. apply NEW. now right.
    + assert (NI : forall m, ~ In m (map e_name (e :: es)) -> m <> e_name e /\ ~ In m (map e_name es)).
      { cbn. intros m H. split; intros Q; apply H; [left; congruence|now right]. }
      assert (FE' : find (gmap (w_sys w')) (e_name e) = Some (length (groups (w_sys w)))).
      { rewrite FO2; auto. }
      exists w', (x :: gs). repeat match goal with |- _ /\ _ => split end; try congruence.
      * cbn [entries_calls]. rewrite E0, calls_run_app, R. exact R2.
      * rewrite G2, G, <- app_assoc. reflexivity.
      * cbn. rewrite N2. f_equal. destruct EH as (i & y & A & B & C & _). clear - A B C FE G.
        rewrite FE in A. inversion A; subst. rewrite G, nth_error_app2, Nat.sub_diag in B by lia. now inversion B.
      * intros [|k] e' H; cbn in H.
        -- inversion H; subst. rewrite FE'. f_equal. lia.
        -- rewrite (FE2 k e' H), G, app_length. cbn. f_equal. lia.
      * intros m H1 H2. apply NI in H2 as [H2 H3]. rewrite FO2; auto.
      * rewrite FS2. unfold fallback_after at 2. cbn [rev]. rewrite filter_app. cbn [filter].
        unfold fallback_after. destruct (filter e_fallback (rev es)) as [|z zs]; cbn [Datatypes.app]; auto.
        rewrite FS, FE'. destruct (e_fallback e); cbn; [now rewrite FE'|]. destruct (find (gmap (w_sys w)) "*"); auto.
      * constructor; auto. apply K2; auto.
        intros Q. destruct CM as (_ & CM & _). rewrite Q in CM. tauto.
      * intros e' A B C D. apply NI in C as [C1 C2]. apply K2; auto.
        eapply entry_holds_ext; [exact G|exact S| | |exact A].
        -- apply FO; auto.
        -- intros p Hp. apply FO; [congruence|]. intros ->. eapply entry_holds_parent in A; [|exact Hp].
           apply A. apply NEW. now left.
Qed.
End Tree.
