(** * Whole documents *)
From Coq Require Import String List Arith ZArith NArith Bool Lia.
From Verif Require Import Base LevelModel EventModel SysModel YamlModel YamlSpec YamlFacts YamlRead YamlSinks YamlGroups.
Import ListNotations.
Local Open Scope string_scope.
Local Open Scope list_scope.

Lemma covers_dom w : covers (map fst (gmap (w_sys w))) w.
Proof.
  intros n _. induction (gmap (w_sys w)) as [|[k v] m IH]; cbn.
  - split; [discriminate|congruence].
  - rewrite String.eqb_sym. destruct (String.eqb_spec k n); cbn; [|exact IH]. split; auto. discriminate.
Qed.

Section Doc.
Variable L : lib.
Hypothesis UL : usual_lib L.
Hypothesis RH : refuses_huge_buffers L.
Variable ord : list nat -> list nat.
Variable fuel : nat.
Variable dbg : bool.

Lemma silent_star w l w' : sinks_read_silent L w l w' -> known w "*" -> known w' "*".
Proof.
  induction 1; auto. intros H3. apply IHsinks_read_silent. unfold known, world_with_sink, add_sink. cbn.
  rewrite find_assign. destruct (String.eqb_spec (d_name d) "*"); [discriminate|exact H3].
Qed.
Lemma read_silent w l w' : sinks_read L w l w' -> sinks_read_silent L w l w'.
Proof. induction 1; [apply ss_nil|eapply ss_cons; eauto]. Qed.

Lemma doc_complete silently n w w1 ds ls : known w "*" -> doc_read L silently w n w1 ds ->
  exists new, parse L ord fuel dbg n (mkApp w ls false false) =
    (mkApp (fst (calls_run ord fuel dbg (doc_calls w1 ds) w1)) (ls ++ new) false false,
     snd (calls_run ord fuel dbg (doc_calls w1 ds) w1)) /\ (silently = false -> new = []).
Proof.
  intros KS (HK & HS & g & Hg & HG). unfold parse. pose proof HK as (l & -> & _). rewrite Hg.
  set (a := mkApp w ls false false).
  unfold bind at 1. cbn [pure].
  unfold bind at 1. rewrite (proj1 (reader_keys L UL ["sinks"; "groups"] _ l ltac:(cbn; intuition discriminate)) tt a HK).
  assert (S : exists new, (match get (NMap l) "sinks" with Some s => parse_sinks L ord fuel dbg s | None => pure tt end) a
                = (mkApp w1 (ls ++ new) false false, Val tt) /\ (silently = false -> new = []) /\ known w1 "*").
  { destruct HS as [[-> ->]|(s & -> & HS)].
    - exists []. rewrite app_nil_r. auto.
    - cbn [parse_sinks]. destruct silently.
      + destruct (sink_list_complete_silent L UL ord fuel dbg RH s 0 w1 a HS) as (new & E).
        exists new. cbn [a_lines a a_err a_warn] in E. rewrite E. split; auto. split; [discriminate|].
        eapply silent_star; [exact HS|exact KS].
      + exists []. rewrite (sink_list_complete L UL ord fuel dbg RH s 0 w1 a HS). rewrite app_nil_r. split; auto. split; auto.
        eapply silent_star; [apply read_silent; exact HS|exact KS]. }
  destruct S as (new & S & Hnew & KS1). unfold bind at 1. rewrite S.
  exists new. split; auto. cbn [parse_groups].
  rewrite (group_list_complete L UL ord fuel dbg (fun t => find (smap (w_sys w1)) t <> None) KS1 (depth (NSeq g)) None ds g 0
            (map fst (gmap (w_sys w1))) (mkApp w1 (ls ++ new) false false)); auto.
  - eapply Forall_impl; [|apply (depth_items g (depth (NSeq g))); lia]. auto.
  - cbn [a_world]. apply covers_dom.
  - intros t. reflexivity.
Qed.

Lemma doc_sound n w a' ls : known w "*" ->
  parse L ord fuel dbg n (mkApp w ls false false) = (a', Val tt) -> clean a' ->
  exists w1 ds, doc_read L true w n w1 ds /\ calls_run ord fuel dbg (doc_calls w1 ds) w1 = (a_world a', Val tt).
Proof.
  intros KS H C. unfold parse in H. destruct n as [|t|x|l].
  1-3: (exfalso; inversion H; subst; destruct C as [C _]; discriminate).
  set (a := mkApp w ls false false) in *.
  unfold bind at 1 in H. destruct (get (NMap l) "groups") as [g|] eqn:Hg.
  2: { exfalso. cbn [error say] in H.
       pose proof (grows_clean _ _ ((ltac:(mono) : mono (check_keys L ["sinks"; "groups"] (fun k => "W: Unknown property: " +++ k) (NMap l) ;;;
         match get (NMap l) "sinks" with Some s => parse_sinks L ord fuel dbg s | None => pure tt end ;;; pure tt)) _ _ _ H) C) as [Q _].
       discriminate. }
  cbn [pure] in H. unfold bind at 1 in H.
  destruct (check_keys _ _ _ _ a) as [a1 [[]|?|]] eqn:E1; try discriminate.
  unfold bind at 1 in H.
  match type of H with (let (_, _) := ?m a1 in _) = _ => destruct (m a1) as [a2 [[]|?|]] eqn:E2 end; try discriminate.
  assert (C2 : clean a2).
  { eapply grows_clean; [|exact C]. eapply mono_parse_groups; exact H. }
  assert (C1 : clean a1).
  { eapply grows_clean; [|exact C2]. destruct (get (NMap l) "sinks"); [eapply mono_parse_sinks; exact E2|].
    inversion E2; subst. apply grows_refl. }
  destruct (proj2 (reader_keys L UL ["sinks"; "groups"] _ l ltac:(cbn; intuition discriminate)) _ _ _ E1 C1) as [-> HK].
  assert (S : (get (NMap l) "sinks" = None /\ a_world a2 = w \/
     exists x, get (NMap l) "sinks" = Some (NSeq x) /\ sinks_read_silent L w x (a_world a2)) /\ known (a_world a2) "*").
  { destruct (get (NMap l) "sinks") as [s|].
    - destruct s as [|t|x|x]; cbn [parse_sinks] in E2;
        try (exfalso; inversion E2; subst; destruct C2 as [C2 _]; discriminate).
      pose proof (sink_list_sound L UL ord fuel dbg RH x 0 a a2 E2 C2) as R. split; [right; eauto|].
      eapply silent_star; [exact R|exact KS].
    - inversion E2; subst. split; [left; auto|exact KS]. }
  destruct S as [S KS1].
  destruct g as [|t|g|x]; cbn [parse_groups] in H; try (exfalso; inversion H; subst; destruct C as [C _]; cbn in C;
    rewrite orb_true_r in C; discriminate).
  destruct (group_list_sound L UL ord fuel dbg (fun t => find (smap (w_sys (a_world a2))) t <> None) (depth (NSeq g)) None g 0
     (map fst (gmap (w_sys (a_world a2)))) a2 a' H C (covers_dom _) (fun t => iff_refl _)) as (ds & HD & HR & _).
  exists (a_world a2), ds. split; [|exact HR]. split; [exact HK|]. split; [exact S|]. eauto.
Qed.

Definition no_problem : result := mkResult false false [].

(** A configurator with a document from text or file alone: no complaint, exactly if the
    document is well formed (up to the silent elements) and its calls return. *)
Theorem clean_iff n src w w' : known w "*" ->
  src = FromContent (inl n) \/ (exists p, src = FromFile p (inl n)) ->
  (exists r, yaml L ord fuel dbg None src w = (w', Val r) /\ has_error r = false /\ has_warning r = false) <->
  (exists w1 ds, doc_read L true w n w1 ds /\ calls_run ord fuel dbg (doc_calls w1 ds) w1 = (w', Val tt)).
Proof.
  intros KS Hs.
  assert (E : yaml L ord fuel dbg None src w =
    let '(a, r) := parse L ord fuel dbg n (mkApp w [] false false) in
      (a_world a,
       match r with
       | Exn what => Exn what
       | Stuck => Stuck
       | Val _ => Val (mkResult (a_err a) (a_warn a)
                         (if a_err a || a_warn a then "I: Some problems are found in config:" :: a_lines a else []))
       end)).
  { destruct Hs as [->|([p|p] & ->)]; reflexivity. }
  rewrite E. clear E src Hs. split.
  - destruct (parse L ord fuel dbg n (mkApp w [] false false)) as [a [[]|?|]] eqn:P; intros (r & H & HE & HW); inversion H; subst.
    cbn in HE, HW. exact (doc_sound n w a [] KS P (conj HE HW)).
  - intros (w1 & ds & HD & HR). destruct (doc_complete true n w w1 ds [] KS HD) as (new & -> & _). rewrite HR. cbn.
    exists no_problem. auto.
Qed.

(** A well-formed document does what it says. *)
Theorem applied_literally n src w w1 ds : known w "*" ->
  src = FromContent (inl n) \/ (exists p, src = FromFile p (inl n)) ->
  doc_read L false w n w1 ds ->
  yaml L ord fuel dbg None src w =
    (fst (calls_run ord fuel dbg (doc_calls w1 ds) w1),
     match snd (calls_run ord fuel dbg (doc_calls w1 ds) w1) with
     | Val _ => Val no_problem | Exn e => Exn e | Stuck => Stuck end).
Proof.
  intros KS Hs HD. destruct (doc_complete false n w w1 ds [] KS HD) as (new & E & N). rewrite (N eq_refl) in E.
  destruct Hs as [->|([p|p] & ->)]; unfold yaml; cbn [load]; unfold bind at 1; cbn [pure]; rewrite E;
    destruct (calls_run ord fuel dbg (doc_calls w1 ds) w1) as [w2 [[]|e|]]; reflexivity.
Qed.

End Doc.
