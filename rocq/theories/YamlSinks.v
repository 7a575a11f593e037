(** * The list of sinks *)
From Coq Require Import String List Arith ZArith NArith Bool Lia.
From Verif Require Import Base LevelModel EventModel SysModel YamlModel YamlSpec YamlFacts YamlRead.
Import ListNotations.
Local Open Scope string_scope.
Local Open Scope list_scope.

Definition in_world (a : app) (w : world) : app := mkApp w (a_lines a) (a_err a) (a_warn a).

(** [m] complains unless [P] holds of some sink, and then it makes this one. *)
Definition maker (m : M unit) (P : world -> sink_desc -> Prop) : Prop :=
  (forall d a, P (a_world a) d -> m a = (in_world a (world_with_sink (a_world a) d), Val tt)) /\
  (forall a a', m a = (a', Val tt) -> clean a' ->
     exists d, P (a_world a) d /\ a' = in_world a (world_with_sink (a_world a) d)).

Lemma maker_iff m (P Q : world -> sink_desc -> Prop) : maker m P -> (forall w d, P w d <-> Q w d) -> maker m Q.
Proof.
  intros [H1 H2] E. split.
  - intros d a H. apply H1, E, H.
  - intros a a' H C. destruct (H2 _ _ H C) as (d & HP & ->). exists d. split; auto. now apply E.
Qed.
Lemma maker_bind {A} (m : M A) f R (P : A -> world -> sink_desc -> Prop) :
  reader m R -> (forall x, mono (f x)) -> (forall x w, R w x -> maker (f x) (P x)) ->
  maker (bind m f) (fun w d => exists x, R w x /\ P x w d).
Proof.
  intros [M1 M2] Hf HF. split.
  - intros d a (x & HR & HP). unfold bind. rewrite (M1 _ _ HR). now apply (proj1 (HF x _ HR)).
  - intros a a' H C. unfold bind in H. destruct (m a) as [a1 [x|w|]] eqn:E; try discriminate.
    pose proof (grows_clean _ _ (Hf _ _ _ _ H) C) as C1.
    destruct (M2 _ _ _ E C1) as [-> HR].
    destruct (proj2 (HF x _ HR) _ _ H C) as (d & HP & ->). exists d. split; auto. exists x; auto.
Qed.
Lemma maker_bad {A} e w l (m : M A) (f : A -> M unit) (P : world -> sink_desc -> Prop) :
  e || w = true -> mono m -> (forall x, mono (f x)) -> (forall w d, ~ P w d) -> maker (bind (say e w l ;;; m) f) P.
Proof.
  intros F Hm Hf N. split; [intros d a H; now apply N in H|].
  intros a a' H C. exfalso. unfold bind in H.
  destruct (say e w l a) as [a0 r0] eqn:E0. inversion E0; subst.
  destruct (m _) as [a1 [x|w'|]] eqn:E; try discriminate.
  pose proof (grows_clean _ _ (Hf _ _ _ _ H) C) as C1.
  pose proof (grows_clean _ _ (Hm _ _ _ E) C1) as [C2 C3]. cbn in *.
  destruct e, w; cbn in *; try discriminate; rewrite ?orb_true_r in *; discriminate.
Qed.
Lemma maker_never e w l (P : world -> sink_desc -> Prop) : e || w = true -> (forall w d, ~ P w d) -> maker (say e w l) P.
Proof.
  intros F N. split; [intros d a H; now apply N in H|].
  intros a a' H [C1 C2]. exfalso. inversion H; subst. cbn in *.
  destruct e, w; cbn in *; try discriminate; rewrite ?orb_true_r in *; discriminate.
Qed.

Lemma maker_pure_bind {A} (x : A) f P : maker (f x) P -> maker (bind (pure x) f) P.
Proof. intros H. exact H. Qed.

Section Sinks.
Variable L : lib.
Hypothesis UL : usual_lib L.
Variable ord : list nat -> list nat.
Variable fuel : nat.
Variable dbg : bool.

Lemma maker_make d : maker (make_sink L ord fuel dbg d) (fun w d' => d' = d /\ constructible L (w_busy w) d).
Proof.
  unfold make_sink, on_world, world_sink, constructible. split.
  - intros d' a [-> [B S]]. rewrite B.
    change (match d_kind d with KSyslog _ _ _ => true | _ => false end) with (is_syslog d).
    destruct (is_syslog d && w_busy (a_world a)) eqn:E.
    { exfalso. apply S. now apply andb_prop in E. }
    reflexivity.
  - intros a a' H C. destruct (build L d) eqn:B; [inversion H|].
    change (match d_kind d with KSyslog _ _ _ => true | _ => false end) with (is_syslog d) in H.
    destruct (is_syslog d && w_busy (a_world a)) eqn:E; [inversion H|].
    cbn in H. inversion H; subst. exists d. split; auto. repeat split; auto.
    intros [H1 H2]. now rewrite H1, H2 in E.
Qed.

Definition fresh (w : world) (name : string) : Prop := find (smap (w_sys w)) name = None.

Ltac mono_auto := mono.


(** parseSinkToConsole *)
Lemma maker_console nm l :
  maker (parse_console L ord fuel dbg nm (NMap l)) (fun w d =>
    exists color str ti z lv,
      setting (NMap l) "color" (fun t b => as_bool L t = Some b) false color /\
      setting (NMap l) "stream" means_stream STDOUT str /\
      setting (NMap l) "thread" means_thread TI_NONE ti /\
      sizes_raw L true (NMap l) z /\ sink_level_read L (NMap l) lv /\
      only_keys ["name"; "type"; "stream"; "color"; "thread"; "capacity"; "buffer"; "max_message_length";
               "latency"; "level"] (NMap l) /\
      fresh w nm /\ d = mkDesc nm lv (KConsole str color ti z) /\ constructible L (w_busy w) d).
Proof.
  unfold parse_console. eapply maker_iff.
  - eapply maker_bind; [apply reader_color|mono_auto|]. intros color ? ?.
    eapply maker_bind; [apply reader_stream|mono_auto|]. intros str ? ?.
    eapply maker_bind; [apply reader_thread|mono_auto|]. intros ti ? ?.
    eapply maker_bind; [apply (reader_sizes _ UL)|mono_auto|]. intros z ? ?.
    eapply maker_bind; [apply reader_sink_level|mono_auto|]. intros lv ? ?.
    eapply maker_bind; [apply (reader_keys _ UL); cbn; intuition discriminate|mono_auto|]. intros u1 ? ?.
    eapply maker_bind; [apply reader_warn_existing|mono_auto|]. intros u2 ? ?.
    apply maker_make.
  - intros w d. cbn beta. split.
    + intros (color & H1 & str & H2 & ti & H3 & z & H4 & lv & H5 & [] & H6 & [] & H7 & -> & H8).
      exists color, str, ti, z, lv. auto 12.
    + intros (color & str & ti & z & lv & H1 & H2 & H3 & H4 & H5 & H6 & H7 & -> & H8).
      exists color. split; auto. exists str. split; auto. exists ti. split; auto. exists z. split; auto.
      exists lv. split; auto. exists tt. split; auto. exists tt. auto.
Qed.

(** parseSinkToFile, parseSinkToSyslog *)
Lemma maker_with key mk nm l : key <> "null" ->
  maker (parse_with L ord fuel dbg key mk nm (NMap l)) (fun w d =>
    exists t ti z lv,
      get (NMap l) key = Some (NScalar t) /\
      setting (NMap l) "thread" means_thread TI_NONE ti /\
      sizes_raw L false (NMap l) z /\ sink_level_read L (NMap l) lv /\
      only_keys ["name"; "type"; key; "thread"; "capacity"; "buffer"; "max_message_length"; "latency"; "level"] (NMap l) /\
      fresh w nm /\ d = mkDesc nm lv (mk t ti z) /\ constructible L (w_busy w) d).
Proof.
  intros NK. unfold parse_with, require. destruct (get (NMap l) key) as [[|t|x|x]|].
  1,3,4,5: apply maker_bad; [reflexivity|apply mono_pure|mono_auto|]; intros w d (t & ti & z & lv & H & _); discriminate.
  eapply maker_iff.
  - apply maker_pure_bind.
    eapply maker_bind; [apply reader_thread|mono_auto|]. intros ti ? ?.
    eapply maker_bind; [apply (reader_sizes _ UL)|mono_auto|]. intros z ? ?.
    eapply maker_bind; [apply reader_sink_level|mono_auto|]. intros lv ? ?.
    eapply maker_bind; [apply (reader_keys _ UL); cbn; intuition congruence|mono_auto|]. intros u1 ? ?.
    eapply maker_bind; [apply reader_warn_existing|mono_auto|]. intros u2 ? ?.
    apply maker_make.
  - intros w d. cbn beta. split.
    + intros (ti & H3 & z & H4 & lv & H5 & [] & H6 & [] & H7 & -> & H8).
      exists t, ti, z, lv. auto 12.
    + intros (t' & ti & z & lv & H1 & H3 & H4 & H5 & H6 & H7 & -> & H8). inversion H1; subst t'.
      exists ti. split; auto. exists z. split; auto.
      exists lv. split; auto. exists tt. split; auto. exists tt. auto.
Qed.

(** parseMultisink *)
Lemma maker_multi nm l :
  maker (parse_multisink L ord fuel dbg nm (NMap l)) (fun w d =>
    exists x names ks lv,
      get (NMap l) "sinks" = Some (NSeq x) /\
      Forall2 (fun x t => x = NScalar t \/ x = NNull /\ null_text L = Some t) x names /\
      Forall2 (fun t k => find (smap (w_sys w)) t = Some k) names ks /\
      sink_level_read L (NMap l) lv /\
      only_keys ["name"; "type"; "sinks"; "level"] (NMap l) /\
      d = mkDesc nm lv (KMulti ks) /\ constructible L (w_busy w) d).
Proof.
  unfold parse_multisink. destruct (get (NMap l) "sinks") as [[|t|x|x]|].
  1,2,4,5: apply maker_bad; [reflexivity|apply mono_pure|mono_auto|]; intros w d (x' & names & ks & lv & H & _); discriminate.
  eapply maker_iff.
  - apply maker_pure_bind.
    eapply maker_bind; [apply reader_sink_level|mono_auto|]. intros lv ? ?.
    eapply maker_bind; [apply (reader_keys _ UL); cbn; intuition congruence|mono_auto|]. intros u1 ? ?.
    eapply maker_bind; [apply reader_as_strings|mono_auto|]. intros names ? ?.
    eapply maker_bind; [apply reader_find_members|mono_auto|]. intros ks ? ?.
    apply maker_make.
  - intros w d. cbn beta. split.
    + intros (lv & H5 & [] & H6 & names & H1 & ks & H2 & -> & H8).
      exists x, names, ks, lv. auto 12.
    + intros (x' & names & ks & lv & H0 & H1 & H2 & H5 & H6 & -> & H8). inversion H0; subst x'.
      exists lv. split; auto. exists tt. split; auto.
      exists names. split; auto. exists ks. auto.
Qed.

(** A sink that may be made next. *)
Definition next_sink (n : node) (w : world) (d : sink_desc) : Prop :=
  sink_read L (find (smap (w_sys w))) n d /\
  (is_multi d = true \/ find (smap (w_sys w)) (d_name d) = None) /\
  constructible L (w_busy w) d.

Hypothesis RH : refuses_huge_buffers L.

Lemma small_buffer d busy b :
  constructible L busy d ->
  match d_kind d with
  | KConsole _ _ _ z | KFile _ _ z | KSyslog _ _ z => z_buffer z
  | KMulti _ => None
  end = Some b -> (b < 2 ^ 63)%N.
Proof.
  intros [B _] E. destruct (N.lt_ge_cases b (2 ^ 63)); auto.
  exfalso. exact (RH d b E H B).
Qed.

(** parseSink of a node with a name and a type *)
Lemma maker_sink l nm ty i :
  get (NMap l) "name" = Some (NScalar nm) -> has_type (NMap l) ty ->
  maker (parse_sink L ord fuel dbg i (NMap l)) (next_sink (NMap l)).
Proof.
  intros Hn Ht. unfold has_type in Ht.
  assert (E : forall a, parse_sink L ord fuel dbg i (NMap l) a =
    (if nm =? "*" then error "E: Sink name '*' is reserved; Try to use some other else"
      else if ty =? "console" then parse_console L ord fuel dbg nm (NMap l)
      else if ty =? "file" then parse_file L ord fuel dbg nm (NMap l)
      else if ty =? "syslog" then parse_syslog L ord fuel dbg nm (NMap l)
      else if ty =? "multisink" then parse_multisink L ord fuel dbg nm (NMap l)
      else error ("E: Unknown 'type' of sink node '" +++ nm +++ "': " +++ ty)) a).
  { intros a. unfold parse_sink. now rewrite Hn, Ht. }
  enough (Q : maker (if nm =? "*" then error "E: Sink name '*' is reserved; Try to use some other else"
      else if ty =? "console" then parse_console L ord fuel dbg nm (NMap l)
      else if ty =? "file" then parse_file L ord fuel dbg nm (NMap l)
      else if ty =? "syslog" then parse_syslog L ord fuel dbg nm (NMap l)
      else if ty =? "multisink" then parse_multisink L ord fuel dbg nm (NMap l)
      else error ("E: Unknown 'type' of sink node '" +++ nm +++ "': " +++ ty)) (next_sink (NMap l))).
  { destruct Q as [Q1 Q2]. split; intros *; rewrite E; eauto. }
  clear E.
  assert (TY : forall t, has_type (NMap l) t <-> t = ty).
  { unfold has_type. rewrite Ht. intros t. split; congruence. }
  unfold next_sink, sink_read.
  destruct (String.eqb_spec nm "*") as [->|N].
  { apply maker_never; auto. intros w d ((H & N & _) & _). congruence. }
  destruct (String.eqb_spec ty "console") as [->|T1].
  { eapply maker_iff; [apply maker_console|]. intros w d. split.
    - intros (color & str & ti & z & lv & H1 & H2 & H3 & H4 & H5 & H6 & H7 & -> & H8). cbn [d_name d_level d_kind].
      repeat match goal with |- _ /\ _ => split end; auto; try apply H8.
      apply kr_console; auto. apply (sizes_read_raw _ UL); auto.
      intros b Hb. eapply small_buffer; [exact H8|exact Hb].
    - destruct d as [nm' lv k]; cbn [d_name d_level d_kind]. intros ((Hn' & N' & HL & HK) & HF & HC).
      assert (nm' = nm) as -> by (rewrite Hn in Hn'; congruence).
      inversion HK; subst; try (match goal with H : has_type _ ?x |- _ => apply TY in H; discriminate end).
      exists color, str, ti, z, lv. repeat match goal with |- _ /\ _ => split end; auto; try apply HC.
      + now apply (sizes_raw_read _ UL).
      + destruct HF as [HF|HF]; [discriminate|exact HF]. }
  destruct (String.eqb_spec ty "file") as [->|T2].
  { eapply maker_iff; [apply maker_with; discriminate|]. intros w d. split.
    - intros (t & ti & z & lv & H1 & H3 & H4 & H5 & H6 & H7 & -> & H8). cbn [d_name d_level d_kind].
      repeat match goal with |- _ /\ _ => split end; auto; try apply H8.
      apply kr_file; auto. apply (sizes_read_raw _ UL); auto.
      intros b Hb. eapply small_buffer; [exact H8|exact Hb].
    - destruct d as [nm' lv k]; cbn [d_name d_level d_kind]. intros ((Hn' & N' & HL & HK) & HF & HC).
      assert (nm' = nm) as -> by (rewrite Hn in Hn'; congruence).
      inversion HK; subst; try (match goal with H : has_type _ ?x |- _ => apply TY in H; discriminate end).
      exists path, ti, z, lv. repeat match goal with |- _ /\ _ => split end; auto; try apply HC.
      + now apply (sizes_raw_read _ UL).
      + destruct HF as [HF|HF]; [discriminate|exact HF]. }
  destruct (String.eqb_spec ty "syslog") as [->|T3].
  { eapply maker_iff; [apply maker_with; discriminate|]. intros w d. split.
    - intros (t & ti & z & lv & H1 & H3 & H4 & H5 & H6 & H7 & -> & H8). cbn [d_name d_level d_kind].
      repeat match goal with |- _ /\ _ => split end; auto; try apply H8.
      apply kr_syslog; auto. apply (sizes_read_raw _ UL); auto.
      intros b Hb. eapply small_buffer; [exact H8|exact Hb].
    - destruct d as [nm' lv k]; cbn [d_name d_level d_kind]. intros ((Hn' & N' & HL & HK) & HF & HC).
      assert (nm' = nm) as -> by (rewrite Hn in Hn'; congruence).
      inversion HK; subst; try (match goal with H : has_type _ ?x |- _ => apply TY in H; discriminate end).
      exists ident, ti, z, lv. repeat match goal with |- _ /\ _ => split end; auto; try apply HC.
      + now apply (sizes_raw_read _ UL).
      + destruct HF as [HF|HF]; [discriminate|exact HF]. }
  destruct (String.eqb_spec ty "multisink") as [->|T4].
  { eapply maker_iff; [apply maker_multi|]. intros w d. split.
    - intros (x & names & ks & lv & H1 & H3 & H4 & H5 & H6 & -> & H8). cbn [d_name d_level d_kind].
      repeat match goal with |- _ /\ _ => split end; auto; try apply H8.
      apply kr_multi with names; auto. eauto.
    - destruct d as [nm' lv k]; cbn [d_name d_level d_kind]. intros ((Hn' & N' & HL & HK) & HF & HC).
      assert (nm' = nm) as -> by (rewrite Hn in Hn'; congruence).
      inversion HK; subst; try (match goal with H : has_type _ ?x |- _ => apply TY in H; discriminate end).
      match goal with H : exists _, _ |- _ => destruct H as (x & Hx & Hxs) end.
      exists x, names, ks, lv. repeat match goal with |- _ /\ _ => split end; auto; try apply HC. }
  apply maker_never; auto. intros w d ((_ & _ & _ & HK) & _).
  inversion HK; subst; match goal with H : has_type _ ?x |- _ => apply TY in H; congruence end.
Qed.

(** One element of the list. *)
Lemma sink_complete l i d a : next_sink (NMap l) (a_world a) d ->
  parse_sink L ord fuel dbg i (NMap l) a = (in_world a (world_with_sink (a_world a) d), Val tt).
Proof.
  intros H. pose proof H as ((Hn & _ & _ & HK) & _).
  assert (exists ty, has_type (NMap l) ty) as [ty Ht] by (inversion HK; eauto).
  now apply (proj1 (maker_sink l _ ty i Hn Ht)).
Qed.
Lemma sink_sound l i a a' : parse_sink L ord fuel dbg i (NMap l) a = (a', Val tt) -> clean a' ->
  (silent (NMap l) /\ a_world a' = a_world a) \/
  exists d, next_sink (NMap l) (a_world a) d /\ a' = in_world a (world_with_sink (a_world a) d).
Proof.
  intros H C.
  destruct (get (NMap l) "name") as [[|nm|x|x]|] eqn:En;
  destruct (get (NMap l) "type") as [[|ty|y|y]|] eqn:Et.
  7: right; exact (proj2 (maker_sink l nm ty i En Et) _ _ H C).
  all: unfold parse_sink in H; rewrite En, Et in H; cbn in H; inversion H; subst; destruct C as [C1 C2]; cbn in C1, C2;
    rewrite ?orb_true_r, ?orb_false_r in *; try discriminate.
  left. split; [|reflexivity]. split; auto. exists ty. exact Et.
Qed.

Lemma sink_list_complete l : forall i w' a, sinks_read L (a_world a) l w' ->
  parse_sink_list L ord fuel dbg i l a = (in_world a w', Val tt).
Proof.
  induction l as [|n l IH]; intros i w' a H; inversion H; subst; cbn [parse_sink_list].
  - now destruct a.
  - assert (exists x, n = NMap x) as [x ->].
    { match goal with H : sink_read _ _ _ _ |- _ => destruct H as (Hn & _) end.
      destruct n; try discriminate. eauto. }
    unfold bind. erewrite sink_complete by
      (match goal with A : sink_read _ _ _ _, B : _ \/ _, C : constructible _ _ _ |- _ => exact (conj A (conj B C)) end).
    rewrite (IH (S i) w'); auto.
Qed.
Lemma sink_list_sound l : forall i a a', parse_sink_list L ord fuel dbg i l a = (a', Val tt) -> clean a' ->
  sinks_read_silent L (a_world a) l (a_world a').
Proof.
  induction l as [|n l IH]; intros i a a' H C; cbn [parse_sink_list] in H.
  - inversion H. constructor.
  - unfold bind at 1 in H.
    match type of H with (let (_, _) := ?m a in _) = _ => destruct (m a) as [a1 [u|w|]] eqn:E end; try discriminate.
    pose proof (grows_clean _ _ (mono_parse_sink_list _ _ _ _ _ _ _ _ _ H) C) as C1. destruct u.
    specialize (IH _ _ _ H C).
    destruct n as [|t|x|x].
    1-3: inversion E; subst; apply ss_skip; [exact I|exact IH].
    destruct (sink_sound _ _ _ _ E C1) as [[S W]|(d & (R & F & K) & ->)].
    + apply ss_skip; auto. now rewrite <- W.
    + eapply ss_cons; eauto.
Qed.
Lemma sink_list_complete_silent l : forall i w' a, sinks_read_silent L (a_world a) l w' ->
  exists new, parse_sink_list L ord fuel dbg i l a = (mkApp w' (a_lines a ++ new) (a_err a) (a_warn a), Val tt).
Proof.
  induction l as [|n l IH]; intros i w' a H; inversion H; subst; cbn [parse_sink_list].
  - exists []. rewrite app_nil_r. now destruct a.
  - match goal with H : silent _ |- _ => rename H into S end.
    destruct n as [|t|x|x].
    1-3: unfold bind at 1; cbn [say]; rewrite !orb_false_r;
      match goal with |- exists _, parse_sink_list _ _ _ _ _ _ ?b = _ => destruct (IH (Datatypes.S i) w' b) as (new & ->); [assumption|] end;
      cbn [a_lines a_err a_warn]; rewrite <- app_assoc; eauto.
    destruct S as (En & ty & Et).
    assert (P : parse_sink L ord fuel dbg i (NMap x) a =
      (mkApp (a_world a) (a_lines a ++ ["E: Not found 'name' of sink node #" +++ index_text i]) (a_err a) (a_warn a), Val tt)).
    { unfold parse_sink. rewrite En, Et. cbn. now rewrite !orb_false_r. }
    unfold bind at 1. rewrite P.
    match goal with |- exists _, parse_sink_list _ _ _ _ _ _ ?b = _ => destruct (IH (Datatypes.S i) w' b) as (new & ->); [assumption|] end.
    cbn [a_lines a_err a_warn]. rewrite <- app_assoc. eauto.
  - assert (exists x, n = NMap x) as [x ->].
    { match goal with H : sink_read _ _ _ _ |- _ => destruct H as (Hn & _) end.
      destruct n; try discriminate. eauto. }
    unfold bind. erewrite sink_complete by
      (match goal with A : sink_read _ _ _ _, B : _ \/ _, C : constructible _ _ _ |- _ => exact (conj A (conj B C)) end).
    match goal with |- exists _, parse_sink_list _ _ _ _ _ _ ?b = _ => destruct (IH (Datatypes.S i) w' b) as (new & ->); [assumption|] end.
    cbn [a_lines a_err a_warn in_world]. eauto.
Qed.

End Sinks.
