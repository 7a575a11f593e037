(** * What is made of any document *)
From Coq Require Import String List Arith ZArith NArith Bool Lia.
From Verif Require Import Base LevelModel EventModel SysModel YamlModel YamlSpec YamlOutSpec YamlFacts YamlRead YamlSinks YamlGroups YamlDoc.
Import ListNotations.
Local Open Scope string_scope.
Local Open Scope list_scope.

Definition warned (a : app) (s : string) : Prop := a_warn a = true /\ exists line, In line (a_lines a) /\ mentions line s.
Definition failed (a : app) (s : string) : Prop := a_err a = true /\ exists line, In line (a_lines a) /\ mentions line s.

Lemma warned_grows a a' s : grows a a' -> warned a s -> warned a' s.
Proof.
  intros (_ & G & new & E) (H & l & I & M). split; [auto|]. exists l. split; auto. rewrite E. apply in_app_iff. auto.
Qed.
Lemma failed_grows a a' s : grows a a' -> failed a s -> failed a' s.
Proof.
  intros (G & _ & new & E) (H & l & I & M). split; [auto|]. exists l. split; auto. rewrite E. apply in_app_iff. auto.
Qed.
Lemma settled_weaken {A} n key means (d v : A) (C C' : Prop) : (C -> C') -> settled n key means d C v -> settled n key means d C' v.
Proof. intros H [?|t x ? ?|x ? ? ?]; [now apply st_absent|eapply st_given; eauto|eapply st_wrong; eauto]. Qed.

Lemma say_warned e l a a' r s : say e true l a = (a', r) -> mentions l s -> warned a' s.
Proof. intros H M. inversion H; subst. split; cbn; [apply orb_true_r|]. exists l. split; auto. apply in_app_iff. cbn. auto. Qed.
Lemma say_failed w l a a' r s : say true w l a = (a', r) -> mentions l s -> failed a' s.
Proof. intros H M. inversion H; subst. split; cbn; [apply orb_true_r|]. exists l. split; auto. apply in_app_iff. cbn. auto. Qed.

Lemma bind_val {A B} (m : M A) (f : A -> M B) a a' y : bind m f a = (a', Val y) ->
  exists a1 x, m a = (a1, Val x) /\ f x a1 = (a', Val y).
Proof. unfold bind. destruct (m a) as [a1 [x|e|]]; try discriminate. eauto. Qed.
Lemma pure_val {A} (x y : A) a a' : pure x a = (a', Val y) -> a' = a /\ y = x.
Proof. intros H. now inversion H. Qed.

Ltac inv_bind H a x E := apply bind_val in H as (a & x & E & H).
Ltac said := match goal with
  | H : bind (warning ?l) _ ?a = (?a', Val _) |- warned ?a' ?s =>
      let a1 := fresh in let x := fresh in let E := fresh in
      apply bind_val in H as (a1 & x & E & H); apply pure_val in H as [-> _]; eapply say_warned; [exact E|]
  | H : bind (error ?l) _ ?a = (?a', Val _) |- failed ?a' ?s =>
      let a1 := fresh in let x := fresh in let E := fresh in
      apply bind_val in H as (a1 & x & E & H); apply pure_val in H as [-> _]; eapply say_failed; [exact E|]
  end.
Lemma bind_say_pure {A} e w l (x y : A) a a' : (say e w l ;;; pure x) a = (a', Val y) -> y = x.
Proof. intros H. now inversion H. Qed.

Lemma mentions_mid p s q : mentions (p +++ s +++ q) s.
Proof. now exists p, q. Qed.
Lemma mentions_cons c l s : mentions l s -> mentions (String c l) s.
Proof. intros (p & q & ->). now exists (String c p), q. Qed.
Lemma mentions_here s q : mentions (s +++ q) s.
Proof. now exists "", q. Qed.
Lemma append_assoc a b c : (a +++ b) +++ c = a +++ b +++ c.
Proof. induction a; cbn; congruence. Qed.
Lemma append_nil_r s : s +++ "" = s.
Proof. induction s; cbn; congruence. Qed.
Lemma mentions_self s : mentions s s.
Proof. exists "", "". cbn. now rewrite append_nil_r. Qed.
Lemma mentions_app p l s : mentions l s -> mentions (p +++ l) s.
Proof. induction p; cbn; auto using mentions_cons. Qed.
(** Find a literal. *)
Ltac lit := repeat first [ solve [apply (mentions_here _ _)] | solve [eexists "", _; reflexivity] | apply mentions_cons | apply mentions_app ].
(** Find a variable. *)
Ltac var := cbn; repeat first [ solve [apply mentions_self] | solve [apply mentions_here] | solve [eexists "", _; reflexivity] | apply mentions_cons | apply mentions_app ].

Section Out.
Variable L : lib.
Hypothesis UL : usual_lib L.
Hypothesis RH : refuses_huge_buffers L.
Variable ord : list nat -> list nat.
Variable fuel : nat.
Variable dbg : bool.

Lemma out_color n a a' x : parse_color L n a = (a', Val x) ->
  settled n "color" (fun t b => as_bool L t = Some b) false (warned a' "'color'") x.
Proof.
  unfold parse_color. destruct (get n "color") as [[|t|l|l]|] eqn:E; intros H.
  1,3,4: (pose proof (bind_say_pure _ _ _ _ _ _ _ H) as ->; eapply st_wrong; [exact E|discriminate|]; said; lit).
  - unfold to_bool in H. destruct (as_bool L t) eqn:B; [|discriminate]. apply pure_val in H as [-> ->]. eapply st_given; eauto.
  - apply pure_val in H as [-> ->]. now apply st_absent.
Qed.
Lemma out_stream n a a' x : parse_stream n a = (a', Val x) -> settled n "stream" means_stream STDOUT (warned a' "'stream'") x.
Proof.
  unfold parse_stream. destruct (get n "stream") as [[|t|l|l]|] eqn:E; intros H.
  1,3,4: (pose proof (bind_say_pure _ _ _ _ _ _ _ H) as ->; eapply st_wrong; [exact E|discriminate|]; said; lit).
  - destruct (String.eqb_spec t "stdout"); [apply pure_val in H as [-> ->]; subst; eapply st_given; [exact E|constructor]|].
    destruct (String.eqb_spec t "stderr"); [apply pure_val in H as [-> ->]; subst; eapply st_given; [exact E|constructor]|].
    pose proof (bind_say_pure _ _ _ _ _ _ _ H) as ->. eapply st_wrong; [exact E| |].
    + intros t' v Q M. inversion Q; subst. inversion M; congruence.
    + said. lit.
  - apply pure_val in H as [-> ->]. now apply st_absent.
Qed.
Lemma out_thread nm n a a' x : parse_thread nm n a = (a', Val x) -> thread_from (warned a') n x.
Proof.
  unfold parse_thread, thread_from. destruct (get n "thread") as [[|t|l|l]|] eqn:E; intros H.
  1,3,4: (pose proof (bind_say_pure _ _ _ _ _ _ _ H) as ->; eapply st_wrong; [exact E|discriminate|]; said; lit).
  - destruct (String.eqb_spec t "name"); [apply pure_val in H as [-> ->]; subst; eapply st_given; [exact E|constructor]|].
    destruct (String.eqb_spec t "id"); [apply pure_val in H as [-> ->]; subst; eapply st_given; [exact E|constructor]|].
    destruct (String.eqb_spec t "none"); [apply pure_val in H as [-> ->]; subst; eapply st_given; [exact E|constructor]|].
    pose proof (bind_say_pure _ _ _ _ _ _ _ H) as ->. eapply st_wrong; [exact E| |].
    + intros t' v Q M. inversion Q; subst. inversion M; congruence.
    + said. lit.
  - apply pure_val in H as [-> ->]. now apply st_absent.
Qed.

Lemma out_level tg n a a' x : parse_level L tg n a = (a', Val x) -> level_from L (warned a') (failed a') n x.
Proof.
  unfold parse_level, level_from. destruct (get n "level") as [[|t|l|l]|] eqn:E; intros H.
  1,3,4: (pose proof (bind_say_pure _ _ _ _ _ _ _ H) as ->; split; [|split; discriminate];
          eapply st_wrong; [exact E|discriminate|]; said; lit).
  - unfold debug_disabled, trace_disabled in H.
    repeat match type of H with context [String.eqb t ?s] => destruct (String.eqb_spec t s); subst end; cbn [orb] in H.
    all: try (apply pure_val in H as [-> ->]; split; [|split; discriminate]; eapply st_given; [exact E|]; eexists; split; [reflexivity|constructor]).
    1,2: (inv_bind H a1 u E1; apply pure_val in H as [-> ->]; split; [eapply st_given; [exact E|]; eexists; split; [reflexivity|constructor]|];
          split; [|discriminate]; intros _ W1 W2; rewrite W1, W2 in E1; cbn [andb] in E1; eapply say_warned; [exact E1|]; lit).
    + inv_bind H a1 u E1. apply pure_val in H as [-> ->]. split; [eapply st_given; [exact E|]; eexists; split; [reflexivity|constructor]|].
      split; [discriminate|]. intros _ W. rewrite W in E1. eapply say_warned; [exact E1|]. lit.
    + pose proof (bind_say_pure _ _ _ _ _ _ _ H) as ->. split; [|split; discriminate]. eapply st_wrong; [exact E| |].
      * intros t' v Q (l & _ & M). inversion Q; subst. inversion M; congruence.
      * said. lit.
  - apply pure_val in H as [-> ->]. split; [|split; discriminate]. now apply st_absent.
Qed.

(** The numbers; [ok] is what the comparison checks, apart from negative buffers. *)
Lemma out_number key wrong good (ok : string -> Z -> Prop) nm n a a' x :
  parse_number L key wrong good nm n a = (a', Val x) ->
  mentions wrong ("'" +++ key +++ "'") ->
  (forall t z, as_int L t = Some z -> ok t z -> good t z = true) ->
  (forall t z, as_int L t = Some z -> (0 <= z)%Z -> good t z = true -> ok t z) ->
  (forall t z, as_int L t = Some z -> good t z = true -> x = Some (to_size z) -> (0 <= z)%Z) ->
  settled n key (means_number L ok) None (warned a' ("'" +++ key +++ "'")) x.
Proof.
  intros H MW G1 G2 SM. unfold parse_number in H. destruct (get n key) as [[|t|l|l]|] eqn:E.
  1,3,4: (pose proof (bind_say_pure _ _ _ _ _ _ _ H) as ->; eapply st_wrong; [exact E|discriminate|]; said; cbn).
  1-3: (apply (mentions_app "W: Property "); exists "", " of sink node is not scalar"; cbn; now rewrite append_assoc).
  - inv_bind H a1 z E1. unfold to_int in E1. destruct (as_int L t) as [z'|] eqn:Z; [|discriminate].
    apply pure_val in E1 as [-> ->]. destruct (good t z') eqn:G.
    + apply pure_val in H as [-> ->]. eapply st_given; [exact E|]. exists z'. split; auto.
      assert (B := SM _ _ Z G eq_refl). pose proof (ul_int _ UL _ _ Z) as R.
      split.
      * auto.
      * rewrite to_size_small; auto. lia.
    + pose proof (bind_say_pure _ _ _ _ _ _ _ H) as ->. eapply st_wrong; [exact E| |].
      * intros t' v Q (z0 & Hz & Ok & _). inversion Q; subst. rewrite Z in Hz. inversion Hz; subst.
        rewrite (G1 _ _ Z Ok) in G. discriminate.
      * said. destruct MW as (p & q & ->). apply (mentions_app "W: ").
        exists p, (q +++ " value of sink '" +++ nm +++ "': " +++ t). now rewrite !append_assoc.
  - apply pure_val in H as [-> ->]. now apply st_absent.
Qed.

Lemma sizes_weaken (f g : string -> Prop) c n z : (forall s, f s -> g s) -> sizes_from L f c n z -> sizes_from L g c n z.
Proof. intros H (A & B & C & D). unfold sizes_from. repeat match goal with |- _ /\ _ => split end; (eapply settled_weaken; [apply H|assumption]). Qed.
Lemma keys_weaken (f g : string -> Prop) ks n : (forall s, f s -> g s) -> keys_from L f ks n -> keys_from L g ks n.
Proof. intros H (l & -> & K). exists l. split; auto. intros k v I. destruct (K k v I) as (t & R & [Q|Q]); eauto. Qed.
Lemma level_weaken (f g f' g' : string -> Prop) n o : (forall s, f s -> g s) -> (forall s, f' s -> g' s) ->
  level_from L f f' n o -> level_from L g g' n o.
Proof. intros H H' (A & B & C). split; [|split]; auto. eapply settled_weaken; [apply H'|exact A]. Qed.

Lemma out_sizes c nm n a a' z : parse_sizes L c nm n a = (a', Val z) ->
  (forall b, z_buffer z = Some b -> (b < 2 ^ 63)%N) -> sizes_from L (warned a') c n z.
Proof.
  unfold parse_sizes. intros H SM.
  inv_bind H a1 cap E1. inv_bind H a2 buf E2. inv_bind H a3 msg E3. inv_bind H a4 lat E4. apply pure_val in H as [-> ->].
  cbn [z_buffer] in SM. unfold parse_capacity, parse_buffer, parse_message, parse_latency in *.
  assert (G2 : grows a1 a2) by (eapply mono_parse_number; exact E2).
  assert (G3 : grows a2 a3) by (eapply mono_parse_number; exact E3).
  assert (G4 : grows a3 a4) by (eapply mono_parse_number; exact E4).
  unfold sizes_from. repeat match goal with |- _ /\ _ => split end; cbn [z_capacity z_buffer z_message z_latency].
  - eapply settled_weaken; [apply warned_grows, (grows_trans _ _ _ G2), (grows_trans _ _ _ G3), G4|].
    eapply (out_number "capacity"); [exact E1|lit| | |].
    + intros t z0 _ H. unfold good_capacity in H. cbv beta in *; lia.
    + intros t z0 _ _ H. unfold good_capacity. cbv beta in *; lia.
    + intros t z0 _ H _. cbn in H. cbv beta in *; lia.
  - eapply settled_weaken; [apply warned_grows, (grows_trans _ _ _ G3), G4|].
    eapply (out_number "buffer"); [exact E2|lit| | |].
    + intros t z0 Z H. unfold good_buffer in H. pose proof (ul_int _ UL _ _ Z). pose proof (ul_event _ UL).
      apply N.leb_le. rewrite to_size_small by lia. cbv beta in *; lia.
    + intros t z0 Z P H. unfold good_buffer. pose proof (ul_int _ UL _ _ Z). apply N.leb_le in H.
      rewrite to_size_small in H by lia. cbv beta in *; lia.
    + intros t z0 Z H Q. apply SM in Q. destruct (Z.lt_ge_cases z0 0); [|lia].
      pose proof (ul_int _ UL _ _ Z). pose proof (to_size_negative z0). cbv beta in *; lia.
  - eapply settled_weaken; [apply warned_grows, G4|].
    eapply (out_number "max_message_length"); [exact E3|lit| | |].
    + intros t z0 _ H. unfold good_message in H. cbv beta in *; destruct c; lia.
    + intros t z0 _ _ H. unfold good_message. cbv beta in *; destruct c; lia.
    + intros t z0 _ H _. cbn in H. cbv beta in *; destruct c; lia.
  - eapply (out_number "latency"); [exact E4|lit| | |].
    + intros t z0 _ [H ->]. rewrite String.eqb_refl. cbn. cbv beta in *; lia.
    + intros t z0 _ _ H. apply andb_prop in H as [H1 H2]. apply String.eqb_eq in H1. split; [lia|auto].
    + intros t z0 _ H _. apply andb_prop in H as [H1 H2]. cbv beta in *; lia.
Qed.

Lemma out_keys ks line l a a' u : (forall t, mentions (line t) t) -> check_keys L ks line (NMap l) a = (a', Val u) ->
  keys_from L (warned a') ks (NMap l).
Proof.
  intros ML H. exists l. split; auto. cbn in H. revert a H. induction l as [|[k v] l IH]; intros a H k' v' I; [contradiction|].
  cbn in H. inv_bind H a1 t E1. inv_bind H a2 y E2. destruct I as [I|I]; [|eapply IH; eauto].
  inversion I; subst k' v'. exists t. split.
  - unfold as_string in E1. destruct k; try discriminate.
    + destruct (null_text L) eqn:E; [|discriminate]. apply pure_val in E1 as [_ ->]. right; auto.
    + apply pure_val in E1 as [_ ->]. left; auto.
  - destruct (existsb (String.eqb t) ks) eqn:E.
    + left. apply existsb_exists in E as (x & Q & R). apply String.eqb_eq in R. now subst.
    + right. eapply warned_grows; [eapply mono_check_keys_in; exact H|]. eapply say_warned; [exact E2|apply ML].
Qed.

Lemma out_strings l : forall a a' ts, as_strings L l a = (a', Val ts) -> a' = a /\ Forall2 (reads L) l ts.
Proof.
  induction l as [|n l IH]; intros a a' ts H; cbn in H.
  - apply pure_val in H as [-> ->]. split; [reflexivity|constructor].
  - inv_bind H a1 t E1. inv_bind H a2 ts' E2. apply pure_val in H as [-> ->].
    apply IH in E2 as [-> F]. unfold as_string in E1. destruct n; try discriminate.
    + destruct (null_text L) eqn:E; [|discriminate]. apply pure_val in E1 as [-> ->]. split; auto. constructor; auto. right; auto.
    + apply pure_val in E1 as [-> ->]. split; auto. constructor; auto. left; auto.
Qed.
Lemma out_members nm l : forall a a' ks, find_members nm l a = (a', Val ks) ->
  members_from (warned a') (find (smap (w_sys (a_world a)))) l ks.
Proof.
  induction l as [|t l IH]; intros a a' ks H; cbn [find_members] in H.
  - apply pure_val in H as [-> ->]. split; [reflexivity|]. intros t [].
  - inv_bind H a1 k E1. inversion E1; subst a1 k. destruct (find (smap (w_sys (a_world a))) t) as [k|] eqn:F in H |- *.
    + inv_bind H a2 ks' E2. apply pure_val in H as [-> ->]. apply IH in E2 as [-> W]. split.
      * cbn. now rewrite F.
      * intros t' [->|I] N; [congruence|auto].
    + inv_bind H a2 u E2. assert (a_world a2 = a_world a) by (inversion E2; reflexivity).
      pose proof (mono_find_members nm l _ _ _ H) as G.
      apply IH in H as [-> W]. rewrite H0 in *. split.
      * cbn. now rewrite F.
      * intros t' [->|I] N; [|auto]. eapply warned_grows; [exact G|]. eapply say_warned; [exact E2|]. var.
Qed.

Lemma out_make d a a' : make_sink L ord fuel dbg d a = (a', Val tt) ->
  constructible L (w_busy (a_world a)) d /\ a' = in_world a (world_with_sink (a_world a) d).
Proof.
  unfold make_sink, on_world, world_sink, constructible. destruct (build L d) eqn:B; [discriminate|].
  fold (is_syslog d). destruct (is_syslog d && w_busy (a_world a)) eqn:S; [discriminate|].
  cbn [step]. intros H. inversion H; subst. split.
  - split; auto. intros [S1 S2]. now rewrite S1, S2 in S.
  - reflexivity.
Qed.

Lemma out_level_sink nm n a a' lv : sink_level L nm n a = (a', Val lv) ->
  exists o, level_from L (warned a') (failed a') n o /\ lv = match o with Some l => l | None => TRACE end.
Proof. unfold sink_level. intros H. inv_bind H a1 o E. apply pure_val in H as [-> ->]. apply out_level in E. eauto. Qed.

Lemma out_existing nm a a' u : warn_existing nm a = (a', Val u) ->
  find (smap (w_sys (a_world a))) nm <> None -> warned a' nm.
Proof.
  unfold warn_existing. intros H N. inv_bind H a1 k E. inversion E; subst a1 k.
  destruct (find (smap (w_sys (a_world a))) nm) eqn:F in H; [|congruence]. eapply say_warned; [exact H|]. var.
Qed.

Definition sink_made (n : node) (a a' : app) (d : sink_desc) : Prop :=
  sink_from L (warned a') (failed a') (find (smap (w_sys (a_world a)))) n d /\
  constructible L (w_busy (a_world a)) d /\ a_world a' = world_with_sink (a_world a) d.

Lemma grows_world a w : grows a (in_world a w).
Proof. split; [|split]; cbn; auto. exists []. now rewrite app_nil_r. Qed.
Lemma small d busy z : constructible L busy d ->
  match d_kind d with KConsole _ _ _ z | KFile _ _ z | KSyslog _ _ z => Some z | KMulti _ => None end = Some z ->
  forall b, z_buffer z = Some b -> (b < 2 ^ 63)%N.
Proof.
  intros C E b B. destruct d as [nm lv [ ]]; cbn in E; inversion E; subst; (destruct (N.lt_ge_cases b (2 ^ 63)) as [Q|Q]; [exact Q|]);
    exfalso; match type of C with constructible _ _ ?d => exact (RH d b B Q (proj1 C)) end.
Qed.

Lemma out_console nm l a a' : get (NMap l) "name" = Some (NScalar nm) -> has_type (NMap l) "console" -> nm <> "*" ->
  parse_console L ord fuel dbg nm (NMap l) a = (a', Val tt) -> exists d, sink_made (NMap l) a a' d.
Proof.
  intros HN HT NS H. unfold parse_console in H.
  inv_bind H a1 color E1. inv_bind H a2 str E2. inv_bind H a3 ti E3. inv_bind H a4 z E4. inv_bind H a5 lv E5.
  inv_bind H a6 u E6. inv_bind H a7 v E7. apply out_make in H as [C ->].
  assert (G2 : grows a1 a2) by (eapply mono_parse_stream; exact E2).
  assert (G3 : grows a2 a3) by (eapply mono_parse_thread; exact E3).
  assert (G4 : grows a3 a4) by (eapply mono_parse_sizes; exact E4).
  assert (G5 : grows a4 a5) by (eapply mono_sink_level; exact E5).
  assert (G6 : grows a5 a6) by (eapply mono_check_keys; exact E6).
  assert (G7 : grows a6 a7) by (eapply mono_warn_existing; exact E7).
  assert (W1 := proj1 (local_parse_color _ _ _ _ _ E1)). assert (W2 := proj1 (local_parse_stream _ _ _ _ E2)).
  assert (W3 := proj1 (local_parse_thread _ _ _ _ _ E3)). assert (W4 := proj1 (local_parse_sizes _ _ _ _ _ _ _ E4)).
  assert (W5 := proj1 (local_sink_level _ _ _ _ _ _ E5)). assert (W6 := proj1 (local_check_keys _ _ _ _ _ _ _ E6)).
  assert (W7 := proj1 (local_warn_existing _ _ _ _ E7)).
  assert (WW : a_world a6 = a_world a) by congruence. rewrite W7, WW in C |- *.
  eexists. split; [|split; [exact C|reflexivity]].
  set (d := mkDesc _ _ _) in *. set (a' := in_world a7 _).
  assert (G7' : grows a7 a') by apply grows_world.
  assert (G6' := grows_trans _ _ _ G7 G7'). assert (G5' := grows_trans _ _ _ G6 G6'). assert (G4' := grows_trans _ _ _ G5 G5').
  assert (G3' := grows_trans _ _ _ G4 G4'). assert (G2' := grows_trans _ _ _ G3 G3'). assert (G1' := grows_trans _ _ _ G2 G2').
  split; [exact HN|]. split; [exact NS|]. split; [|split].
  - destruct (out_level_sink _ _ _ _ _ E5) as (o & Ho & ->). exists o. split; [|reflexivity].
    eapply level_weaken; [..|exact Ho]; intros s; [apply warned_grows|apply failed_grows]; exact G5'.
  - apply kf_console; auto.
    + eapply settled_weaken; [|apply (out_stream _ _ _ _ E2)]. apply warned_grows, G2'.
    + eapply settled_weaken; [|apply (out_color _ _ _ _ E1)]. apply warned_grows, G1'.
    + eapply settled_weaken; [|apply (out_thread _ _ _ _ _ E3)]. apply warned_grows, G3'.
    + eapply sizes_weaken; [|apply (out_sizes _ _ _ _ _ _ E4)]; [intros s; apply warned_grows, G4'|].
      eapply small; [exact C|reflexivity].
    + eapply keys_weaken; [|eapply out_keys; [|exact E6]]; [intros s; apply warned_grows, G6'|]. intros t. var.
  - intros _ HF. cbn [d_name d] in *. eapply warned_grows; [exact G7'|]. eapply out_existing; [exact E7|]. now rewrite WW.
Qed.

Lemma out_with key mk nm l a a' : get (NMap l) "name" = Some (NScalar nm) -> nm <> "*" ->
  (forall t ti z, is_multi (mkDesc nm TRACE (mk t ti z)) = false) ->
  (forall t ti z, match mk t ti z with KConsole _ _ _ z | KFile _ _ z | KSyslog _ _ z => Some z | KMulti _ => None end = Some z) ->
  (forall f g t ti z, get (NMap l) key = Some (NScalar t) -> thread_from f (NMap l) ti -> sizes_from L f false (NMap l) z ->
     keys_from L f ["name"; "type"; key; "thread"; "capacity"; "buffer"; "max_message_length"; "latency"; "level"] (NMap l) ->
     kind_from L f g (NMap l) (mk t ti z)) ->
  parse_with L ord fuel dbg key mk nm (NMap l) a = (a', Val tt) ->
  (exists t d, get (NMap l) key = Some (NScalar t) /\ sink_made (NMap l) a a' d) \/
  (no_scalar (NMap l) key /\ a_world a' = a_world a /\ failed a' nm).
Proof.
  intros HN NS NM NZ KF H. unfold parse_with in H.
  inv_bind H a1 text E1. inv_bind H a3 ti E3. inv_bind H a4 z E4. inv_bind H a5 lv E5. inv_bind H a6 u E6.
  assert (G3 : grows a1 a3) by (eapply mono_parse_thread; exact E3).
  assert (G4 : grows a3 a4) by (eapply mono_parse_sizes; exact E4).
  assert (G5 : grows a4 a5) by (eapply mono_sink_level; exact E5).
  assert (G6 : grows a5 a6) by (eapply mono_check_keys; exact E6).
  assert (W1 := proj1 (local_require _ _ _ _ _ _ E1)).
  assert (W3 := proj1 (local_parse_thread _ _ _ _ _ E3)). assert (W4 := proj1 (local_parse_sizes _ _ _ _ _ _ _ E4)).
  assert (W5 := proj1 (local_sink_level _ _ _ _ _ _ E5)). assert (W6 := proj1 (local_check_keys _ _ _ _ _ _ _ E6)).
  assert (WW : a_world a6 = a_world a) by congruence.
  unfold require in E1. destruct (get (NMap l) key) as [[|t|x|x]|] eqn:EK.
  2: { apply pure_val in E1 as [-> ->]. left. inv_bind H a7 v E7. apply out_make in H as [C ->].
    assert (G7 : grows a6 a7) by (eapply mono_warn_existing; exact E7).
    assert (W7 := proj1 (local_warn_existing _ _ _ _ E7)). rewrite W7, WW in C |- *.
    exists t. eexists. split; [reflexivity|]. split; [|split; [exact C|reflexivity]].
    set (d := mkDesc _ _ _) in *. set (a' := in_world a7 _).
    assert (G7' : grows a7 a') by apply grows_world.
    assert (G6' := grows_trans _ _ _ G7 G7'). assert (G5' := grows_trans _ _ _ G6 G6'). assert (G4' := grows_trans _ _ _ G5 G5').
    assert (G3' := grows_trans _ _ _ G4 G4').
    split; [exact HN|]. split; [exact NS|]. split; [|split].
    - destruct (out_level_sink _ _ _ _ _ E5) as (o & Ho & ->). exists o. split; [|reflexivity].
      eapply level_weaken; [..|exact Ho]; intros s; [apply warned_grows|apply failed_grows]; exact G5'.
    - apply KF; auto.
      + eapply settled_weaken; [|apply (out_thread _ _ _ _ _ E3)]. apply warned_grows, G3'.
      + eapply sizes_weaken; [|apply (out_sizes _ _ _ _ _ _ E4)]; [intros s; apply warned_grows, G4'|].
        eapply small; [exact C|apply NZ].
      + eapply keys_weaken; [|eapply out_keys; [|exact E6]]; [intros s; apply warned_grows, G6'|]. intros t'. var.
    - intros _ HF. cbn [d_name d] in *. eapply warned_grows; [exact G7'|]. eapply out_existing; [exact E7|]. now rewrite WW. }
  all: right; pose proof (bind_say_pure _ _ _ _ _ _ _ E1) as ->; apply pure_val in H as [-> _];
    (split; [intros t'; rewrite EK; discriminate|]); (split; [exact WW|]);
    apply (failed_grows a1); [eapply grows_trans; [exact G3|eapply grows_trans; [exact G4|eapply grows_trans; [exact G5|exact G6]]]|];
    said; repeat first [apply mentions_here | apply mentions_self | apply mentions_app].
Qed.

Lemma out_multi nm l a a' : get (NMap l) "name" = Some (NScalar nm) -> has_type (NMap l) "multisink" -> nm <> "*" ->
  parse_multisink L ord fuel dbg nm (NMap l) a = (a', Val tt) ->
  (exists x d, get (NMap l) "sinks" = Some (NSeq x) /\ sink_made (NMap l) a a' d) \/
  ((forall x, get (NMap l) "sinks" <> Some (NSeq x)) /\ a_world a' = a_world a /\ failed a' nm).
Proof.
  intros HN HT NS H. unfold parse_multisink in H.
  inv_bind H a1 mb E1. inv_bind H a5 lv E5. inv_bind H a6 u E6.
  assert (G5 : grows a1 a5) by (eapply mono_sink_level; exact E5).
  assert (G6 : grows a5 a6) by (eapply mono_check_keys; exact E6).
  assert (W5 := proj1 (local_sink_level _ _ _ _ _ _ E5)). assert (W6 := proj1 (local_check_keys _ _ _ _ _ _ _ E6)).
  destruct (get (NMap l) "sinks") as [[|t|x|x]|] eqn:EK.
  3: { apply pure_val in E1 as [-> ->]. left. inv_bind H a7 names E7. inv_bind H a8 ks E8. apply out_make in H as [C ->].
    apply out_strings in E7 as [-> F].
    assert (G8 : grows a6 a8) by (eapply mono_find_members; exact E8).
    assert (W8 := proj1 (local_find_members _ _ _ _ _ E8)). assert (WW : a_world a6 = a_world a) by congruence.
    rewrite W8, WW in C |- *. apply out_members in E8. rewrite WW in E8.
    exists x. eexists. split; [reflexivity|]. split; [|split; [exact C|reflexivity]].
    set (d := mkDesc _ _ _) in *. set (a' := in_world a8 _).
    assert (G8' : grows a8 a') by apply grows_world.
    assert (G6' := grows_trans _ _ _ G8 G8'). assert (G5' := grows_trans _ _ _ G6 G6').
    split; [exact HN|]. split; [exact NS|]. split; [|split].
    - destruct (out_level_sink _ _ _ _ _ E5) as (o & Ho & ->). exists o. split; [|reflexivity].
      eapply level_weaken; [..|exact Ho]; intros s; [apply warned_grows|apply failed_grows]; exact G5'.
    - eapply kf_multi; [exact HT|exact EK|exact F| |].
      + destruct E8 as [-> Q]. split; [reflexivity|exact Q].
      + eapply keys_weaken; [|eapply out_keys; [|exact E6]]; [intros s; apply warned_grows, G6'|]. intros t'. var.
    - discriminate. }
  all: right; pose proof (bind_say_pure _ _ _ _ _ _ _ E1) as ->; apply pure_val in H as [-> _];
    (split; [intros t'; discriminate|]); 
    (split; [rewrite W6, W5; inversion E1; reflexivity|]);
    apply (failed_grows a1); [eapply grows_trans; [exact G5|exact G6]|]; said; var.
Qed.

Lemma out_sink l i a a' : parse_sink L ord fuel dbg i (NMap l) a = (a', Val tt) ->
  (silent (NMap l) /\ a_world a' = a_world a) \/
  (~ silent (NMap l) /\ unusable (NMap l) /\ a_world a' = a_world a /\ points_at (failed a') i (NMap l)) \/
  (~ silent (NMap l) /\ ~ unusable (NMap l) /\ exists d, sink_made (NMap l) a a' d).
Proof.
  intros H. unfold parse_sink in H. inv_bind H a1 nm E1. inv_bind H a2 ty E2.
  assert (L1 : a_world a1 = a_world a).
  { destruct (get (NMap l) "name") as [[|t|x|x]|]; inversion E1; reflexivity. }
  assert (L2 : a_world a2 = a_world a1).
  { destruct (get (NMap l) "type") as [[|t|x|x]|]; inversion E2; reflexivity. }
  assert (G2 : grows a1 a2).
  { revert E2. match goal with |- ?m _ = _ -> _ => apply (ltac:(mono) : mono m) end. }
  destruct (get (NMap l) "name") as [nn|] eqn:EN.
  2: { (* no name *)
    inv_bind E1 a3 u F. apply pure_val in E1 as [-> ->]. apply pure_val in H as [-> _].
    destruct (get (NMap l) "type") as [tn|] eqn:ET.
    - destruct tn as [|t|x|x].
      2: { left. split; [|congruence]. split; [exact EN|]. exists t. exact ET. }
      all: right; left; split; [intros [_ [t Q]]; unfold has_type in Q; rewrite ET in Q; discriminate|];
        (split; [apply un_name; intros t; rewrite EN; discriminate|]); (split; [congruence|]); left; said; var.
    - right; left. split; [intros [_ [t Q]]; unfold has_type in Q; rewrite ET in Q; discriminate|].
      split; [apply un_name; intros t; rewrite EN; discriminate|]. split; [congruence|]. left. said; var. }
  assert (NSL : ~ silent (NMap l)) by (intros [Q _]; rewrite EN in Q; discriminate).
  right. destruct nn as [|nm'|x|x].
  1,3,4: left; pose proof (bind_say_pure _ _ _ _ _ _ _ E1) as ->; apply pure_val in H as [-> _];
    (split; [exact NSL|]); (split; [apply un_name; intros t; rewrite EN; discriminate|]); (split; [congruence|]); left;
    apply (failed_grows a1); [exact G2|]; said; var.
  apply pure_val in E1 as [-> ->].
  destruct (get (NMap l) "type") as [tn|] eqn:ET.
  2: { left. pose proof (bind_say_pure _ _ _ _ _ _ _ E2) as ->. apply pure_val in H as [-> _].
    split; [exact NSL|]. split; [apply un_type; intros t; rewrite ET; discriminate|]. split; [congruence|]. left. said; var. }
  destruct tn as [|ty'|x|x].
  1,3,4: left; pose proof (bind_say_pure _ _ _ _ _ _ _ E2) as ->; apply pure_val in H as [-> _];
    (split; [exact NSL|]); (split; [apply un_type; intros t; rewrite ET; discriminate|]); (split; [congruence|]); left; said; var.
  apply pure_val in E2 as [-> ->].
  assert (TY : forall t, has_type (NMap l) t -> t = ty').
  { unfold has_type. rewrite ET. intros t Q. congruence. }
  assert (US : nm' <> "*" -> In ty' ["console"; "file"; "syslog"; "multisink"] ->
     (ty' = "file" -> exists t, get (NMap l) "path" = Some (NScalar t)) ->
     (ty' = "syslog" -> exists t, get (NMap l) "ident" = Some (NScalar t)) ->
     (ty' = "multisink" -> exists t, get (NMap l) "sinks" = Some (NSeq t)) -> ~ unusable (NMap l)).
  { intros N T1 T2 T3 T4 U. inversion U as [Q|Q|Q|t Q Q'|Q Q'|Q Q'|Q Q'].
    - eapply Q; exact EN.
    - eapply Q; exact ET.
    - congruence.
    - apply TY in Q. subst. contradiction.
    - apply TY in Q. destruct (T2 (eq_sym Q)) as [t R]. eapply Q'; exact R.
    - apply TY in Q. destruct (T3 (eq_sym Q)) as [t R]. eapply Q'; exact R.
    - apply TY in Q. destruct (T4 (eq_sym Q)) as [t R]. eapply Q'; exact R. }
  assert (PT : forall f : string -> Prop, f nm' -> points_at f i (NMap l)).
  { intros f Hf. right. exists nm'. auto. }
  destruct (String.eqb_spec nm' "*") as [->|N].
  { left. split; [exact NSL|]. split; [now apply un_star|]. split; [inversion H; reflexivity|]. apply PT.
    eapply say_failed; [exact H|]. lit. }
  destruct (String.eqb_spec ty' "console") as [->|T1].
  { right. split; [exact NSL|]. split; [apply US; auto; try discriminate; cbn; auto|].
    eapply out_console; eauto. }
  destruct (String.eqb_spec ty' "file") as [->|T2].
  { destruct (out_with "path" KFile nm' l a a' EN N) as [(t & d & Q & D)|(Q & W & F)]; auto.
    - intros f g t ti z. apply kf_file; auto.
    - right. split; [exact NSL|]. split; [apply US; auto; try discriminate; [cbn; auto|eauto]|]. eauto.
    - left. split; [exact NSL|]. split; [now apply un_path|]. auto. }
  destruct (String.eqb_spec ty' "syslog") as [->|T3].
  { destruct (out_with "ident" KSyslog nm' l a a' EN N) as [(t & d & Q & D)|(Q & W & F)]; auto.
    - intros f g t ti z. apply kf_syslog; auto.
    - right. split; [exact NSL|]. split; [apply US; auto; try discriminate; [cbn; auto|eauto]|]. eauto.
    - left. split; [exact NSL|]. split; [now apply un_ident|]. auto. }
  destruct (String.eqb_spec ty' "multisink") as [->|T4].
  { destruct (out_multi nm' l a a' EN ET N H) as [(t & d & Q & D)|(Q & W & F)].
    - right. split; [exact NSL|]. split; [apply US; auto; try discriminate; [cbn; auto|eauto]|]. eauto.
    - left. split; [exact NSL|]. split; [now apply un_sinks|]. auto. }
  left. split; [exact NSL|]. split.
  { apply un_unknown with ty'; [exact ET|]. cbn. intuition congruence. }
  split; [inversion H; reflexivity|]. apply PT. eapply say_failed; [exact H|]. var.
Qed.

Lemma points_weaken (f g : string -> Prop) i n : (forall s, f s -> g s) -> points_at f i n -> points_at g i n.
Proof. intros H [Q|(t & E & Q)]; [left; auto|right; exists t; auto]. Qed.
Lemma sink_from_weaken (f g f' g' : string -> Prop) member n d : (forall s, f s -> g s) -> (forall s, f' s -> g' s) ->
  sink_from L f f' member n d -> sink_from L g g' member n d.
Proof.
  intros H H' (A & B & (o & C & C') & D & E). split; [exact A|]. split; [exact B|]. split; [|split; [|auto]].
  - exists o. split; auto. eapply level_weaken; eauto.
  - destruct D.
    + apply kf_console; auto; try (eapply settled_weaken; [apply H|assumption]); [eapply sizes_weaken|eapply keys_weaken]; eauto.
    + apply kf_file; auto; try (eapply settled_weaken; [apply H|assumption]); [eapply sizes_weaken|eapply keys_weaken]; eauto.
    + apply kf_syslog; auto; try (eapply settled_weaken; [apply H|assumption]); [eapply sizes_weaken|eapply keys_weaken]; eauto.
    + eapply kf_multi; eauto; [|eapply keys_weaken; eauto]. destruct H3 as [-> Q]. split; auto.
Qed.

Lemma out_sink_list l : forall i a a' final, parse_sink_list L ord fuel dbg i l a = (a', Val tt) -> grows a' final ->
  sinks_done L (warned final) (failed final) (a_world a) i l (a_world a').
Proof.
  induction l as [|n l IH]; intros i a a' final H GF; cbn [parse_sink_list] in H.
  - apply pure_val in H as [-> _]. apply sd_nil.
  - inv_bind H a1 u E. pose proof (mono_parse_sink_list _ _ _ _ _ _ _ _ _ H) as G.
    assert (G1 := grows_trans _ _ _ G GF). specialize (IH _ _ _ _ H GF).
    destruct n as [|t|x|x].
    1-3: (apply sd_silent; [exact Logic.I|]; assert (a_world a1 = a_world a) as <- by (inversion E; reflexivity); exact IH).
    destruct u. apply out_sink in E as [[S W]|[(S & U & W & P)|(S & U & d & D1 & D2 & D3)]].
    + apply sd_silent; auto. now rewrite <- W.
    + apply sd_skip; auto; [|now rewrite <- W]. eapply points_weaken; [|exact P]. intros s. now apply failed_grows.
    + eapply sd_made; eauto; [|now rewrite <- D3].
      eapply sink_from_weaken; [..|exact D1]; intros s; [now apply warned_grows|now apply failed_grows].
Qed.

Lemma out_call c a a' u : do_call ord fuel dbg c a = (a', Val u) ->
  grows a a' /\ calls_run ord fuel dbg [c] (a_world a) = (a_world a', Val tt).
Proof.
  unfold do_call, on_world. destruct (world_call ord fuel dbg c (a_world a)) as [w r] eqn:E. intros H. inversion H; subst. split.
  - apply grows_world.
  - cbn [calls_run]. rewrite E. now destruct u.
Qed.
Lemma out_pure (a a' : app) (u : unit) : pure tt a = (a', Val u) ->
  grows a a' /\ calls_run ord fuel dbg [] (a_world a) = (a_world a', Val tt).
Proof. intros H. apply pure_val in H as [-> _]. split; [apply grows_refl|reflexivity]. Qed.
Lemma out_run_app cs1 cs2 w w1 w2 : calls_run ord fuel dbg cs1 w = (w1, Val tt) -> calls_run ord fuel dbg cs2 w1 = (w2, Val tt) ->
  calls_run ord fuel dbg (cs1 ++ cs2) w = (w2, Val tt).
Proof. intros H1 H2. rewrite calls_run_app, H1. exact H2. Qed.

Lemma out_group i l parent a a' o : parse_group L ord fuel dbg i (NMap l) parent a = (a', Val o) ->
  match o with
  | None => unusable_group (known (a_world a)) (match parent with None => true | Some _ => false end) (NMap l) /\
      a_world a' = a_world a /\ points_at (failed a') i (NMap l)
  | Some t => exists e, ~ unusable_group (known (a_world a)) (match parent with None => true | Some _ => false end) (NMap l) /\
      entry_from L (warned a') (failed a') (known (a_world a)) (NMap l) e /\ e_parent e = parent /\ t = e_name e /\
      calls_run ord fuel dbg (entry_calls (match find (gmap (w_sys (a_world a))) (e_name e) with None => true | Some _ => false end) e)
        (a_world a) = (a_world a', Val tt)
  end.
Proof.
  intros H. unfold parse_group in H.
  inv_bind H a1 nm E1. set (tmp := match nm with Some t => _ | None => _ end) in *.
  inv_bind H a2 fb E2. inv_bind H a3 sk E3. inv_bind H a4 nl E4. inv_bind H a5 lv E5. inv_bind H a6 bc E6. inv_bind H a7 u E7.
  inv_bind H a8 v E8.
  (* the complaint about a group *)
  assert (PT : forall (f : string -> Prop) line, (nm = None -> get (NMap l) "name" = None \/ no_scalar (NMap l) "name") ->
     (forall t, nm = Some t -> get (NMap l) "name" = Some (NScalar t)) ->
     mentions line tmp -> (forall s, mentions line s -> f s) -> points_at f i (NMap l)).
  { intros f line N1 N2 (p & q & ->) Hf. unfold tmp in *. destruct nm as [t|].
    - right. exists t. split; auto. apply Hf. exists (p +++ "'"), ("'" +++ q). rewrite !append_assoc. cbn. reflexivity.
    - left. apply Hf. exists (p +++ "node "), q. rewrite !append_assoc. cbn. reflexivity. }
  assert (W1 : a_world a1 = a_world a) by (revert E1; match goal with |- ?m _ = _ -> _ => let E := fresh in intros E; apply (proj1 ((ltac:(mono) : local m) _ _ _ E)) end).
  assert (W2 : a_world a2 = a_world a1) by (revert E2; match goal with |- ?m _ = _ -> _ => let E := fresh in intros E; apply (proj1 ((ltac:(mono) : local m) _ _ _ E)) end).
  assert (W3 : a_world a3 = a_world a2) by (revert E3; match goal with |- ?m _ = _ -> _ => let E := fresh in intros E; apply (proj1 ((ltac:(mono) : local m) _ _ _ E)) end).
  assert (W4 : a_world a4 = a_world a3) by (revert E4; match goal with |- ?m _ = _ -> _ => let E := fresh in intros E; apply (proj1 ((ltac:(mono) : local m) _ _ _ E)) end).
  assert (W5 : a_world a5 = a_world a4) by (apply local_parse_level in E5; apply E5).
  assert (W6 : a_world a6 = a_world a5) by (revert E6; match goal with |- ?m _ = _ -> _ => let E := fresh in intros E; apply (proj1 ((ltac:(mono) : local m) _ _ _ E)) end).
  assert (W7 : a_world a7 = a_world a6) by (apply local_check_keys in E7; apply E7).
  assert (W8 : a_world a8 = a_world a7) by (revert E8; match goal with |- ?m _ = _ -> _ => let E := fresh in intros E; apply (proj1 ((ltac:(mono) : local m) _ _ _ E)) end).
  assert (G2 : grows a1 a2) by (revert E2; match goal with |- ?m _ = _ -> _ => apply (ltac:(mono) : mono m) end).
  assert (G3 : grows a2 a3) by (revert E3; match goal with |- ?m _ = _ -> _ => apply (ltac:(mono) : mono m) end).
  assert (G4 : grows a3 a4) by (revert E4; match goal with |- ?m _ = _ -> _ => apply (ltac:(mono) : mono m) end).
  assert (G5 : grows a4 a5) by (eapply mono_parse_level; exact E5).
  assert (G6 : grows a5 a6) by (revert E6; match goal with |- ?m _ = _ -> _ => apply (ltac:(mono) : mono m) end).
  assert (G7 : grows a6 a7) by (eapply mono_check_keys; exact E7).
  assert (G8 : grows a7 a8) by (revert E8; match goal with |- ?m _ = _ -> _ => apply (ltac:(mono) : mono m) end).
  assert (G9 : grows a8 a') by (revert H; match goal with |- ?m _ = _ -> _ => apply (ltac:(mono) : mono m) end).
  assert (Ga7 := grows_trans _ _ _ G8 G9). assert (Ga6 := grows_trans _ _ _ G7 Ga7). assert (Ga5 := grows_trans _ _ _ G6 Ga6).
  assert (Ga4 := grows_trans _ _ _ G5 Ga5). assert (Ga3 := grows_trans _ _ _ G4 Ga4). assert (Ga2 := grows_trans _ _ _ G3 Ga3).
  assert (Ga1 := grows_trans _ _ _ G2 Ga2).
  set (root := match parent with None => true | Some _ => false end).
  (* what was read *)
  assert (RN : match nm with Some t => get (NMap l) "name" = Some (NScalar t)
               | None => no_scalar (NMap l) "name" /\ points_at (failed a1) i (NMap l) end).
  { destruct (get (NMap l) "name") as [[|t|x|x]|] eqn:EN.
    2: now apply pure_val in E1 as [-> ->].
    all: (pose proof (bind_say_pure _ _ _ _ _ _ _ E1) as ->; split; [intros t' Q; congruence|]; left; said; var). }
  assert (PF : forall line, mentions line tmp -> forall b, (exists b0 r, say true false line b0 = (b, r)) -> grows b a' ->
     points_at (failed a') i (NMap l)).
  { intros line M b (b0 & r & S) G. eapply (PT (failed a') line).
    - intros ->. right. apply RN.
    - intros t ->. exact RN.
    - exact M.
    - intros s Ms. eapply failed_grows; [exact G|]. eapply say_failed; [exact S|exact Ms]. }
  assert (RF : match fb with
               | Some b => setting (NMap l) "is_fallback" (fun t b => as_bool L t = Some b) false b
               | None => (exists x, get (NMap l) "is_fallback" = Some x /\ forall t, x <> NScalar t) /\ points_at (failed a') i (NMap l)
               end).
  { rewrite ?setting_cases. destruct (get (NMap l) "is_fallback") as [[|t|x|x]|] eqn:EF.
    2: { inv_bind E2 b0 b F. unfold to_bool in F. destruct (as_bool L t) eqn:B; [|discriminate]. apply pure_val in F as [-> ->].
         apply pure_val in E2 as [-> ->]. rewrite setting_cases. right. exists t. auto. }
    4: { apply pure_val in E2 as [-> ->]. rewrite setting_cases. left. auto. }
    all: (pose proof (bind_say_pure _ _ _ _ _ _ _ E2) as ->; inv_bind E2 b0 b F; apply pure_val in E2 as [-> _]; split;
          [eexists; split; [reflexivity|discriminate]|];
          eapply PF; [|do 2 eexists; exact F|exact Ga2]; apply mentions_app, mentions_here). }
  assert (RS : exists s, fst sk = match s, parent with Some k, _ => Some k | None, None => if snd sk then None else Some "*" | None, Some _ => None end /\
                 if snd sk then (exists x, get (NMap l) "sink" = Some x /\ forall t, x = NScalar t -> ~ known (a_world a) t) /\ points_at (failed a') i (NMap l)
                 else setting (NMap l) "sink" (fun t o => o = Some t /\ known (a_world a) t) None s).
  { destruct (get (NMap l) "sink") as [[|t|x|x]|] eqn:ES.
    2: { inv_bind E3 b0 k F. inversion F; subst b0 k.
         assert (KN : find (smap (w_sys (a_world a2))) t = find (smap (w_sys (a_world a))) t) by congruence.
         rewrite KN in E3. destruct (find (smap (w_sys (a_world a))) t) as [k|] eqn:K in E3.
         - apply pure_val in E3 as [-> ->]. exists (Some t). split; [reflexivity|]. cbn [snd]. rewrite setting_cases. right.
           exists t. unfold known. rewrite K. split; [auto|]. split; [auto|discriminate].
         - pose proof (bind_say_pure _ _ _ _ _ _ _ E3) as ->. inv_bind E3 b0 b F'. apply pure_val in E3 as [-> _].
           exists (Some t). split; [reflexivity|]. cbn [snd]. split.
           + eexists. split; [reflexivity|]. intros t' Q. inversion Q; subst. unfold known. rewrite K. auto.
           + eapply PF; [|do 2 eexists; exact F'|exact Ga3].
             apply (mentions_app "E: Sink '"), mentions_app, (mentions_app "' of group "), mentions_here. }
    4: { apply pure_val in E3 as [-> ->]. exists None. cbn [fst snd]. split; [now destruct parent|]. rewrite setting_cases. left. auto. }
    all: (pose proof (bind_say_pure _ _ _ _ _ _ _ E3) as ->; inv_bind E3 b0 b F; apply pure_val in E3 as [-> _]; exists None;
          cbn [fst snd]; split; [now destruct parent|]; split;
          [eexists; split; [reflexivity|discriminate]|];
          eapply PF; [|do 2 eexists; exact F|exact Ga3]; apply mentions_app, mentions_here). }
  assert (RL : if nl then (root = true /\ get (NMap l) "level" = None) /\ points_at (failed a') i (NMap l)
               else root = true -> get (NMap l) "level" <> None).
  { unfold root. destruct (get (NMap l) "level") eqn:EL; [apply pure_val in E4 as [-> ->]; intros _; discriminate|].
    destruct parent; [apply pure_val in E4 as [-> ->]; discriminate|].
    pose proof (bind_say_pure _ _ _ _ _ _ _ E4) as ->. inv_bind E4 b0 b F. apply pure_val in E4 as [-> _]. split; [auto|].
    eapply PF; [|do 2 eexists; exact F|exact Ga4]. apply mentions_app, mentions_self. }
  assert (RC : if bc then (exists x, get (NMap l) "children" = Some x /\ x <> NNull /\ forall c, x <> NSeq c) /\ points_at (failed a') i (NMap l)
               else get (NMap l) "children" = None \/ get (NMap l) "children" = Some NNull \/ exists c, get (NMap l) "children" = Some (NSeq c)).
  { destruct (get (NMap l) "children") as [[|t|x|x]|] eqn:EC.
    1,3,5: (apply pure_val in E6 as [-> ->]; eauto).
    all: (pose proof (bind_say_pure _ _ _ _ _ _ _ E6) as ->; inv_bind E6 b0 b F; apply pure_val in E6 as [-> _]; split;
          [eexists; split; [reflexivity|split; discriminate]|];
          eapply PF; [|do 2 eexists; exact F|exact Ga6]; apply mentions_app, mentions_here). }
  (* the decision *)
  assert (SKIP : forall P : Prop, (P -> a_world a' = a_world a8 /\ o = None) -> P ->
    unusable_group (known (a_world a)) root (NMap l) -> points_at (failed a') i (NMap l) ->
    match o with None => unusable_group (known (a_world a)) root (NMap l) /\ a_world a' = a_world a /\ points_at (failed a') i (NMap l)
    | Some t => exists e, ~ unusable_group (known (a_world a)) root (NMap l) /\
      entry_from L (warned a') (failed a') (known (a_world a)) (NMap l) e /\ e_parent e = parent /\ t = e_name e /\
      calls_run ord fuel dbg (entry_calls (match find (gmap (w_sys (a_world a))) (e_name e) with None => true | Some _ => false end) e)
        (a_world a) = (a_world a', Val tt) end).
  { intros P HP p U Q. destruct (HP p) as [Wo ->]. split; auto. split; auto. congruence. }
  assert (BAD : forall line (b : app) r, (warning line ;;; pure (@None string)) a8 = (b, Val r) -> a_world b = a_world a8 /\ r = None).
  { intros line b r Q. inversion Q. auto. }
  destruct nm as [name|].
  2: { apply (SKIP True); auto; [intros _; eapply BAD; exact H| |].
       - apply ug_name, RN. - eapply points_weaken; [|apply RN]. intros s. apply failed_grows, Ga1. }
  destruct fb as [fb|].
  2: { destruct RF as [(x & Q1 & Q2) Q3]. apply (SKIP True); auto; [intros _; eapply BAD; exact H|]. eapply ug_fallback; eauto. }
  destruct RS as (s & RS1 & RS2). destruct (snd sk).
  { destruct RS2 as [(x & Q1 & Q2) Q3]. apply (SKIP True); auto; [intros _; eapply BAD; exact H|]. eapply ug_sink; eauto. }
  destruct nl.
  { destruct RL as [(Q1 & Q2) Q3]. apply (SKIP True); auto; [intros _; eapply BAD; exact H|]. now apply ug_level. }
  destruct bc.
  { destruct RC as [(x & Q1 & Q2 & Q3) Q4]. apply (SKIP True); auto; [intros _; eapply BAD; exact H|]. eapply ug_children; eauto. }
  cbn [orb] in H. destruct (String.eqb_spec name "*") as [->|NS].
  { apply (SKIP True); auto.
    - intros _. inversion H. auto.
    - now apply ug_star.
    - right. exists "*". split; auto. inv_bind H b0 b F. apply pure_val in H as [-> _]. eapply say_failed; [exact F|]. lit. }
  (* made *)
  inv_bind H b g F. inversion F; subst b g. inv_bind H b1 u1 F1. inv_bind H b2 u2 F2. apply pure_val in H as [-> ->].
  set (e := mkEntry parent name fb s lv). exists e.
  assert (ES : fst sk = entry_sink e) by (unfold entry_sink, e; cbn; rewrite RS1; now destruct s, parent).
  split; [|split; [|split; [reflexivity|split; [reflexivity|]]]].
  - intros U. inversion U as [Q|Q|Q|x Q Q'|x Q Q'|Q Q'|x Q Q' Q''].
    + eapply Q; reflexivity.
    + eapply Q; exact RN.
    + congruence.
    + apply setting_cases in RF as [[Z _]|(t & Z & _)]; [congruence|]. apply (Q' t). congruence.
    + apply setting_cases in RS2 as [[Z _]|(t & Z & _ & Z')]; [congruence|]. eapply (Q' t); [congruence|exact Z'].
    + now apply RL.
    + destruct RC as [Z|[Z|[c Z]]]; congruence.
  - split; [exact RN|]. split; [exact NS|]. split; [exact RF|]. split; [exact RS2|]. split; [|split].
    + eapply level_weaken; [..|eapply out_level; exact E5]; intros s'; [apply warned_grows|apply failed_grows]; exact Ga5.
    + intros Q. apply RL. unfold root. cbn in Q. now rewrite Q.
    + eapply keys_weaken; [intros s'; apply warned_grows, Ga7|]. eapply out_keys; [|exact E7]. intros t. cbn. var.
  - assert (WW : a_world a8 = a_world a) by congruence. rewrite WW in *. unfold entry_calls. cbn [e_name e_fallback e_parent e_level e].
    eapply out_run_app.
    + destruct (find (gmap (w_sys (a_world a))) name) as [g|] eqn:EG in F1 |- *.
      * inv_bind F1 c1 v1 C1. inv_bind F1 c2 v2 C2. fold e.
        assert (R1 : calls_run ord fuel dbg (match parent with Some p => [SetParentOfGroup name p] | None => [] end) (a_world a) = (a_world c1, Val tt)).
        { destruct parent; [apply out_call in C1|apply out_pure in C1]; rewrite <- WW; apply C1. }
        assert (R2 : calls_run ord fuel dbg (match entry_sink e with Some k => [SetSinkOfGroup name k] | None => [] end) (a_world c1) = (a_world c2, Val tt)).
        { rewrite <- ES. destruct (fst sk); [apply out_call in C2|apply out_pure in C2]; apply C2. }
        assert (R3 : calls_run ord fuel dbg (match lv with Some l => [SetLevelOfGroup name l] | None => [] end) (a_world c2) = (a_world b1, Val tt)).
        { destruct lv; [apply out_call in F1|apply out_pure in F1]; apply F1. }
        eapply out_run_app; [exact R1|]. eapply out_run_app; [exact R2|exact R3].
      * fold e. apply out_call in F1 as [_ F1]. rewrite WW, ES in F1. exact F1.
    + destruct fb; [apply out_call in F2|apply out_pure in F2]; apply F2.
Qed.

Lemma entry_from_weaken (f g f' g' : string -> Prop) K n e : (forall s, f s -> g s) -> (forall s, f' s -> g' s) ->
  entry_from L f f' K n e -> entry_from L g g' K n e.
Proof.
  intros H H' (A1 & A2 & A3 & A4 & A5 & A6 & A7). unfold entry_from. repeat match goal with |- _ /\ _ => split end; auto.
  - eapply level_weaken; eauto.
  - eapply keys_weaken; eauto.
Qed.

Section Lists.
Variable final : app.
Variable m0 : list (string * nat).
Notation K := (fun t => find m0 t <> None).
Definition lists_done (p : option string) (i : nat) (l : list node) (a a' : app) : Prop :=
  smap (w_sys (a_world a)) = m0 -> grows a' final ->
  groups_done L (warned final) (failed final) ord fuel dbg K (a_world a) p i l (a_world a') /\ smap (w_sys (a_world a')) = m0.

Lemma out_group_list ch : (forall c p, mono (ch c p)) ->
  (forall c p a a', ch (NSeq c) p a = (a', Val tt) -> lists_done p 0 c a a') ->
  forall l i p a a', parse_group_list L ord fuel dbg ch i l p a = (a', Val tt) -> lists_done p i l a a'.
Proof.
  intros CM CH. induction l as [|n l IH]; intros i p a a' H M GF; cbn [parse_group_list] in H.
  - apply pure_val in H as [-> _]. split; [apply gs_nil|exact M].
  - inv_bind H a2 u E. destruct u.
    assert (G2 : grows a2 a') by (eapply mono_parse_group_list; [exact CM|exact H]).
    assert (G2f := grows_trans _ _ _ G2 GF).
    apply IH in H. destruct n as [|t|x|x].
    1-3: (assert (a_world a2 = a_world a) as W by (inversion E; reflexivity); unfold lists_done in H; rewrite W in H;
          destruct (H M GF) as [H1 H2]; split; [|exact H2]; apply gs_skip; [apply ug_map; discriminate| |exact H1];
          left; apply (failed_grows a2); [exact G2f|]; eapply say_failed; [exact E|var]).
    inv_bind E a1 o E1. pose proof E1 as Q. apply out_group in Q.
    assert (KK : known (a_world a) = K) by (unfold known; now rewrite M). rewrite KK in Q.
    assert (G1 : grows a1 a2).
    { revert E. destruct o, (get (NMap x) "children") as [[| | |]|]; intros E; try (apply pure_val in E as [-> _]; apply grows_refl).
      eapply CM; exact E. }
    assert (G1f := grows_trans _ _ _ G1 G2f).
    destruct o as [t|].
    + destruct Q as (e & U & EF & EP & -> & R).
      assert (M1 : smap (w_sys (a_world a1)) = m0).
      { rewrite <- M. apply entry_calls_effect in R as (S & _); [exact S|apply EF|].
        destruct (find _ _); discriminate. }
      assert (C : groups_done L (warned final) (failed final) ord fuel dbg K (a_world a1) (Some (e_name e)) 0 (children_of (NMap x)) (a_world a2) /\
                  smap (w_sys (a_world a2)) = m0).
      { unfold children_of. destruct (get (NMap x) "children") as [[| |c|]|].
        3: apply CH in E; apply E; auto.
        all: apply pure_val in E as [-> _]; split; [apply gs_nil|exact M1]. }
      destruct C as [C1 C2]. destruct (H C2 GF) as [H1 H2]. split; [|exact H2].
      eapply gs_made; [exact U| |exact EP|exact R|exact C1|exact H1].
      eapply entry_from_weaken; [..|exact EF]; intros s; [apply warned_grows|apply failed_grows]; exact G1f.
    + destruct Q as (U & W & P). assert (a2 = a1) as ->.
      { destruct (get (NMap x) "children") as [[| | |]|]; now apply pure_val in E. }
      unfold lists_done in H. rewrite W in H. destruct (H M GF) as [H1 H2]. split; [|exact H2].
      apply gs_skip; [exact U| |exact H1]. eapply points_weaken; [|exact P]. intros s. now apply failed_grows.
Qed.

Lemma out_groups f : forall l p a a', parse_groups L ord fuel dbg f (NSeq l) p a = (a', Val tt) -> lists_done p 0 l a a'.
Proof.
  induction f as [|f IH]; intros l p a a' H; [discriminate|]. cbn [parse_groups] in H.
  eapply out_group_list; [| |exact H].
  - intros. apply mono_parse_groups.
  - intros c q b b' Hb. eapply IH; exact Hb.
Qed.
End Lists.

Lemma out_doc n a a' : parse L ord fuel dbg n a = (a', Val tt) ->
  doc_done L (warned a') (failed a') ord fuel dbg (a_world a) n (a_world a').
Proof.
  intros H. unfold parse in H. destruct n as [|t|x|l].
  1-3: (apply dd_map; [discriminate|eapply say_failed; [exact H|]; lit|inversion H; reflexivity]).
  inv_bind H a1 u E1. inv_bind H a2 v E2. inv_bind H a3 y E3.
  assert (W1 : a_world a1 = a_world a) by (destruct (get (NMap l) "groups"); inversion E1; reflexivity).
  assert (W2 := proj1 (local_check_keys _ _ _ _ _ _ _ E2)).
  assert (G2 : grows a1 a2) by (eapply mono_check_keys; exact E2).
  assert (G3 : grows a2 a3).
  { revert E3. match goal with |- ?m _ = _ -> _ => apply (ltac:(mono) : mono m) end. }
  assert (G4 : grows a3 a').
  { revert H. match goal with |- ?m _ = _ -> _ => apply (ltac:(mono) : mono m) end. }
  assert (WW : a_world a2 = a_world a) by congruence.
  apply dd_doc with (a_world a3).
  - eapply keys_weaken; [intros s; apply warned_grows, (grows_trans _ _ _ G3 G4)|].
    eapply out_keys; [|exact E2]. intros t. var.
  - destruct (get (NMap l) "sinks") as [[|t|x|x]|].
    3: { rewrite <- WW. destruct y. eapply out_sink_list; [exact E3|exact G4]. }
    4: apply pure_val in E3 as [-> _]; exact WW.
    all: (split; [rewrite <- WW; inversion E3; reflexivity|]; apply (failed_grows a3 _ _ G4); eapply say_failed; [exact E3|]; lit).
  - destruct (get (NMap l) "groups") as [[|t|g|g]|].
    3: { apply out_groups with (final := a') (m0 := smap (w_sys (a_world a3))) in H. apply H; auto. apply grows_refl. }
    4: { apply pure_val in H as [-> _]. split; auto. apply (failed_grows a1 a3 _ (grows_trans _ _ _ G2 G3)).
         eapply say_failed; [exact E1|]. lit. }
    all: (split; [inversion H; reflexivity|]; eapply say_failed; [exact H|]; lit).
Qed.

(** The configurator. *)
Theorem any_document n src w w' r : src = FromContent (inl n) \/ (exists p, src = FromFile p (inl n)) ->
  yaml L ord fuel dbg None src w = (w', Val r) ->
  doc_done L (warns r) (fails r) ord fuel dbg w n w'.
Proof.
  intros Hs H.
  assert (E : exists a, parse L ord fuel dbg n (mkApp w [] false false) = (a, Val tt) /\ w' = a_world a /\
    r = mkResult (a_err a) (a_warn a) (if a_err a || a_warn a then "I: Some problems are found in config:" :: a_lines a else [])).
  { destruct Hs as [->|([p|p] & ->)]; unfold yaml in H; cbn [load] in H; unfold bind at 1 in H; cbn [pure] in H;
      destruct (parse L ord fuel dbg n (mkApp w [] false false)) as [a [[]|e|]]; inversion H; subst; exists a; auto. }
  destruct E as (a & P & -> & ->). apply out_doc in P. cbn [a_world] in P.
  set (r := mkResult _ _ _).
  assert (FW : forall s, warned a s -> warns r s).
  { intros s (A & line & I & M). split; [exact A|]. exists line. split; auto. cbn. rewrite A, orb_true_r. now right. }
  assert (FE : forall s, failed a s -> fails r s).
  { intros s (A & line & I & M). split; [exact A|]. exists line. split; auto. cbn. rewrite A. now right. }
  inversion P as [NM F ->|w1 K S G].
  - apply dd_map; auto.
  - apply dd_doc with w1.
    + eapply keys_weaken; [exact FW|exact K].
    + destruct (get n "sinks") as [[|t|x|x]|]; auto.
      1,2,4: destruct S; auto.
      clear - S FW FE UL RH. induction S; [apply sd_nil|apply sd_silent|apply sd_skip|eapply sd_made]; eauto.
      * eapply points_weaken; eauto.
      * eapply sink_from_weaken; [exact FW|exact FE|eauto].
    + destruct (get n "groups") as [[|t|g|g]|]; auto.
      1,2,4,5: destruct G; auto.
      clear - G FW FE UL RH. revert G. generalize (fun t => find (smap (w_sys w1)) t <> None). intros K G.
      induction G; [apply gs_nil|apply gs_skip|eapply gs_made]; eauto.
      * eapply points_weaken; eauto.
      * eapply entry_from_weaken; [exact FW|exact FE|eauto].
Qed.
End Out.
