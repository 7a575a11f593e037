(** * Reading single properties and sinks without complaint *)
From Coq Require Import String List Arith ZArith NArith Bool Lia.
From Verif Require Import Base LevelModel EventModel SysModel YamlModel YamlSpec YamlFacts.
Import ListNotations.
Local Open Scope string_scope.
Local Open Scope list_scope.

Lemma setting_cases {A} n key means (d v : A) :
  setting n key means d v <->
  (get n key = None /\ v = d) \/ (exists t, get n key = Some (NScalar t) /\ means t v).
Proof.
  split.
  - intros [H|t v0 H M]; [left|right]; eauto.
  - intros [[H ->]|(t & H & M)]; [now constructor|]. eapply is_set; eauto.
Qed.

(** How a property given by a scalar, or not at all, is read. *)
Lemma reader_setting {A} n key (def : A) (line : string) (f : string -> M A) means :
  (forall t, reader (f t) (fun _ v => means t v)) ->
  reader (match get n key with
          | None => pure def
          | Some (NScalar t) => f t
          | Some _ => warning line ;;; pure def
          end) (fun _ v => setting n key means def v).
Proof.
  intros Hf. destruct (get n key) as [[|t|l|l]|] eqn:E.
  1,3,4: (eapply reader_iff; [apply reader_complain; [reflexivity|apply mono_pure]|];
       intros w x; rewrite setting_cases, E; split; [contradiction|]; intros [[H _]|(t & H & _)]; discriminate).
  - eapply reader_iff; [apply Hf|]. intros w x. rewrite setting_cases, E. cbn. split.
    + intros H. right. exists t. auto.
    + intros [[H _]|(t' & H & M)]; [discriminate|]. now inversion H; subst.
  - eapply reader_iff; [apply reader_pure|]. intros w x. rewrite setting_cases, E. cbn. split.
    + intros ->. auto.
    + intros [[_ H]|(t & H & _)]; [auto|discriminate].
Qed.

Ltac streq t :=
  repeat match goal with
  | |- context [String.eqb t ?s] => destruct (String.eqb_spec t s); subst
  end.

(** Reading by a chain of comparisons. *)
Lemma reader_val {A} (v : A) (P : world -> A -> Prop) : (forall w x, P w x <-> x = v) -> reader (pure v) P.
Proof. intros H. eapply reader_iff; [apply reader_pure|]. intros w x. symmetry. apply H. Qed.
Lemma reader_bad {A} e w l (m : M A) (P : world -> A -> Prop) :
  e || w = true -> mono m -> (forall w x, ~ P w x) -> reader (say e w l ;;; m) P.
Proof.
  intros. eapply reader_iff; [apply reader_complain; auto|]. intros w' x. split; [contradiction|].
  intros Hx. now apply H1 in Hx.
Qed.

Lemma to_size_small z : (0 <= z < 2 ^ 63)%Z -> to_size z = Z.to_N z.
Proof. intros H. unfold to_size. rewrite Z.mod_small; auto. lia. Qed.
Lemma to_size_negative z : (- 2 ^ 31 <= z < 0)%Z -> (2 ^ 63 <= to_size z)%N.
Proof.
  intros H. unfold to_size.
  assert (z mod 2 ^ 64 = z + 2 ^ 64)%Z as ->.
  { symmetry. apply Z.mod_unique with (q := (-1)%Z); [left|]; lia. }
  lia.
Qed.

Section Read.
Variable L : lib.
Hypothesis UL : usual_lib L.
Variable ord : list nat -> list nat.
Variable fuel : nat.
Variable dbg : bool.

Lemma reader_to_bool t : reader (to_bool L t) (fun _ b => as_bool L t = Some b).
Proof.
  unfold to_bool. destruct (as_bool L t).
  - apply reader_val. intros w x. split; congruence.
  - apply reader_throw. discriminate.
Qed.
Lemma reader_to_int t : reader (to_int L t) (fun _ b => as_int L t = Some b).
Proof.
  unfold to_int. destruct (as_int L t).
  - apply reader_val. intros w x. split; congruence.
  - apply reader_throw. discriminate.
Qed.

Lemma reader_color n : reader (parse_color L n) (fun _ v => setting n "color" (fun t b => as_bool L t = Some b) false v).
Proof. apply reader_setting. exact reader_to_bool. Qed.

Lemma reader_stream n : reader (parse_stream n) (fun _ v => setting n "stream" means_stream STDOUT v).
Proof.
  apply reader_setting. intros t. streq t.
  - apply reader_val. intros w x. split; [intros H; now inversion H|intros ->; constructor].
  - apply reader_val. intros w x. split; [intros H; now inversion H|intros ->; constructor].
  - apply reader_bad; [reflexivity|apply mono_pure|]. intros w x H. inversion H; congruence.
Qed.

Lemma reader_thread nm n : reader (parse_thread nm n) (fun _ v => setting n "thread" means_thread TI_NONE v).
Proof.
  apply reader_setting. intros t. streq t.
  1-3: apply reader_val; intros w x; split; [intros H; now inversion H|intros ->; constructor].
  apply reader_bad; [reflexivity|apply mono_pure|]. intros w x H. inversion H; congruence.
Qed.

(** The level.  The targets of messages do not matter. *)
Lemma reader_level tg n : reader (parse_level L tg n) (fun _ v => setting n "level" (means_level L) None v).
Proof.
  unfold parse_level. destruct (get n "level") as [[|t|l|l]|] eqn:E.
  1,3,4: (apply reader_bad; [reflexivity|apply mono_pure|]; intros w x; rewrite setting_cases, E;
          intros [[H _]|(t & H & _)]; discriminate).
  - assert (S : forall v, setting n "level" (means_level L) None v <-> means_level L t v).
    { intros v. rewrite setting_cases, E. split.
      - intros [[H _]|(t' & H & M)]; [discriminate|]. now inversion H; subst.
      - intros M. right. eauto. }
    eapply reader_iff with (P := fun _ v => means_level L t v); [|intros; symmetry; apply S].
    clear S E n. unfold debug_disabled, trace_disabled.
    assert (plain : forall l, level_name t l -> l <> DEBUG -> l <> TRACE ->
              (forall l', level_name t l' -> l' = l) -> reader (pure (Some l)) (fun (_ : world) v => means_level L t v)).
    { intros l H N1 N2 U. apply reader_val. intros w x. split.
      - intros (v & -> & Hv & _). f_equal. auto.
      - intros ->. exists l. repeat split; auto; contradiction. }
    streq t; cbn [orb].
    all: try (apply plain; [constructor|discriminate|discriminate|intros ? H; now inversion H]).
    1,2: destruct (without_debug L && without_trace L) eqn:W;
         [ eapply reader_iff; [apply reader_complain; [reflexivity|apply mono_pure]|];
           intros w x; split; [contradiction|]; intros (v & -> & Hv & H & _); inversion Hv; subst;
           apply andb_prop in W; apply H; auto
         | eapply reader_iff; [apply (reader_bind (pure tt) _ (fun _ _ => True) (fun _ _ y => y = Some DEBUG));
             [apply reader_val; intros w []; split; auto | intros; apply mono_pure | intros; apply reader_pure]|];
           intros w x; split;
           [ intros (_ & _ & ->); exists DEBUG; repeat split; [constructor| |discriminate];
             intros _ [W1 W2]; now rewrite W1, W2 in W
           | intros (v & -> & Hv & _); exists tt; split; auto; now inversion Hv ] ].
    + destruct (without_trace L) eqn:W.
      * eapply reader_iff; [apply reader_complain; [reflexivity|apply mono_pure]|].
        intros w x; split; [contradiction|]. intros (v & -> & Hv & _ & H). inversion Hv; subst. now rewrite H in W.
      * eapply reader_iff; [apply (reader_bind (pure tt) _ (fun _ _ => True) (fun _ _ y => y = Some TRACE));
             [apply reader_val; intros w []; split; auto | intros; apply mono_pure | intros; apply reader_pure]|].
        intros w x; split.
        -- intros (_ & _ & ->). exists TRACE. repeat split; auto; try constructor. discriminate.
        -- intros (v & -> & Hv & _). exists tt. split; auto. now inversion Hv.
    + eapply reader_iff; [apply reader_complain; [reflexivity|apply mono_pure]|].
      intros w x; split; [contradiction|]. intros (v & -> & Hv & _). inversion Hv; congruence.
  - apply reader_val. intros w x. rewrite setting_cases, E. split.
    + intros [[_ H]|(t & H & _)]; [auto|discriminate].
    + auto.
Qed.

Lemma reader_sink_level nm n : reader (sink_level L nm n) (fun _ v => sink_level_read L n v).
Proof.
  eapply reader_iff; [eapply reader_bind; [apply reader_level| intros; apply mono_pure|]|].
  - intros x. apply (reader_pure (match x with Some l => l | None => TRACE end)).
  - intros w x. unfold sink_level_read. cbn. split; intros (o & H1 & H2); exists o; auto.
Qed.

(** Numbers. *)
Definition raw_number (good : string -> Z -> bool) (t : string) (o : option N) : Prop :=
  exists z, as_int L t = Some z /\ good t z = true /\ o = Some (to_size z).

Lemma reader_number key wrong good nm n :
  reader (parse_number L key wrong good nm n) (fun _ v => setting n key (raw_number good) None v).
Proof.
  unfold parse_number. apply reader_setting. intros t.
  eapply reader_iff; [eapply (reader_bind _ _ _ (fun _ z y => good t z = true /\ y = Some (to_size z)));
    [apply reader_to_int| |]|].
  - intros z. destruct (good t z); [apply mono_pure|]. apply mono_bind; [apply mono_say|intros; apply mono_pure].
  - intros z. destruct (good t z).
    + apply reader_val. intros w x. split; [now intros [_ H]|auto].
    + apply reader_bad; [reflexivity|apply mono_pure|]. intros w x [H _]. discriminate.
  - intros w x. unfold raw_number. split.
    + intros (z & H1 & H2 & H3). exists z. auto.
    + intros (z & H1 & H2 & H3). exists z. auto.
Qed.

Lemma raw_good (good : string -> Z -> bool) (ok : string -> Z -> Prop) key n v :
  (forall t z, good t z = true <-> ok t z) -> (forall t z, ok t z -> (0 <= z)%Z) ->
  setting n key (raw_number good) None v <-> setting n key (means_number L ok) None v.
Proof.
  intros H P. rewrite !setting_cases. unfold raw_number, means_number.
  enough (E : forall t o, (exists z, as_int L t = Some z /\ good t z = true /\ o = Some (to_size z)) <->
                          (exists z, as_int L t = Some z /\ ok t z /\ o = Some (Z.to_N z))).
  { split; (intros [HH|(t & H1 & H2)]; [now left|right; exists t; split; auto; now apply E]). }
  intros t o. split; intros (z & H1 & H2 & ->); exists z.
  - apply H in H2. repeat split; auto. f_equal. apply to_size_small.
    pose proof (ul_int _ UL _ _ H1). pose proof (P _ _ H2). lia.
  - repeat split; auto; [now apply H|]. f_equal. symmetry. apply to_size_small.
    pose proof (ul_int _ UL _ _ H1). pose proof (P _ _ H2). lia.
Qed.

Definition raw_buffer (t : string) (z : Z) : bool := (event_size L * 4 <=? to_size z)%N.

(** The sizes; the buffer as the code understands it. *)
Definition sizes_raw (console : bool) (n : node) (z : sizes) : Prop :=
  setting n "capacity" (means_number L good_capacity) None (z_capacity z) /\
  setting n "buffer" (raw_number raw_buffer) None (z_buffer z) /\
  setting n "max_message_length" (means_number L (good_message console)) None (z_message z) /\
  setting n "latency" (means_number L good_latency) None (z_latency z).

Lemma sizes_raw_read c n z : sizes_read L c n z -> sizes_raw c n z.
Proof.
  intros (H1 & H2 & H3 & H4). repeat split; auto.
  revert H2. rewrite !setting_cases. intros [H|(t & Ht & z0 & A & G & E)]; [now left|].
  right. exists t. split; auto. exists z0. unfold good_buffer in G.
  pose proof (ul_int _ UL _ _ A). pose proof (ul_event _ UL).
  assert (to_size z0 = Z.to_N z0) as T by (apply to_size_small; lia).
  repeat split; auto.
  - unfold raw_buffer. rewrite T. apply N.leb_le. lia.
  - now rewrite T.
Qed.
Lemma sizes_read_raw c n z : sizes_raw c n z -> (forall b, z_buffer z = Some b -> (b < 2 ^ 63)%N) -> sizes_read L c n z.
Proof.
  intros (H1 & H2 & H3 & H4) S. repeat split; auto.
  revert H2. rewrite !setting_cases. intros [H|(t & Ht & z0 & A & G & E)]; [now left|].
  right. exists t. split; auto. exists z0. unfold good_buffer.
  pose proof (ul_int _ UL _ _ A). pose proof (ul_event _ UL). specialize (S _ E).
  destruct (Z_lt_ge_dec z0 0) as [N0|N0].
  { pose proof (to_size_negative z0 ltac:(lia)). lia. }
  assert (to_size z0 = Z.to_N z0) as T by (apply to_size_small; lia).
  unfold raw_buffer in G. rewrite T in *. apply N.leb_le in G. repeat split; auto. lia.
Qed.

Lemma reader_sizes c nm n : reader (parse_sizes L c nm n) (fun _ z => sizes_raw c n z).
Proof.
  unfold parse_sizes, parse_capacity, parse_buffer, parse_message, parse_latency.
  eapply reader_iff.
  - eapply reader_bind; [apply reader_number|intros; mono; apply mono_parse_number|]. intros cap.
    eapply reader_bind; [apply reader_number|intros; mono; apply mono_parse_number|]. intros buf.
    eapply reader_bind; [apply reader_number|intros; mono; apply mono_parse_number|]. intros msg.
    eapply reader_bind; [apply reader_number|intros; mono; apply mono_parse_number|]. intros lat.
    apply reader_pure.
  - intros w z. unfold sizes_raw.
    assert (C : forall v, setting n "capacity" (raw_number (fun _ z => (4 <=? z)%Z)) None v <->
                          setting n "capacity" (means_number L good_capacity) None v).
    { intros v. apply raw_good; unfold good_capacity; intros; [|lia]. apply Z.leb_le. }
    assert (Ms : forall v, setting n "max_message_length" (raw_number (fun _ z => if c then (64 <? z)%Z else (64 <=? z)%Z)) None v <->
                          setting n "max_message_length" (means_number L (good_message c)) None v).
    { intros v. apply raw_good; unfold good_message; intros; destruct c; lia. }
    assert (La : forall v, setting n "latency" (raw_number (fun t z => (int_text z =? t) && (0 <=? z)%Z)) None v <->
                          setting n "latency" (means_number L good_latency) None v).
    { intros v. apply raw_good; unfold good_latency; intros; [|lia].
      rewrite andb_true_iff, String.eqb_eq, Z.leb_le. intuition congruence. }
    split.
    + intros (cap & HC & buf & HB & msg & HM & lat & HL & ->). cbn. split; [now apply C|]. split; [exact HB|].
      split; [now apply Ms | now apply La].
    + intros (HC & HB & HM & HL). exists (z_capacity z). split; [now apply C|].
      exists (z_buffer z). split; [exact HB|]. exists (z_message z). split; [now apply Ms|].
      exists (z_latency z). split; [now apply La|]. now destruct z.
Qed.

(** Keys. *)
Lemma reader_keys keys line l : ~ In "null" keys ->
  reader (check_keys L keys line (NMap l)) (fun _ _ => only_keys keys (NMap l)).
Proof.
  intros NN. cbn. eapply reader_iff with (P := fun _ _ => forall k v, In (k, v) l -> exists t, k = NScalar t /\ In t keys).
  2: { intros w x. unfold only_keys. split; [intros H; exists l; auto|]. intros (l' & E & H). inversion E; subst; auto. }
  induction l as [|[k v] l IH]; cbn.
  - apply reader_val. intros w []. split; auto. intros _ ? ? [].
  - assert (K : reader (as_string L k) (fun _ t => k = NScalar t \/ k = NNull /\ null_text L = Some t)).
    { destruct k; cbn.
      - destruct (null_text L).
        + apply reader_val. intros w x. split; [intros [H|[_ H]]; congruence|intros ->; auto].
        + apply reader_throw. intros _ x [H|[_ H]]; discriminate.
      - apply reader_val. intros w x. split; [intros [H|[H _]]; congruence|intros ->; auto].
      - apply reader_throw. intros _ x [H|[H _]]; discriminate.
      - apply reader_throw. intros _ x [H|[H _]]; discriminate. }
    assert (B : forall t, reader (if existsb (String.eqb t) keys then pure tt else warning (line t)) (fun _ _ => In t keys)).
    { intros t. destruct (existsb (String.eqb t) keys) eqn:E.
      - apply reader_val. intros w []. split; auto. intros _. apply existsb_exists in E as (y & Hy & E).
        apply String.eqb_eq in E. now subst.
      - apply reader_say; auto. intros w x Hx. apply not_true_iff_false in E. apply E. apply existsb_exists.
        exists t. split; auto. apply String.eqb_refl. }
    eapply reader_iff.
    + eapply reader_bind; [apply K|intros; mono; auto using mono_check_keys_in|]. intros t.
      eapply (reader_bind _ _ _ (fun _ _ _ => forall k v, In (k, v) l -> exists t, k = NScalar t /\ In t keys));
        [apply B|intros; auto using mono_check_keys_in|]. intros _. exact IH.
    + intros w []. split.
      * intros (t & [->|[-> H]] & [] & I & R).
        -- intros k' v' [E|E]; [inversion E; subst; eauto|eauto].
        -- exfalso. destruct (ul_null _ UL) as [N0|N0]; congruence.
      * intros H. destruct (H k v (or_introl eq_refl)) as (t & -> & I). exists t. split; auto. exists tt. split; auto.
        intros k' v' I'. apply (H k' v'). now right.
Qed.

Lemma reader_warn_existing nm : reader (warn_existing nm) (fun w _ => find (smap (w_sys w)) nm = None).
Proof.
  unfold warn_existing, get_sink, bind. split.
  - intros [] a H. now rewrite H.
  - intros a a' x. destruct (find _ _) eqn:E.
    + intros H [C1 C2]. inversion H; subst. cbn in C2. now rewrite orb_true_r in C2.
    + intros H _. inversion H; auto.
Qed.

Lemma reader_require k nm n : reader (require k nm n) (fun _ o => exists t, get n k = Some (NScalar t) /\ o = Some t).
Proof.
  unfold require. destruct (get n k) as [[|t|l|l]|].
  1,3,4,5: apply reader_bad; [reflexivity|apply mono_pure|]; intros w x (t & H & _); discriminate.
  apply reader_val. intros w x. split; [intros (t' & H & ->); congruence|intros ->; eauto].
Qed.

Lemma reader_as_string k : reader (as_string L k) (fun _ t => k = NScalar t \/ k = NNull /\ null_text L = Some t).
Proof.
  destruct k; cbn.
  - destruct (null_text L).
    + apply reader_val. intros w x. split; [intros [H|[_ H]]; congruence|intros ->; auto].
    + apply reader_throw. intros _ x [H|[_ H]]; discriminate.
  - apply reader_val. intros w x. split; [intros [H|[H _]]; congruence|intros ->; auto].
  - apply reader_throw. intros _ x [H|[H _]]; discriminate.
  - apply reader_throw. intros _ x [H|[H _]]; discriminate.
Qed.
Lemma reader_as_strings l :
  reader (as_strings L l) (fun _ ts => Forall2 (fun x t => x = NScalar t \/ x = NNull /\ null_text L = Some t) l ts).
Proof.
  induction l as [|n l IH]; cbn.
  - apply reader_val. intros w x. split; [intros H; now inversion H|intros ->; constructor].
  - eapply reader_iff.
    + eapply reader_bind; [apply reader_as_string|intros; mono; auto using mono_as_strings|]. intros t.
      eapply reader_bind; [apply IH|intros; mono|]. intros ts. apply reader_pure.
    + intros w x. split.
      * intros (t & H1 & ts & H2 & ->). constructor; auto.
      * intros H. inversion H; subst. eauto 6.
Qed.
Lemma reader_find_members nm l :
  reader (find_members nm l) (fun w ks => Forall2 (fun t k => find (smap (w_sys w)) t = Some k) l ks).
Proof.
  induction l as [|t l IH]; cbn.
  - apply reader_val. intros w x. split; [intros H; now inversion H|intros ->; constructor].
  - assert (G : reader (get_sink t) (fun w k => k = find (smap (w_sys w)) t)).
    { split; [intros x a ->; reflexivity|]. intros a a' x H _. inversion H; auto. }
    eapply reader_iff.
    + eapply (reader_bind _ _ _ (fun w o y => exists k ks, o = Some k /\ y = k :: ks /\
                Forall2 (fun t k => find (smap (w_sys w)) t = Some k) l ks)); [apply G| |].
      * intros [k|]; mono; auto using mono_find_members.
      * intros [k|].
        -- eapply reader_iff; [eapply reader_bind; [apply IH|intros; mono|intros; apply reader_pure]|].
           intros w x. split.
           ++ intros (ks & H & ->). eauto 6.
           ++ intros (k' & ks & E & -> & H). inversion E; subst. eauto.
        -- apply reader_bad; [reflexivity|apply mono_find_members|]. intros w x (k & ks & H & _). discriminate.
    + intros w x. split.
      * intros (o & -> & k & ks & E & -> & H). constructor; auto.
      * intros H. inversion H; subst. eexists. split; [reflexivity|]. eauto 6.
Qed.

End Read.
