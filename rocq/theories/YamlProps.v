(** * The configurator as a whole, any document and outcome *)
From Coq Require Import String List Arith ZArith NArith Bool Lia.
From Verif Require Import Base LevelModel EventModel TreeModel SinkConfig RecordProps SysModel SysSpec SysBase SysInv SysSteps SysFrame SysFuel SysProps SysMore
  YamlModel YamlSpec YamlOutSpec YamlActSpec YamlFacts YamlGroups YamlDoc YamlTree YamlTrace YamlActs.
Import ListNotations.
Local Open Scope string_scope.
Local Open Scope list_scope.

Lemma doc_cases src : (exists n, document src n) \/ (forall n, ~ document src n) /\ doc_size src = 0.
Proof.
  destruct src as [[n|e]|p [n|e]].
  - left. exists n. now left.
  - right. split; auto. intros n [H|[p H]]; discriminate.
  - left. exists n. right. now exists p.
  - right. split; auto. intros n [H|[q H]]; discriminate.
Qed.
Lemma doc_size_eq src n : document src n -> doc_size src = size n.
Proof. intros [->|[p ->]]; reflexivity. Qed.

Section Props.
Variable L : lib.
Variable ord : list nat -> list nat.
Variable fuel : nat.
Variable dbg : bool.
Notation yaml := (yaml L ord fuel dbg).

Lemma yaml_doc src n w : document src n ->
  yaml None src w =
    let '(a, r) := parse L ord fuel dbg n (mkApp w [] false false) in
      (a_world a,
       match r with
       | Exn what => Exn what
       | Stuck => Stuck
       | Val _ => Val (mkResult (a_err a) (a_warn a)
                         (if a_err a || a_warn a then "I: Some problems are found in config:" :: a_lines a else []))
       end).
Proof. intros [->|[[p|p] ->]]; reflexivity. Qed.
Lemma yaml_nodoc src w w' r : (forall n, ~ document src n) -> yaml None src w = (w', r) -> w' = w /\ r <> Stuck.
Proof.
  intros N. destruct src as [[n|e]|[p|p] [n|e]]; intros H.
  1,3,5: exfalso; eapply N; first [now left|right; eexists; reflexivity].
  all: cbn in H; inversion H; subst; split; auto; discriminate.
Qed.

(** Every action is sane. *)
Lemma yaml_acts src w w' r : known w "*" -> yaml None src w = (w', r) ->
  exists l, acts L (not_nested src) ord fuel dbg w l w' /\ (r = Stuck -> hangs L (not_nested src) ord fuel dbg w l).
Proof.
  intros KS H. destruct (doc_cases src) as [[n D]|[D _]].
  - rewrite (yaml_doc src n w D) in H. destruct (parse L ord fuel dbg n (mkApp w [] false false)) as [a r0] eqn:P.
    destruct (does_parse L (not_nested src) ord fuel dbg n (fun s => s n D) _ _ _ (KS : known (a_world (mkApp w [] false false)) "*") P) as (l & A & S & _).
    inversion H; subst. exists l. split; [exact A|]. intros Q. apply S. destruct r0; congruence.
  - apply yaml_nodoc in H as [-> NS]; auto. exists []. split; [apply acts_nil|]. contradiction.
Qed.
Lemma yaml_cost src w w' r : yaml None src w = (w', r) -> length (w_log w') <= length (w_log w) + 8 * doc_size src.
Proof.
  intros H. destruct (doc_cases src) as [[n D]|[D _]].
  - rewrite (doc_size_eq _ _ D). rewrite (yaml_doc src n w D) in H. destruct (parse L ord fuel dbg n (mkApp w [] false false)) as [a r0] eqn:P.
    inversion H; subst. apply costs_parse in P. exact P.
  - apply yaml_nodoc in H as [-> NS]; auto. lia.
Qed.

(** ** C57 *)
Theorem reserved src w w' r : known w "*" -> yaml None src w = (w', r) -> star_kept (w_sys w) (w_sys w').
Proof. intros K H. destruct (yaml_acts _ _ _ _ K H) as (l & A & _). eapply acts_star; exact A. Qed.

(** ** C56, C58, C63 *)
Lemma acts_sizes safe w l w' : acts L safe ord fuel dbg w l w' -> usual_lib L -> refuses_huge_buffers L ->
  Forall (fun d => forall z, sizes_of d = Some z -> sane_sizes L z) (sinks_of l).
Proof.
  intros A UL RH. induction A as [|w c l w' S A IH|w d l w' S A IH]; cbn; auto. constructor; auto.
  destruct S as (_ & _ & _ & S). unfold sizes_of. destruct (d_kind d); intros z0 E; inversion E; subst; auto.
Qed.

Theorem forest safe w l w' base : acts L safe ord fuel dbg w l w' -> numbered (w_sys w) ->
  exists t : nat -> tree, (forall k, k < length (sinks (w_sys w)) -> t k = base k) /\ forms t (length (sinks (w_sys w))) (sinks_of l).
Proof.
  intros A N. pose proof (acts_members _ _ _ _ _ _ _ _ A N) as M. clear A N. remember (sinks_of l) as ds. clear Heqds l. set (n0 := length (sinks (w_sys w))) in *.
  clearbody n0. clear w w'. induction ds as [|d ds IH] using rev_ind.
  - exists base. split; auto. intros [|j]; discriminate.
  - destruct IH as (t & T1 & T2).
    { intros j d' ks E K. apply (M j d' ks); auto. rewrite nth_error_app1; auto. eapply nth_some_lt; eauto. }
    exists (fun k => if Nat.eqb k (n0 + length ds) then
                       match d_kind d with KMulti ks => Multi (d_level d) (map t ks) | _ => Leaf (n0 + length ds) (d_level d) end
                     else t k).
    split.
    + intros k Hk. destruct (Nat.eqb_spec k (n0 + length ds)); [lia|]. auto.
    + intros j d' E.
      assert (EXT : forall ks b, Forall (fun k => k < n0 + b) ks -> b <= length ds ->
         map (fun k => if Nat.eqb k (n0 + length ds) then
                       match d_kind d with KMulti ks => Multi (d_level d) (map t ks) | _ => Leaf (n0 + length ds) (d_level d) end
                     else t k) ks = map t ks).
      { intros ks b F Hb. apply map_ext_in. intros k Hk. rewrite Forall_forall in F. specialize (F k Hk).
        destruct (Nat.eqb_spec k (n0 + length ds)); [lia|reflexivity]. }
      destruct (Nat.lt_ge_cases j (length ds)) as [Hj|Hj].
      * assert (E' := E). rewrite nth_error_app1 in E' by exact Hj. destruct (Nat.eqb_spec (n0 + j) (n0 + length ds)); [lia|]. rewrite (T2 j d' E').
        destruct (d_kind d') as [| | |ks] eqn:K; auto. f_equal. symmetry. apply (EXT ks j); [|lia]. exact (M j d' ks E K).
      * assert (E' := E). rewrite nth_error_app2 in E' by exact Hj. destruct (j - length ds) as [|i] eqn:J; [|destruct i; discriminate]. cbn in E'. inversion E'; subst d'.
        assert (j = length ds) by lia. subst j. rewrite Nat.eqb_refl. destruct (d_kind d) as [| | |ks] eqn:K; auto. f_equal. symmetry.
        exact (EXT ks (length ds) (M _ _ _ E K) (le_n _)).
Qed.

(** In terms of what has been called. *)
Lemma yaml_log src w w' r : known w "*" -> yaml None src w = (w', r) ->
  exists l, w_log w' = w_log w ++ l /\ acts L (not_nested src) ord fuel dbg w l w'.
Proof. intros K H. destruct (yaml_acts _ _ _ _ K H) as (l & A & _). exists l. split; [eapply acts_log; eauto|exact A]. Qed.

Theorem no_ignore src w w' r : known w "*" -> yaml None src w = (w', r) ->
  exists l, w_log w' = w_log w ++ l /\ Forall real_level l.
Proof.
  intros K H. destruct (yaml_log _ _ _ _ K H) as (l & E & A). exists l. split; [exact E|]. clear E H.
  induction A as [|w c l w' S A IH|w d l w' S A IH]; [constructor| |].
  - assert (KW : known (fst (world_call ord fuel dbg c w)) "*").
    { unfold known. rewrite fst_call. destruct (call_star _ ord fuel dbg w c S) as [-> _]. exact K. }
    constructor; auto. destruct c; try exact I; apply S.
  - assert (KW : known (world_with_sink w d) "*").
    { unfold known. destruct (star_sink w d (proj1 S)) as [-> _]. exact K. }
    constructor; auto. apply S.
Qed.

Theorem sizes_sane src w w' r : usual_lib L -> refuses_huge_buffers L -> known w "*" -> yaml None src w = (w', r) ->
  exists l, w_log w' = w_log w ++ l /\ forall d z, In (ASink d) l -> sizes_of d = Some z -> sane_sizes L z.
Proof.
  intros UL RH K H. destruct (yaml_log _ _ _ _ K H) as (l & E & A). exists l. split; [exact E|].
  pose proof (acts_sizes _ _ _ _ A UL RH) as F. rewrite Forall_forall in F. intros d z Hd. apply F. unfold sinks_of. apply in_flat_map. exists (ASink d). split; auto. now left.
Qed.

Theorem composites src w w' r : known w "*" -> numbered (w_sys w) -> yaml None src w = (w', r) ->
  exists l, w_log w' = w_log w ++ l /\ sinks (w_sys w') = sinks (w_sys w) ++ map d_name (sinks_of l) /\
    (forall j d ks, nth_error (sinks_of l) j = Some d -> d_kind d = KMulti ks -> Forall (fun k => k < length (sinks (w_sys w)) + j) ks) /\
    forall base, exists t : nat -> tree, (forall k, k < length (sinks (w_sys w)) -> t k = base k) /\ forms t (length (sinks (w_sys w))) (sinks_of l).
Proof.
  intros K N H. destruct (yaml_log _ _ _ _ K H) as (l & E & A). exists l. split; [exact E|]. split; [eapply acts_sinks; eauto|].
  split; [eapply acts_members; eauto|]. intros base. eapply forest; eauto.
Qed.
End Props.

(** ** The sizes used *)
Theorem used_sane L d z : usual_lib L -> sizes_of d = Some z -> sane_sizes L z ->
  exists u, used_sizes (d_kind d) = Some u /\
    (4 <= u_capacity u)%N /\ (64 <= u_message u)%N /\ (2 * u_message u <= u_buffer u)%N /\
    (forall b, z_capacity z = Some b -> u_capacity u = b) /\ (forall b, z_message z = Some b -> u_message u = b) /\
    (forall b, z_buffer z = Some b -> (event_size L * 4 <= b)%N /\ u_buffer u = N.max b (2 * u_message u)) /\
    (forall b, z_latency z = Some b -> u_latency u = b).
Proof.
  intros UL S (C & M & B & T). unfold sizes_of in S.
  assert (G : forall c m b l, (4 <= c)%N -> (64 <= m < 2 ^ 31)%N ->
    let u := mkUsed (or_default (z_capacity z) c) (or_default (z_message z) m)
                 (auto_fix (or_default (z_message z) m) (or_default (z_buffer z) b)) (or_default (z_latency z) l) in
    (4 <= u_capacity u)%N /\ (64 <= u_message u)%N /\ (2 * u_message u <= u_buffer u)%N /\
    (forall b, z_capacity z = Some b -> u_capacity u = b) /\ (forall b, z_message z = Some b -> u_message u = b) /\
    (forall b, z_buffer z = Some b -> (event_size L * 4 <= b)%N /\ u_buffer u = N.max b (2 * u_message u)) /\
    (forall b, z_latency z = Some b -> u_latency u = b)).
  { intros c m b l Hc Hm. cbn [u_capacity u_message u_buffer u_latency].
    assert (MM : (64 <= or_default (z_message z) m < 2 ^ 31)%N).
    { destruct (z_message z) as [x|]; cbn; [|exact Hm]. apply (M x eq_refl). }
    rewrite auto_fix_max by (eapply N.lt_trans; [apply MM|reflexivity]).
    split; [destruct (z_capacity z) as [x|]; cbn; [exact (proj1 (C x eq_refl))|exact Hc]|].
    split; [apply MM|]. split; [lia|]. split; [intros x ->; reflexivity|]. split; [intros x ->; reflexivity|].
    split; [intros x E; split; [apply (B x E)|rewrite E; reflexivity]|intros x ->; reflexivity]. }
  destruct (d_kind d); inversion S; subst; cbn [used_sizes]; eexists; (split; [reflexivity|]); apply G; cbv; split || idtac; discriminate || reflexivity.
Qed.
