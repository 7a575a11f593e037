(** * The parser: monotone flags, and when it does not complain *)
From Coq Require Import String List Arith ZArith NArith Bool Lia.
From Verif Require Import Base LevelModel EventModel SysModel YamlModel YamlSpec.
Import ListNotations.
Local Open Scope string_scope.
Local Open Scope list_scope.

Definition clean (a : app) : Prop := a_err a = false /\ a_warn a = false.

(** Flags are never cleared, lines never removed. *)
Definition grows (a a' : app) : Prop :=
  (a_err a = true -> a_err a' = true) /\ (a_warn a = true -> a_warn a' = true) /\
  exists new, a_lines a' = a_lines a ++ new.
Definition mono {A} (m : M A) : Prop := forall a a' r, m a = (a', r) -> grows a a'.

Lemma grows_refl a : grows a a.
Proof. repeat split; auto. exists []. now rewrite app_nil_r. Qed.
Lemma grows_trans a b c : grows a b -> grows b c -> grows a c.
Proof.
  intros (E1 & W1 & l1 & N1) (E2 & W2 & l2 & N2). repeat split; auto.
  exists (l1 ++ l2). rewrite N2, N1. now rewrite app_assoc.
Qed.
Lemma grows_clean a a' : grows a a' -> clean a' -> clean a.
Proof.
  intros (E & W & _) [H1 H2]. split.
  - destruct (a_err a); auto. rewrite E in H1; auto.
  - destruct (a_warn a); auto. rewrite W in H2; auto.
Qed.

Lemma mono_pure {A} (x : A) : mono (pure x).
Proof. intros a a' r H. inversion H; subst. apply grows_refl. Qed.
Lemma mono_throw {A} w : mono (@throw A w).
Proof. intros a a' r H. inversion H; subst. apply grows_refl. Qed.
Lemma mono_say e w l : mono (say e w l).
Proof.
  intros a a' r H. inversion H; subst. repeat split; cbn; intros; try (rewrite H0; reflexivity).
  now exists [l].
Qed.
Lemma mono_stuck {A} : mono (fun a => (a, @Stuck A)).
Proof. intros a a' r H. inversion H; subst. apply grows_refl. Qed.
Lemma mono_bind {A B} (m : M A) (f : A -> M B) : mono m -> (forall x, mono (f x)) -> mono (bind m f).
Proof.
  intros Hm Hf a a' r H. unfold bind in H.
  destruct (m a) as [a1 [x|w|]] eqn:E.
  - eapply grows_trans; [eapply Hm; exact E | eapply Hf; exact H].
  - inversion H; subst. eapply Hm; exact E.
  - inversion H; subst. eapply Hm; exact E.
Qed.

(** Computations that do not touch the system. *)
Definition local {A} (m : M A) : Prop := forall a a' r, m a = (a', r) -> a_world a' = a_world a /\ r <> Stuck.
Lemma local_pure {A} (x : A) : local (pure x).
Proof. intros a a' r H. inversion H. now split. Qed.
Lemma local_throw {A} w : local (@throw A w).
Proof. intros a a' r H. inversion H. now split. Qed.
Lemma local_say e w l : local (say e w l).
Proof. intros a a' r H. inversion H. now split. Qed.
Lemma local_bind {A B} (m : M A) (f : A -> M B) : local m -> (forall x, local (f x)) -> local (bind m f).
Proof.
  intros Hm Hf a a' r H. unfold bind in H.
  destruct (m a) as [a1 [x|w|]] eqn:E.
  - destruct (Hm _ _ _ E) as [<- _]. eapply Hf; exact H.
  - inversion H; subst. destruct (Hm _ _ _ E). split; [assumption|discriminate].
  - inversion H; subst. destruct (Hm _ _ _ E). congruence.
Qed.

(** [m] complains unless [P] holds of its result, and then it only returns it. *)
Definition reader {A} (m : M A) (P : world -> A -> Prop) : Prop :=
  (forall x a, P (a_world a) x -> m a = (a, Val x)) /\
  (forall a a' x, m a = (a', Val x) -> clean a' -> a' = a /\ P (a_world a) x).

Lemma reader_pure {A} (x : A) : reader (pure x) (fun _ y => y = x).
Proof.
  split.
  - intros y a ->. reflexivity.
  - intros a a' y H _. inversion H; auto.
Qed.
Lemma reader_complain {A} e w l (m : M A) : e || w = true -> mono m -> reader (say e w l ;;; m) (fun _ _ => False).
Proof.
  intros F Hm. split; [contradiction|]. intros a a' x H C. exfalso.
  unfold bind, say in H.
  pose proof (grows_clean _ _ (Hm _ _ _ H) C) as [C1 C2]. cbn in C1, C2.
  destruct e, w; cbn in *; try discriminate; rewrite ?orb_true_r in *; discriminate.
Qed.
Lemma reader_say e w l (P : world -> unit -> Prop) : e || w = true -> (forall w x, ~ P w x) -> reader (say e w l) P.
Proof.
  intros F HP. split; [intros x a Hx; now apply HP in Hx|].
  intros a a' x H [C1 C2]. inversion H; subst. cbn in *.
  destruct e, w; cbn in *; try discriminate; rewrite ?orb_true_r in *; discriminate.
Qed.
Lemma reader_throw {A} w (P : world -> A -> Prop) : (forall w x, ~ P w x) -> reader (throw w) P.
Proof. intros HP. split; [intros x a Hx; now apply HP in Hx|]. intros a a' x H. inversion H. Qed.
Lemma reader_bind {A B} (m : M A) (f : A -> M B) P Q :
  reader m P -> (forall x, mono (f x)) -> (forall x, reader (f x) (fun w y => Q w x y)) ->
  reader (bind m f) (fun w y => exists x, P w x /\ Q w x y).
Proof.
  intros [M1 M2] Hf HF. split.
  - intros y a (x & HP & HQ). unfold bind. rewrite (M1 _ _ HP). apply (proj1 (HF x)); exact HQ.
  - intros a a' y H C. unfold bind in H. destruct (m a) as [a1 [x|w|]] eqn:E; try discriminate.
    pose proof (grows_clean _ _ (Hf _ _ _ _ H) C) as C1.
    destruct (M2 _ _ _ E C1) as [-> HP].
    destruct (proj2 (HF x) _ _ _ H C) as [-> HQ]. split; auto. exists x; auto.
Qed.
Lemma reader_iff {A} (m : M A) (P Q : world -> A -> Prop) :
  reader m P -> (forall w x, P w x <-> Q w x) -> reader m Q.
Proof.
  intros [H1 H2] E. split.
  - intros x a HQ. apply H1, E, HQ.
  - intros a a' x H C. destruct (H2 _ _ _ H C) as [-> HP]. split; auto. now apply E.
Qed.

Create HintDb mono.
#[export] Hint Resolve mono_pure mono_throw mono_say mono_stuck local_pure local_throw local_say : mono.
Ltac mono := unfold error, warning in *; repeat (intros; first
  [ solve [auto 2 with mono nocore] | apply mono_pure | apply mono_throw | apply mono_say | apply mono_stuck | apply mono_bind
  | apply local_pure | apply local_throw | apply local_say | apply local_bind
  | match goal with |- mono (match ?x with _ => _ end) => destruct x
                  | |- local (match ?x with _ => _ end) => destruct x
                  | |- mono (let _ := _ in _) => cbv zeta
                  | |- local (let _ := _ in _) => cbv zeta end ]).

Section Facts.
Variable L : lib.
Variable ord : list nat -> list nat.
Variable fuel : nat.
Variable dbg : bool.

Lemma mono_get_sink n : mono (get_sink n).
Proof. intros a a' r H. inversion H; subst. apply grows_refl. Qed.
Lemma mono_get_group n : mono (get_group n).
Proof. intros a a' r H. inversion H; subst. apply grows_refl. Qed.
Lemma mono_on_world f : mono (on_world f).
Proof.
  intros a a' r H. unfold on_world in H. destruct (f (a_world a)). inversion H; subst.
  repeat split; cbn; auto. exists []. now rewrite app_nil_r.
Qed.
Lemma mono_call c : mono (do_call ord fuel dbg c).
Proof. apply mono_on_world. Qed.
Lemma mono_make d : mono (make_sink L ord fuel dbg d).
Proof. apply mono_on_world. Qed.
Lemma local_get_sink n : local (get_sink n).
Proof. intros a a' r H. now inversion H. Qed.
Lemma local_get_group n : local (get_group n).
Proof. intros a a' r H. now inversion H. Qed.
Hint Resolve mono_get_sink mono_get_group mono_call mono_make local_get_sink local_get_group : mono.

Lemma mono_as_string n : mono (as_string L n).
Proof. unfold as_string. mono. Qed.
Lemma local_as_string n : local (as_string L n).
Proof. unfold as_string. mono. Qed.
Lemma mono_to_int t : mono (to_int L t). Proof. unfold to_int. mono. Qed.
Lemma local_to_int t : local (to_int L t). Proof. unfold to_int. mono. Qed.
Lemma mono_to_bool t : mono (to_bool L t). Proof. unfold to_bool. mono. Qed.
Lemma local_to_bool t : local (to_bool L t). Proof. unfold to_bool. mono. Qed.
Hint Resolve mono_as_string local_as_string mono_to_int local_to_int mono_to_bool local_to_bool : mono.
Lemma mono_as_strings l : mono (as_strings L l).
Proof. induction l; cbn; mono. Qed.
Lemma local_as_strings l : local (as_strings L l).
Proof. induction l; cbn; mono. Qed.
Hint Resolve mono_as_strings local_as_strings : mono.
Lemma mono_check_keys_in ks f l : mono (check_keys_in L ks f l).
Proof. induction l as [|[k v] l]; cbn; mono. Qed.
Lemma local_check_keys_in ks f l : local (check_keys_in L ks f l).
Proof. induction l as [|[k v] l]; cbn; mono. Qed.
Hint Resolve mono_check_keys_in local_check_keys_in : mono.
Lemma mono_check_keys ks f n : mono (check_keys L ks f n).
Proof. unfold check_keys. mono. Qed.
Lemma local_check_keys ks f n : local (check_keys L ks f n).
Proof. unfold check_keys. mono. Qed.
Hint Resolve mono_check_keys local_check_keys : mono.
Lemma mono_parse_level t n : mono (parse_level L t n).
Proof. unfold parse_level. mono. Qed.
Lemma local_parse_level t n : local (parse_level L t n).
Proof. unfold parse_level. mono. Qed.
Hint Resolve mono_parse_level local_parse_level : mono.
Lemma mono_parse_number k w g nm n : mono (parse_number L k w g nm n).
Proof. unfold parse_number. mono. Qed.
Lemma local_parse_number k w g nm n : local (parse_number L k w g nm n).
Proof. unfold parse_number. mono. Qed.
Hint Resolve mono_parse_number local_parse_number : mono.
Lemma mono_parse_sizes c nm n : mono (parse_sizes L c nm n).
Proof. unfold parse_sizes, parse_capacity, parse_buffer, parse_message, parse_latency. mono. Qed.
Lemma local_parse_sizes c nm n : local (parse_sizes L c nm n).
Proof. unfold parse_sizes, parse_capacity, parse_buffer, parse_message, parse_latency. mono. Qed.
Lemma mono_parse_color n : mono (parse_color L n). Proof. unfold parse_color. mono. Qed.
Lemma local_parse_color n : local (parse_color L n). Proof. unfold parse_color. mono. Qed.
Lemma mono_parse_stream n : mono (parse_stream n). Proof. unfold parse_stream. mono. Qed.
Lemma local_parse_stream n : local (parse_stream n). Proof. unfold parse_stream. mono. Qed.
Lemma mono_parse_thread nm n : mono (parse_thread nm n). Proof. unfold parse_thread. mono. Qed.
Lemma local_parse_thread nm n : local (parse_thread nm n). Proof. unfold parse_thread. mono. Qed.
Lemma mono_sink_level nm n : mono (sink_level L nm n). Proof. unfold sink_level. mono. Qed.
Lemma local_sink_level nm n : local (sink_level L nm n). Proof. unfold sink_level. mono. Qed.
Lemma mono_warn_existing nm : mono (warn_existing nm). Proof. unfold warn_existing. mono. Qed.
Lemma local_warn_existing nm : local (warn_existing nm). Proof. unfold warn_existing. mono. Qed.
Lemma mono_require k nm n : mono (require k nm n). Proof. unfold require. mono. Qed.
Lemma local_require k nm n : local (require k nm n). Proof. unfold require. mono. Qed.
Hint Resolve mono_parse_sizes local_parse_sizes mono_parse_color local_parse_color mono_parse_stream local_parse_stream
  mono_parse_thread local_parse_thread mono_sink_level local_sink_level mono_warn_existing local_warn_existing
  mono_require local_require : mono.
Lemma mono_parse_console nm n : mono (parse_console L ord fuel dbg nm n).
Proof. unfold parse_console. mono. Qed.
Lemma mono_parse_with k mk nm n : mono (parse_with L ord fuel dbg k mk nm n).
Proof. unfold parse_with. mono. Qed.
Lemma mono_find_members nm l : mono (find_members nm l).
Proof. induction l; cbn; mono. Qed.
Lemma local_find_members nm l : local (find_members nm l).
Proof. induction l; cbn; mono. Qed.
Hint Resolve mono_parse_console mono_parse_with mono_find_members local_find_members : mono.
Lemma mono_parse_multisink nm n : mono (parse_multisink L ord fuel dbg nm n).
Proof. unfold parse_multisink. mono. Qed.
Hint Resolve mono_parse_multisink : mono.
Lemma mono_parse_sink i n : mono (parse_sink L ord fuel dbg i n).
Proof. unfold parse_sink, parse_file, parse_syslog. mono. Qed.
Hint Resolve mono_parse_sink : mono.
Lemma mono_parse_sink_list l : forall i, mono (parse_sink_list L ord fuel dbg i l).
Proof. induction l; cbn; mono. Qed.
Hint Resolve mono_parse_sink_list : mono.
Lemma mono_parse_sinks n : mono (parse_sinks L ord fuel dbg n).
Proof. unfold parse_sinks. mono. Qed.
Lemma mono_parse_group i n p : mono (parse_group L ord fuel dbg i n p).
Proof. unfold parse_group. mono. Qed.
Hint Resolve mono_parse_sinks mono_parse_group : mono.
Lemma mono_parse_group_list ch l p : (forall n p, mono (ch n p)) -> forall i, mono (parse_group_list L ord fuel dbg ch i l p).
Proof. intros Hc. induction l; cbn; mono. Qed.
Lemma mono_parse_groups f : forall n p, mono (parse_groups L ord fuel dbg f n p).
Proof. induction f; cbn; intros; mono. apply mono_parse_group_list. auto. Qed.
Hint Resolve mono_parse_groups : mono.
Lemma mono_parse n : mono (parse L ord fuel dbg n).
Proof. unfold parse. mono. Qed.
End Facts.

#[export] Hint Resolve mono_get_sink mono_get_group mono_call mono_make local_get_sink local_get_group
  mono_as_string local_as_string mono_to_int local_to_int mono_to_bool local_to_bool
  mono_as_strings local_as_strings mono_check_keys_in local_check_keys_in mono_check_keys local_check_keys
  mono_parse_level local_parse_level mono_parse_number local_parse_number
  mono_parse_sizes local_parse_sizes mono_parse_color local_parse_color mono_parse_stream local_parse_stream
  mono_parse_thread local_parse_thread mono_sink_level local_sink_level mono_warn_existing local_warn_existing
  mono_require local_require mono_parse_console mono_parse_with mono_find_members local_find_members
  mono_parse_multisink mono_parse_sink mono_parse_sink_list mono_parse_sinks mono_parse_group
  mono_parse_groups mono_parse : mono.
