(** * Parts of a document that count as not given (C115) *)
From Coq Require Import String List Arith ZArith NArith Bool Lia.
From Verif Require Import Base LevelModel EventModel SysModel YamlModel YamlSpec YamlActSpec YamlGroups YamlTrace YamlTidySpec.
Import ListNotations.
Local Open Scope string_scope.
Local Open Scope list_scope.

(** Same effect on the system, same result; the messages and flags may differ. *)
Definition sim {A} (m1 m2 : M A) : Prop := forall a1 a2, a_world a1 = a_world a2 ->
  a_world (fst (m1 a1)) = a_world (fst (m2 a2)) /\ snd (m1 a1) = snd (m2 a2).

Lemma sim_pure {A} (x : A) : sim (pure x) (pure x).
Proof. intros a1 a2 H. auto. Qed.
Lemma sim_throw {A} e : sim (@throw A e) (throw e).
Proof. intros a1 a2 H. auto. Qed.
Lemma sim_stuck {A} : sim (fun a => (a, @Stuck A)) (fun a => (a, Stuck)).
Proof. intros a1 a2 H. auto. Qed.
Lemma sim_say e w l e' w' l' : sim (say e w l) (say e' w' l').
Proof. intros a1 a2 H. auto. Qed.
Lemma sim_bind {A B} (m1 m2 : M A) (f1 f2 : A -> M B) :
  sim m1 m2 -> (forall x, sim (f1 x) (f2 x)) -> sim (bind m1 f1) (bind m2 f2).
Proof.
  intros H F a1 a2 E. unfold bind. destruct (H a1 a2 E) as [H1 H2]. destruct (m1 a1) as [b1 r1]. destruct (m2 a2) as [b2 r2].
  cbn [fst snd] in *. subst r2. destruct r1 as [x|e|]; [exact (F x b1 b2 H1)|auto|auto].
Qed.
(** Something that only complains. *)
Lemma sim_say_l {A} e w l (m m' : M A) : sim m m' -> sim (bind (say e w l) (fun _ => m)) m'.
Proof. intros H a1 a2 E. unfold bind, say. apply H. exact E. Qed.
Lemma sim_say_unit e w l : sim (say e w l) (pure tt).
Proof. intros a1 a2 E. split; [exact E|reflexivity]. Qed.
Lemma sim_nothing {A B} (m : M A) (f : A -> M B) (x : A) (m' : M B) : sim m (pure x) -> sim (f x) m' -> sim (bind m f) m'.
Proof.
  intros H F a1 a2 E. unfold bind. destruct (H a1 a1 eq_refl) as [H1 H2]. destruct (m a1) as [b1 r1]. cbn [fst snd pure] in *. subst r1.
  apply F. congruence.
Qed.
Lemma sim_trans {A} (a b c : M A) : sim a b -> sim b c -> sim a c.
Proof. intros H G x y E. destruct (H x x eq_refl) as [H1 H2]. destruct (G x y E) as [G1 G2]. split; congruence. Qed.

Section Tidy.
Variable L : lib.
Variable ord : list nat -> list nat.
Variable fuel : nat.
Variable dbg : bool.

Lemma sim_get_sink t : sim (get_sink t) (get_sink t).
Proof. intros a1 a2 E. unfold get_sink. cbn. rewrite E. auto. Qed.
Lemma sim_get_group t : sim (get_group t) (get_group t).
Proof. intros a1 a2 E. unfold get_group. cbn. rewrite E. auto. Qed.
Lemma sim_world f : sim (on_world f) (on_world f).
Proof. intros a1 a2 E. unfold on_world. rewrite E. destruct (f (a_world a2)). auto. Qed.
Lemma sim_string n : sim (as_string L n) (as_string L n).
Proof. destruct n; cbn; try apply sim_pure; try apply sim_throw. destruct (null_text L); [apply sim_pure|apply sim_throw]. Qed.
Lemma sim_int t : sim (to_int L t) (to_int L t).
Proof. unfold to_int. destruct (as_int L t); [apply sim_pure|apply sim_throw]. Qed.
Lemma sim_bool t : sim (to_bool L t) (to_bool L t).
Proof. unfold to_bool. destruct (as_bool L t); [apply sim_pure|apply sim_throw]. Qed.

Ltac sim1 := first
  [ apply sim_pure | apply sim_throw | apply sim_stuck | apply sim_say | apply sim_get_sink | apply sim_get_group
  | apply sim_world | apply sim_string | apply sim_int | apply sim_bool | assumption
  | apply sim_bind; [|intros ?]
  | match goal with |- sim (match ?x with _ => _ end) (match ?x with _ => _ end) => destruct x end ].
Ltac sims := repeat (cbv beta zeta; sim1).

Lemma sim_strings l : sim (as_strings L l) (as_strings L l).
Proof. induction l as [|n l IH]; cbn [as_strings]; sims. Qed.
Lemma sim_members name l : sim (find_members name l) (find_members name l).
Proof. induction l as [|n l IH]; cbn [find_members]; sims. Qed.
Lemma sim_check_in known f g l : sim (check_keys_in L known f l) (check_keys_in L known g l).
Proof. induction l as [|[k v] l IH]; cbn [check_keys_in]; sims. Qed.
Lemma sim_check known f g n : sim (check_keys L known f n) (check_keys L known g n).
Proof. destruct n; cbn [check_keys]; sims. apply sim_check_in. Qed.

(** Without a property *)
Lemma get_without key m k : k <> key -> get (NMap (without key m)) k = get (NMap m) k.
Proof.
  intros N. cbn [get]. induction m as [|[x v] m IH]; [reflexivity|]. unfold without in *. cbn [filter fst].
  destruct x as [|t| |]; cbn [get_in]; try exact IH.
  destruct (String.eqb_spec t key) as [->|M]; cbn [negb get_in].
  - rewrite IH. destruct (String.eqb_spec key k) as [X|X]; [congruence|reflexivity].
  - rewrite IH. reflexivity.
Qed.
Lemma get_removed key m : get (NMap (without key m)) key = None.
Proof.
  cbn [get]. induction m as [|[x v] m IH]; [reflexivity|]. unfold without in *. cbn [filter fst].
  destruct x as [|t| |]; cbn [get_in]; try exact IH.
  destruct (String.eqb_spec t key) as [->|M]; cbn [negb]; [exact IH|]. cbn [get_in].
  rewrite (proj2 (String.eqb_neq t key) M). exact IH.
Qed.
Lemma check_without known f g key m : sim (check_keys L known f (NMap m)) (check_keys L known g (NMap (without key m))).
Proof.
  cbn [check_keys]. induction m as [|[x v] m IH]; [apply sim_pure|]. unfold without in *. cbn [check_keys_in filter fst].
  destruct x as [|t| |]; cbn [check_keys_in]; try (apply sim_bind; [sims|intros u; apply sim_bind; [sims|intros _; exact IH]]).
  destruct (String.eqb_spec t key) as [->|M]; cbn [negb check_keys_in].
  - cbn [as_string]. eapply sim_nothing; [apply sim_pure|]. cbv beta. eapply (sim_nothing _ _ tt); [|exact IH].
    destruct (existsb (String.eqb key) known); [apply sim_pure|apply sim_say_unit].
  - apply sim_bind; [sims|]. intros u. apply sim_bind; [sims|intros _; exact IH].
Qed.

(** A property that says nothing usable reads as if it were not there. *)
Lemma level_unusable target target' n n' v : get n "level" = Some v -> get n' "level" = None -> no_level v ->
  sim (parse_level L target n) (parse_level L target' n').
Proof.
  intros G G' N. unfold parse_level. rewrite G, G'. destruct v as [|t| |]; try (apply sim_say_l, sim_pure).
  repeat match goal with
  | |- context [String.eqb t ?s] => destruct (String.eqb_spec t s) as [->|?];
      [destruct (N s _ eq_refl ltac:(constructor))|]
  end. cbn [orb]. apply sim_say_l, sim_pure.
Qed.
Lemma sim_level target target' n n' : get n "level" = get n' "level" -> sim (parse_level L target n) (parse_level L target' n').
Proof.
  intros G. unfold parse_level. rewrite G. destruct (get n' "level") as [v|]; [|apply sim_pure]. destruct v; sims.
Qed.
Lemma sim_sink_level name n n' : sim (parse_level L ("sink '" +++ name +++ "'") n) (parse_level L ("sink '" +++ name +++ "'") n') ->
  sim (sink_level L name n) (sink_level L name n').
Proof. intros H. unfold sink_level. sims. Qed.

Lemma number_unusable key wrong good name n n' v : get n key = Some v -> get n' key = None ->
  (forall t, v = NScalar t -> exists z, as_int L t = Some z /\ good t z = false) ->
  sim (parse_number L key wrong good name n) (parse_number L key wrong good name n').
Proof.
  intros G G' N. unfold parse_number. rewrite G, G'. destruct v as [|t| |]; try (apply sim_say_l, sim_pure).
  destruct (N t eq_refl) as (z & I & B). unfold to_int. rewrite I. eapply sim_nothing; [apply sim_pure|]. cbv beta. rewrite B.
  apply sim_say_l, sim_pure.
Qed.
Lemma sim_number key wrong good name n n' : get n key = get n' key ->
  sim (parse_number L key wrong good name n) (parse_number L key wrong good name n').
Proof. intros G. unfold parse_number. rewrite G. destruct (get n' key) as [v|]; [|apply sim_pure]. destruct v; sims. Qed.
Lemma sim_color n n' : get n "color" = get n' "color" -> sim (parse_color L n) (parse_color L n').
Proof. intros G. unfold parse_color. rewrite G. destruct (get n' "color") as [v|]; [|apply sim_pure]. destruct v; sims. Qed.
Lemma sim_stream n n' : get n "stream" = get n' "stream" -> sim (parse_stream n) (parse_stream n').
Proof. intros G. unfold parse_stream. rewrite G. destruct (get n' "stream") as [v|]; [|apply sim_pure]. destruct v; sims. Qed.
Lemma sim_thread name n n' : get n "thread" = get n' "thread" -> sim (parse_thread name n) (parse_thread name n').
Proof. intros G. unfold parse_thread. rewrite G. destruct (get n' "thread") as [v|]; [|apply sim_pure]. destruct v; sims. Qed.
Lemma sim_require key name n n' : get n key = get n' key -> sim (require key name n) (require key name n').
Proof. intros G. unfold require. rewrite G. destruct (get n' key) as [v|]; [|sims]. destruct v; sims. Qed.
Lemma sim_existing name : sim (warn_existing name) (warn_existing name).
Proof. unfold warn_existing. sims. Qed.

(** What a sink of a kind is read from: for each part, the two nodes read alike. *)
Record alike (console : bool) (name : string) (n n' : node) : Prop := {
  al_thread : sim (parse_thread name n) (parse_thread name n');
  al_cap : sim (parse_capacity L name n) (parse_capacity L name n');
  al_buf : sim (parse_buffer L name n) (parse_buffer L name n');
  al_msg : sim (parse_message L console name n) (parse_message L console name n');
  al_lat : sim (parse_latency L name n) (parse_latency L name n')
}.
Lemma sim_sizes console name n n' : alike console name n n' -> sim (parse_sizes L console name n) (parse_sizes L console name n').
Proof. intros [T C B M Lt]. unfold parse_sizes. sims. Qed.

Definition level_alike (name : string) (n n' : node) : Prop :=
  sim (parse_level L ("sink '" +++ name +++ "'") n) (parse_level L ("sink '" +++ name +++ "'") n').
Definition keys_alike (n n' : node) : Prop :=
  forall known f, sim (check_keys L known f n) (check_keys L known f n').

Lemma sim_console name n n' : alike true name n n' -> level_alike name n n' -> keys_alike n n' ->
  sim (parse_color L n) (parse_color L n') -> sim (parse_stream n) (parse_stream n') ->
  sim (parse_console L ord fuel dbg name n) (parse_console L ord fuel dbg name n').
Proof.
  intros A V K C S. unfold parse_console.
  apply sim_bind; [exact C|intros col]. apply sim_bind; [exact S|intros str]. apply sim_bind; [exact (al_thread _ _ _ _ A)|intros ti].
  apply sim_bind; [exact (sim_sizes _ _ _ _ A)|intros z]. apply sim_bind; [exact (sim_sink_level _ _ _ V)|intros lv].
  apply sim_bind; [apply K|intros _]. apply sim_bind; [apply sim_existing|intros _]. apply sim_world.
Qed.
Lemma sim_with key mk name n n' : alike false name n n' -> level_alike name n n' -> keys_alike n n' ->
  get n key = get n' key ->
  sim (parse_with L ord fuel dbg key mk name n) (parse_with L ord fuel dbg key mk name n').
Proof.
  intros A V K R. unfold parse_with.
  apply sim_bind; [exact (sim_require _ _ _ _ R)|intros tx]. apply sim_bind; [exact (al_thread _ _ _ _ A)|intros ti].
  apply sim_bind; [exact (sim_sizes _ _ _ _ A)|intros z]. apply sim_bind; [exact (sim_sink_level _ _ _ V)|intros lv].
  apply sim_bind; [apply K|intros _]. destruct tx; [|apply sim_pure]. apply sim_bind; [apply sim_existing|intros _]. apply sim_world.
Qed.
Lemma sim_multi name n n' : level_alike name n n' -> keys_alike n n' -> get n "sinks" = get n' "sinks" ->
  sim (parse_multisink L ord fuel dbg name n) (parse_multisink L ord fuel dbg name n').
Proof.
  intros V K R. unfold parse_multisink. rewrite R.
  apply sim_bind; [destruct (get n' "sinks") as [v|]; [destruct v|]; sims|intros mem].
  apply sim_bind; [exact (sim_sink_level _ _ _ V)|intros lv]. apply sim_bind; [apply K|intros _].
  destruct mem as [l|]; [|apply sim_pure]. apply sim_bind; [apply sim_strings|intros names].
  apply sim_bind; [apply sim_members|intros ks]. apply sim_world.
Qed.

(** The whole sink, of type [type]. *)
Lemma sim_sink i j n n' type : get n "name" = get n' "name" -> get n "type" = get n' "type" -> has_type n type ->
  (forall name, type = "console" -> sim (parse_console L ord fuel dbg name n) (parse_console L ord fuel dbg name n')) ->
  (forall name, type = "file" -> sim (parse_file L ord fuel dbg name n) (parse_file L ord fuel dbg name n')) ->
  (forall name, type = "syslog" -> sim (parse_syslog L ord fuel dbg name n) (parse_syslog L ord fuel dbg name n')) ->
  (forall name, type = "multisink" -> sim (parse_multisink L ord fuel dbg name n) (parse_multisink L ord fuel dbg name n')) ->
  sim (parse_sink L ord fuel dbg i n) (parse_sink L ord fuel dbg j n').
Proof.
  intros N T HT C F S Mu. unfold has_type in HT. unfold parse_sink. rewrite N, <- T, HT.
  apply sim_bind; [destruct (get n' "name") as [v|]; [destruct v|]; sims|intros nm].
  assert (Q : sim (match nm with Some name =>
      if name =? "*" then error "E: Sink name '*' is reserved; Try to use some other else"
      else if type =? "console" then parse_console L ord fuel dbg name n
      else if type =? "file" then parse_file L ord fuel dbg name n
      else if type =? "syslog" then parse_syslog L ord fuel dbg name n
      else if type =? "multisink" then parse_multisink L ord fuel dbg name n
      else error ("E: Unknown 'type' of sink node '" +++ name +++ "': " +++ type) | None => pure tt end)
    (match nm with Some name =>
      if name =? "*" then error "E: Sink name '*' is reserved; Try to use some other else"
      else if type =? "console" then parse_console L ord fuel dbg name n'
      else if type =? "file" then parse_file L ord fuel dbg name n'
      else if type =? "syslog" then parse_syslog L ord fuel dbg name n'
      else if type =? "multisink" then parse_multisink L ord fuel dbg name n'
      else error ("E: Unknown 'type' of sink node '" +++ name +++ "': " +++ type) | None => pure tt end)).
  { destruct nm as [name|]; [|apply sim_pure]. destruct (name =? "*"); [apply sim_say|].
    destruct (String.eqb_spec type "console") as [E1|_]; [exact (C name E1)|].
    destruct (String.eqb_spec type "file") as [E1|_]; [exact (F name E1)|].
    destruct (String.eqb_spec type "syslog") as [E1|_]; [exact (S name E1)|].
    destruct (String.eqb_spec type "multisink") as [E1|_]; [exact (Mu name E1)|]. apply sim_say. }
  destruct nm as [name|]; exact Q.
Qed.

(** Parts that are read alike *)
Lemma sim_alike console name n n' : 
  get n "thread" = get n' "thread" -> get n "capacity" = get n' "capacity" -> get n "buffer" = get n' "buffer" ->
  get n "max_message_length" = get n' "max_message_length" -> get n "latency" = get n' "latency" -> alike console name n n'.
Proof. intros A B C D E. split; [apply sim_thread, A|apply sim_number, B|apply sim_number, C|apply sim_number, D|apply sim_number, E]. Qed.
Lemma keys_same n : keys_alike n n.
Proof. intros known f. apply sim_check. Qed.
Lemma keys_without key m : keys_alike (NMap m) (NMap (without key m)).
Proof. intros known f. apply check_without. Qed.

(** The same sink, at another place *)
Lemma sink_same i j n : sim (parse_sink L ord fuel dbg i n) (parse_sink L ord fuel dbg j n).
Proof.
  destruct (get n "type") as [[|t| |]|] eqn:T.
  2: { apply (sim_sink i j n n t eq_refl eq_refl T); intros name _.
       - apply sim_console; [apply sim_alike; reflexivity|apply sim_level; reflexivity|apply keys_same|apply sim_color; reflexivity|apply sim_stream; reflexivity].
       - apply sim_with; [apply sim_alike; reflexivity|apply sim_level; reflexivity|apply keys_same|reflexivity].
       - apply sim_with; [apply sim_alike; reflexivity|apply sim_level; reflexivity|apply keys_same|reflexivity].
       - apply sim_multi; [apply sim_level; reflexivity|apply keys_same|reflexivity]. }
  all: unfold parse_sink; rewrite T; apply sim_bind; [destruct (get n "name") as [[|t'| |]|]; sims|intros nm];
       (apply (sim_trans _ (pure tt)); [apply sim_say_l|intros a1 a2 E; unfold bind, error, say, pure; destruct nm; split; cbn; auto]);
       destruct nm; intros a1 a2 E; unfold bind, pure; auto.
Qed.

(** A property not among those of the type is not read. *)
Lemma sink_unknown i j type m key : In type ["console"; "file"; "syslog"; "multisink"] -> has_type (NMap m) type ->
  ~ In key (sink_properties type) ->
  sim (parse_sink L ord fuel dbg i (NMap m)) (parse_sink L ord fuel dbg j (NMap (without key m))).
Proof.
  intros I HT NK.
  assert (G : forall k, In k (sink_properties type) -> get (NMap m) k = get (NMap (without key m)) k).
  { intros k K. symmetry. apply get_without. intros ->. exact (NK K). }
  clear NK.
  assert (GN : get (NMap m) "name" = get (NMap (without key m)) "name" /\ get (NMap m) "type" = get (NMap (without key m)) "type").
  { split; apply G; destruct I as [<-|[<-|[<-|[<-|[]]]]]; cbn; tauto. }
  apply (sim_sink i j _ _ type (proj1 GN) (proj2 GN) HT); intros name ->.
  - apply sim_console; [apply sim_alike|apply sim_level|apply keys_without|apply sim_color|apply sim_stream]; apply G; cbn; tauto.
  - apply sim_with; [apply sim_alike|apply sim_level|apply keys_without|]; apply G; cbn; tauto.
  - apply sim_with; [apply sim_alike|apply sim_level|apply keys_without|]; apply G; cbn; tauto.
  - apply sim_multi; [apply sim_level|apply keys_without|]; apply G; cbn; tauto.
Qed.

(** Unusable values *)
Lemma color_unusable n n' v : get n "color" = Some v -> get n' "color" = None -> (forall t, v <> NScalar t) -> sim (parse_color L n) (parse_color L n').
Proof. intros G G' N. unfold parse_color. rewrite G, G'. destruct v as [|t| |]; try (apply sim_say_l, sim_pure). destruct (N t eq_refl). Qed.
Lemma stream_unusable n n' v : get n "stream" = Some v -> get n' "stream" = None -> (forall t s, v = NScalar t -> ~ means_stream t s) ->
  sim (parse_stream n) (parse_stream n').
Proof.
  intros G G' N. unfold parse_stream. rewrite G, G'. destruct v as [|t| |]; try (apply sim_say_l, sim_pure).
  repeat match goal with
  | |- context [String.eqb t ?s] => destruct (String.eqb_spec t s) as [->|?];
      [destruct (N s _ eq_refl ltac:(constructor))|]
  end. apply sim_say_l, sim_pure.
Qed.
Lemma thread_unusable name n n' v : get n "thread" = Some v -> get n' "thread" = None -> (forall t s, v = NScalar t -> ~ means_thread t s) ->
  sim (parse_thread name n) (parse_thread name n').
Proof.
  intros G G' N. unfold parse_thread. rewrite G, G'. destruct v as [|t| |]; try (apply sim_say_l, sim_pure).
  repeat match goal with
  | |- context [String.eqb t ?s] => destruct (String.eqb_spec t s) as [->|?];
      [destruct (N s _ eq_refl ltac:(constructor))|]
  end. apply sim_say_l, sim_pure.
Qed.
Lemma bad_capacity t z : ~ good_capacity t z -> (4 <=? z)%Z = false.
Proof. unfold good_capacity. intros H. apply Z.leb_gt. lia. Qed.
Lemma bad_buffer t z : ~ ((z < 0)%Z \/ good_buffer L t z) -> (event_size L * 4 <=? to_size z)%N = false.
Proof.
  unfold good_buffer, to_size. intros H. apply N.leb_gt.
  assert (X1 : (0 <= z)%Z) by lia. assert (X2 : (z < Z.of_N (event_size L) * 4)%Z) by lia.
  pose proof (Z.mod_le z (2 ^ 64) X1 eq_refl) as Y1.
  pose proof (Z.mod_pos_bound z (2 ^ 64) eq_refl) as [Y2 _].
  revert Y1 Y2. generalize (z mod 2 ^ 64)%Z. intros y Y1 Y2. lia.
Qed.
Lemma bad_message c t z : ~ good_message c t z -> (if c then (64 <? z)%Z else (64 <=? z)%Z) = false.
Proof. unfold good_message. intros H. destruct c; [apply Z.ltb_ge|apply Z.leb_gt]; lia. Qed.
Lemma bad_latency t z : ~ good_latency t z -> (int_text z =? t) && (0 <=? z)%Z = false.
Proof.
  unfold good_latency. intros H. destruct (String.eqb_spec (int_text z) t) as [E|_]; [|reflexivity]. cbn. apply Z.leb_gt.
  destruct (Z.lt_ge_cases z 0); [assumption|]. destruct H. auto.
Qed.
Lemma bad_bool (good : string -> Z -> Prop) (goodb : string -> Z -> bool) v : (forall t z, ~ good t z -> goodb t z = false) -> bad_number L good v ->
  forall t, v = NScalar t -> exists z, as_int L t = Some z /\ goodb t z = false.
Proof. intros H B t E. destruct (B t E) as (z & I & Nz). exists z. split; [exact I|exact (H t z Nz)]. Qed.

Lemma sink_unusable i j type m key v : In type ["console"; "file"; "syslog"; "multisink"] -> has_type (NMap m) type ->
  get (NMap m) key = Some v -> unusable L type key v ->
  sim (parse_sink L ord fuel dbg i (NMap m)) (parse_sink L ord fuel dbg j (NMap (without key m))).
Proof.
  intros I HT GV U.
  assert (G : forall k, k <> key -> get (NMap m) k = get (NMap (without key m)) k).
  { intros k K. symmetry. apply get_without. exact K. }
  pose proof (get_removed key m) as GR.
  assert (GN : get (NMap m) "name" = get (NMap (without key m)) "name" /\ get (NMap m) "type" = get (NMap (without key m)) "type").
  { split; apply G; inversion U; subst; discriminate. }
  apply (sim_sink i j _ _ type (proj1 GN) (proj2 GN) HT); intros name ->; inversion U; subst; try discriminate; try congruence;
  (first [apply sim_console|apply sim_with|apply sim_multi]);
  try apply keys_without;
  try (apply sim_alike; apply G; discriminate);
  try (apply sim_level; apply G; discriminate); try (apply sim_color; apply G; discriminate); try (apply sim_stream; apply G; discriminate);
  try (apply G; discriminate);
  try (eapply level_unusable; eassumption); try (eapply color_unusable; eassumption); try (eapply stream_unusable; eassumption);
  (split; [first [eapply thread_unusable; eassumption|apply sim_thread, G; discriminate]
          |first [apply sim_number, G; discriminate|eapply number_unusable; [eassumption|eassumption|eapply bad_bool; [|eassumption]; exact bad_capacity]]
          |first [apply sim_number, G; discriminate|eapply number_unusable; [eassumption|eassumption|eapply bad_bool; [|eassumption]; exact bad_buffer]]
          |first [apply sim_number, G; discriminate|eapply number_unusable; [eassumption|eassumption|eapply bad_bool; [|eassumption]; exact (bad_message _)]]
          |first [apply sim_number, G; discriminate|eapply number_unusable; [eassumption|eassumption|eapply bad_bool; [|eassumption]; exact bad_latency]]]).
Qed.

Lemma sinks_same l : forall i j, sim (parse_sink_list L ord fuel dbg i l) (parse_sink_list L ord fuel dbg j l).
Proof. induction l as [|n l IH]; intros i j; cbn [parse_sink_list]; [apply sim_pure|]. apply sim_bind; [|intros _; apply IH]. destruct n; try apply sim_say. apply sink_same. Qed.
Lemma sinks_sim l l' : sinks_less L l l' -> forall i j, sim (parse_sink_list L ord fuel dbg i l) (parse_sink_list L ord fuel dbg j l').
Proof.
  intros H. induction H as [n l NM|type m key l I HT NK|type m key v l I HT GV U|n l l' H IH]; intros i j; cbn [parse_sink_list].
  - destruct n as [| | |m]; try (apply sim_say_l, sinks_same). destruct NM. exists m. reflexivity.
  - apply sim_bind; [apply (sink_unknown i j type); assumption|intros _; apply sinks_same].
  - apply sim_bind; [apply (sink_unusable i j type m key v); assumption|intros _; apply sinks_same].
  - apply sim_bind; [|intros _; apply IH]. destruct n; try apply sim_say. apply sink_same.
Qed.

(** ** Groups *)
Lemma sim_group i j n n' p :
  (forall k, In k ["name"; "is_fallback"; "sink"; "children"] -> get n k = get n' k) ->
  (forall t t', sim (parse_level L t n) (parse_level L t' n')) -> (p = None -> get n "level" = get n' "level") ->
  (forall known f g, sim (check_keys L known f n) (check_keys L known g n')) ->
  sim (parse_group L ord fuel dbg i n p) (parse_group L ord fuel dbg j n' p).
Proof.
  intros G V VN K. unfold parse_group.
  rewrite (G "name" ltac:(cbn; tauto)), (G "is_fallback" ltac:(cbn; tauto)), (G "sink" ltac:(cbn; tauto)), (G "children" ltac:(cbn; tauto)).
  apply sim_bind; [destruct (get n' "name") as [[|t| |]|]; sims|intros nm]. cbv zeta.
  apply sim_bind; [destruct (get n' "is_fallback") as [[|t| |]|]; sims|intros fb].
  apply sim_bind; [destruct (get n' "sink") as [[|t| |]|]; sims|intros sk].
  apply sim_bind; [|intros nl].
  { destruct p as [p|]; [destruct (get n "level"); destruct (get n' "level"); apply sim_pure|].
    rewrite (VN eq_refl). destruct (get n' "level"); sims. }
  apply sim_bind; [apply V|intros lv].
  apply sim_bind; [destruct (get n' "children") as [[|t| |]|]; sims|intros bc].
  apply sim_bind; [apply K|intros _].
  apply sim_bind; [sims|intros _].
  destruct nm as [name|]; [|sims]. destruct fb as [fb|]; [|sims]. destruct (snd sk || nl || bc); [sims|].
  unfold do_call. sims.
Qed.
Lemma group_same i j n p : sim (parse_group L ord fuel dbg i n p) (parse_group L ord fuel dbg j n p).
Proof. apply sim_group; auto. - intros t t'. apply sim_level. reflexivity. - intros known f g. apply sim_check. Qed.
Lemma group_unknown i j m key p : ~ In key group_properties ->
  sim (parse_group L ord fuel dbg i (NMap m) p) (parse_group L ord fuel dbg j (NMap (without key m)) p).
Proof.
  intros NK. assert (G : forall k, In k group_properties -> get (NMap m) k = get (NMap (without key m)) k).
  { intros k K. symmetry. apply get_without. intros ->. exact (NK K). }
  apply sim_group.
  - intros k K. apply G. cbn in K |- *. tauto.
  - intros t t'. apply sim_level. apply G. cbn. tauto.
  - intros _. apply G. cbn. tauto.
  - intros known f g. apply check_without.
Qed.
Lemma group_level i j m v p : get (NMap m) "level" = Some v -> no_level v ->
  sim (parse_group L ord fuel dbg i (NMap m) (Some p)) (parse_group L ord fuel dbg j (NMap (without "level" m)) (Some p)).
Proof.
  intros GV N. apply sim_group.
  - intros k K. symmetry. apply get_without. intros ->. cbn in K. intuition discriminate.
  - intros t t'. eapply level_unusable; [exact GV|apply get_removed|exact N].
  - discriminate.
  - intros known f g. apply check_without.
Qed.

Lemma get_in_app m1 x m2 k : get_in (m1 ++ x :: m2) k = match get_in m1 k with Some v => Some v | None => get_in (x :: m2) k end.
Proof. induction m1 as [|[y v] m1 IH]; cbn [List.app get_in]; [reflexivity|]. destruct y; try exact IH. destruct (String.eqb text k); [reflexivity|exact IH]. Qed.
(** The value of one property replaced by another. *)
Lemma get_other key v v' m1 m2 k : k <> key -> get (NMap (m1 ++ (NScalar key, v) :: m2)) k = get (NMap (m1 ++ (NScalar key, v') :: m2)) k.
Proof.
  intros N. cbn [get]. rewrite !get_in_app. cbn [get_in]. destruct (get_in m1 k); [reflexivity|].
  rewrite (proj2 (String.eqb_neq key k)); [reflexivity|congruence].
Qed.
Lemma get_there key v m1 m2 : get (NMap m1) key = None -> get (NMap (m1 ++ (NScalar key, v) :: m2)) key = Some v.
Proof. cbn [get]. intros N. rewrite get_in_app, N. cbn [get_in]. rewrite String.eqb_refl. reflexivity. Qed.
Lemma check_other known f g key v v' m1 m2 : sim (check_keys L known f (NMap (m1 ++ (NScalar key, v) :: m2))) (check_keys L known g (NMap (m1 ++ (NScalar key, v') :: m2))).
Proof.
  cbn [check_keys]. induction m1 as [|[x y] m1 IH]; cbn [List.app check_keys_in]; (apply sim_bind; [sims|intros u]; apply sim_bind; [sims|intros _]); [apply sim_check_in|exact IH].
Qed.
Lemma group_children i j m1 c c' m2 p :
  sim (parse_group L ord fuel dbg i (NMap (m1 ++ (NScalar "children", NSeq c) :: m2)) p)
      (parse_group L ord fuel dbg j (NMap (m1 ++ (NScalar "children", NSeq c') :: m2)) p).
Proof.
  destruct (get (NMap m1) "children") as [x|] eqn:GC.
  - apply sim_group.
    + intros k K. destruct (string_dec k "children") as [->|N]; [|apply get_other, N].
      cbn [get] in *. rewrite !get_in_app, GC. reflexivity.
    + intros t t'. apply sim_level, get_other. discriminate.
    + intros _. apply get_other. discriminate.
    + intros known f g. apply check_other.
  - pose proof (get_there "children" (NSeq c) m1 m2 GC) as E1. pose proof (get_there "children" (NSeq c') m1 m2 GC) as E2.
    set (n := NMap (m1 ++ (NScalar "children", NSeq c) :: m2)) in *. set (n' := NMap (m1 ++ (NScalar "children", NSeq c') :: m2)) in *.
    assert (G : forall k, k <> "children" -> get n k = get n' k) by (intros k N; apply get_other, N).
    unfold parse_group. rewrite E1, E2.
    rewrite (G "name") by discriminate. rewrite (G "is_fallback") by discriminate. rewrite (G "sink") by discriminate. rewrite (G "level") by discriminate.
    apply sim_bind; [destruct (get n' "name") as [[|t| |]|]; sims|intros nm]. cbv zeta.
    apply sim_bind; [destruct (get n' "is_fallback") as [[|t| |]|]; sims|intros fb].
    apply sim_bind; [destruct (get n' "sink") as [[|t| |]|]; sims|intros sk].
    apply sim_bind; [sims|intros nl].
    apply sim_bind; [apply sim_level, G; discriminate|intros lv].
    apply sim_bind; [apply sim_pure|intros bc].
    apply sim_bind; [apply check_other|intros _].
    apply sim_bind; [sims|intros _].
    destruct nm as [name|]; [|sims]. destruct fb as [fb|]; [|sims]. destruct (snd sk || nl || bc); [sims|].
    unfold do_call. sims.
Qed.

Lemma depth_seq l n f : In n l -> depth (NSeq l) <= S f -> depth n <= f.
Proof. intros I H. pose proof (depth_items l f H) as Q. rewrite Forall_forall in Q. exact (Q n I). Qed.

(** The same groups, read with other bounds on the depth *)
Lemma group_list_same ch ch' l : (forall m c t, In (NMap m) l -> get (NMap m) "children" = Some (NSeq c) -> sim (ch (NSeq c) t) (ch' (NSeq c) t)) ->
  forall i j p, sim (parse_group_list L ord fuel dbg ch i l p) (parse_group_list L ord fuel dbg ch' j l p).
Proof.
  induction l as [|n l IH]; intros H i j p; cbn [parse_group_list]; [apply sim_pure|].
  apply sim_bind; [|intros _; apply IH; intros m c t I; apply H; right; exact I].
  destruct n as [| | |m]; try apply sim_say. apply sim_bind; [apply group_same|intros nm].
  destruct nm as [t|]; [|apply sim_pure]. destruct (get (NMap m) "children") as [[| |c|]|] eqn:GC; try apply sim_pure.
  apply (H m c (Some t)); [left; reflexivity|exact GC].
Qed.
Lemma groups_same : forall f f' l p, depth (NSeq l) <= f -> depth (NSeq l) <= f' ->
  sim (parse_groups L ord fuel dbg f (NSeq l) p) (parse_groups L ord fuel dbg f' (NSeq l) p).
Proof.
  induction f as [|f IH]; intros f' l p D D'; [cbn in D; lia|]. destruct f' as [|f']; [cbn in D'; lia|].
  cbn [parse_groups]. apply group_list_same. intros m c t I GC.
  pose proof (depth_seq _ _ _ I D) as X. pose proof (depth_seq _ _ _ I D') as X'. pose proof (depth_get_lt _ _ _ GC).
  apply IH; lia.
Qed.

Definition inside_ok (inside : bool) (p : option string) : Prop := inside = true -> exists t, p = Some t.

Lemma groups_sim inside l l' : groups_less inside l l' -> forall f f' i j p, inside_ok inside p ->
  depth (NSeq l) <= S f -> depth (NSeq l') <= S f' ->
  sim (parse_group_list L ord fuel dbg (parse_groups L ord fuel dbg f) i l p) (parse_group_list L ord fuel dbg (parse_groups L ord fuel dbg f') j l' p).
Proof.
  intros H. induction H as [inside n l NM|inside m key l NK|m v l GV N|inside m1 c c' m2 l GC H IH|inside n l l' H IH]; intros f f' i j p O D D'.
  all: assert (Same : forall l0 i j, (forall x, In x l0 -> depth x <= f) -> (forall x, In x l0 -> depth x <= f') ->
         sim (parse_group_list L ord fuel dbg (parse_groups L ord fuel dbg f) i l0 p) (parse_group_list L ord fuel dbg (parse_groups L ord fuel dbg f') j l0 p))
       by (intros l0 i0 j0 B B'; apply group_list_same; intros m0 c0 t0 I0 G0; pose proof (B _ I0); pose proof (B' _ I0); pose proof (depth_get_lt _ _ _ G0); apply groups_same; lia).
  - cbn [parse_group_list]. destruct n as [| | |m]; try (apply sim_say_l; apply Same;
      [intros x I; exact (depth_seq _ x _ (in_cons _ _ _ I) D)|intros x I; exact (depth_seq _ x _ I D')]).
    destruct NM. exists m. reflexivity.
  - cbn [parse_group_list]. apply sim_bind; [|intros _; apply Same; intros x I; [exact (depth_seq _ x _ (in_cons _ _ _ I) D)|exact (depth_seq _ x _ (in_cons _ _ _ I) D')]].
    apply sim_bind; [apply group_unknown, NK|intros nm]. destruct nm as [t|]; [|apply sim_pure].
    pose proof (depth_seq _ _ _ (in_eq _ _) D) as X. pose proof (depth_seq _ _ _ (in_eq _ _) D') as X'.
    rewrite <- (get_without key m "children") by (intros <-; apply NK; cbn; tauto).
    destruct (get (NMap (without key m)) "children") as [[| |c|]|] eqn:GC; try apply sim_pure.
    pose proof (depth_get_lt _ _ _ GC) as Y'. rewrite get_without in GC by (intros <-; apply NK; cbn; tauto). pose proof (depth_get_lt _ _ _ GC) as Y.
    apply groups_same; lia.
  - destruct (O eq_refl) as [t0 ->].
    cbn [parse_group_list]. apply sim_bind; [|intros _; apply Same; intros x I; [exact (depth_seq _ x _ (in_cons _ _ _ I) D)|exact (depth_seq _ x _ (in_cons _ _ _ I) D')]].
    apply sim_bind; [apply (group_level i j m v t0 GV N)|intros nm]. destruct nm as [t|]; [|apply sim_pure].
    pose proof (depth_seq _ _ _ (in_eq _ _) D) as X. pose proof (depth_seq _ _ _ (in_eq _ _) D') as X'.
    rewrite <- (get_without "level" m "children") by discriminate.
    destruct (get (NMap (without "level" m)) "children") as [[| |c|]|] eqn:GC; try apply sim_pure.
    pose proof (depth_get_lt _ _ _ GC) as Y'. rewrite get_without in GC by discriminate. pose proof (depth_get_lt _ _ _ GC) as Y.
    apply groups_same; lia.
  - cbn [parse_group_list]. apply sim_bind; [|intros _; apply Same; intros x I; [exact (depth_seq _ x _ (in_cons _ _ _ I) D)|exact (depth_seq _ x _ (in_cons _ _ _ I) D')]].
    apply sim_bind; [apply group_children|intros nm]. destruct nm as [t|]; [|apply sim_pure].
    pose proof (depth_seq _ _ _ (in_eq _ _) D) as X. pose proof (depth_seq _ _ _ (in_eq _ _) D') as X'.
    pose proof (get_there "children" (NSeq c) m1 m2 GC) as E1. pose proof (get_there "children" (NSeq c') m1 m2 GC) as E2. rewrite E1, E2.
    pose proof (depth_get_lt _ _ _ E1) as Y. pose proof (depth_get_lt _ _ _ E2) as Y'.
    destruct f as [|f]; [lia|]. destruct f' as [|f']; [lia|]. cbn [parse_groups].
    apply IH; [intros _; exists t; reflexivity|lia|lia].
  - cbn [parse_group_list]. apply sim_bind.
    + destruct n as [| | |m]; try apply sim_say. apply sim_bind; [apply group_same|intros nm]. destruct nm as [t|]; [|apply sim_pure].
      pose proof (depth_seq _ _ _ (in_eq _ _) D) as X. pose proof (depth_seq _ _ _ (in_eq _ _) D') as X'.
      destruct (get (NMap m) "children") as [[| |c|]|] eqn:GC; try apply sim_pure.
      pose proof (depth_get_lt _ _ _ GC) as Y. apply groups_same; lia.
    + intros _. apply IH; [exact O| |].
      * revert D. cbn [depth]. lia.
      * revert D'. cbn [depth]. lia.
Qed.

(** ** Documents *)
Lemma sim_parse d d' : doc_less L d d' -> sim (parse L ord fuel dbg d) (parse L ord fuel dbg d').
Proof.
  intros H. destruct H as [m key NK|m1 s s' m2 GN H|m1 g g' m2 GN H].
  - cbn [parse]. assert (E1 : get (NMap (without key m)) "groups" = get (NMap m) "groups") by (apply get_without; intros <-; apply NK; cbn; tauto).
    assert (E2 : get (NMap (without key m)) "sinks" = get (NMap m) "sinks") by (apply get_without; intros <-; apply NK; cbn; tauto).
    rewrite E1, E2. apply sim_bind; [sims|intros _]. apply sim_bind; [apply check_without|intros _].
    apply sim_bind; [|intros _].
    + destruct (get (NMap m) "sinks") as [s|]; [|apply sim_pure]. destruct s; try apply sim_say. apply sinks_same.
    + destruct (get (NMap m) "groups") as [g|]; [|apply sim_pure]. destruct g; try (cbn [parse_groups]; apply sim_say). apply groups_same; lia.
  - cbn [parse]. rewrite !(get_there "sinks" _ m1 m2 GN). rewrite (get_other "sinks" (NSeq s) (NSeq s') m1 m2 "groups") by discriminate.
    apply sim_bind; [sims|intros _]. apply sim_bind; [apply check_other|intros _].
    apply sim_bind; [|intros _].
    + cbn [parse_sinks]. apply sinks_sim, H.
    + destruct (get _ "groups") as [g|]; [|apply sim_pure]. destruct g; try (cbn [parse_groups]; apply sim_say). apply groups_same; lia.
  - cbn [parse]. rewrite !(get_there "groups" _ m1 m2 GN). rewrite (get_other "groups" (NSeq g) (NSeq g') m1 m2 "sinks") by discriminate.
    apply sim_bind; [apply sim_pure|intros _]. apply sim_bind; [apply check_other|intros _].
    apply sim_bind; [|intros _].
    + destruct (get _ "sinks") as [s|]; [|apply sim_pure]. destruct s; try apply sim_say. apply sinks_same.
    + apply (groups_sim false g g' H (depth (NSeq g)) (depth (NSeq g'))); [discriminate| |]; lia.
Qed.

Lemma yaml_sim prev src src' d d' w : sim (parse L ord fuel dbg d) (parse L ord fuel dbg d') -> document src d -> document src' d' ->
  fst (yaml L ord fuel dbg prev src w) = fst (yaml L ord fuel dbg prev src' w) /\
  same_end (snd (yaml L ord fuel dbg prev src w)) (snd (yaml L ord fuel dbg prev src' w)).
Proof.
  intros H D D'. unfold yaml. destruct (match prev with Some c => c w | None => _ end) as [w0 r0]. destruct r0 as [r0|e|]; cbn; auto.
  assert (E : forall s n, document s n -> forall a, (x <- load s ;; match x with Some y => parse L ord fuel dbg y | None => pure tt end) a = parse L ord fuel dbg n a).
  { intros s n [->|[p ->]] a; [reflexivity|destruct p; reflexivity]. }
  rewrite (E _ _ D), (E _ _ D').
  destruct (H (mkApp w0 [] false false) (mkApp w0 [] false false) eq_refl) as [H1 H2].
  destruct (parse L ord fuel dbg d _) as [a r]. destruct (parse L ord fuel dbg d' _) as [a' r']. cbn [fst snd] in *. subst r'.
  split; [exact H1|]. destruct r; cbn; auto.
Qed.
Lemma tidied_sim d d' : tidied L d d' -> forall prev w src src', document src d -> document src' d' ->
  fst (yaml L ord fuel dbg prev src w) = fst (yaml L ord fuel dbg prev src' w) /\
  same_end (snd (yaml L ord fuel dbg prev src w)) (snd (yaml L ord fuel dbg prev src' w)).
Proof.
  intros H prev w src src' D D'. apply (yaml_sim prev src src' d d' w); [|exact D|exact D']. clear D D'.
  induction H as [d|d d' d'' H _ IH]; [|eapply sim_trans; [apply sim_parse, H|exact IH]].
  destruct d as [| | |m]; try apply sim_say. cbn [parse].
  apply sim_bind; [sims|intros _]. apply sim_bind; [apply sim_check_in|intros _].
  apply sim_bind; [|intros _].
  + destruct (get (NMap m) "sinks") as [s|]; [|apply sim_pure]. destruct s; try apply sim_say. apply sinks_same.
  + destruct (get (NMap m) "groups") as [g|]; [|apply sim_pure]. destruct g; try (cbn [parse_groups]; apply sim_say). apply groups_same; lia.
Qed.
End Tidy.
