(** * Every action of the configurator, whatever the outcome *)
From Coq Require Import String List Arith ZArith NArith Bool Lia.
From Verif Require Import Base LevelModel EventModel SysModel SysSpec YamlModel YamlSpec YamlOutSpec YamlActSpec YamlFacts YamlRead YamlSinks YamlGroups YamlDoc YamlTree YamlOut.
Import ListNotations.
Local Open Scope string_scope.
Local Open Scope list_scope.

Section Acts.
Variable L : lib.
Variable safe : Prop.
Variable ord : list nat -> list nat.
Variable fuel : nat.
Variable dbg : bool.
Notation acts := (acts L safe ord fuel dbg).
Notation sane := (sane L safe).
Notation sane_call := (sane_call safe).
Notation sane_sizes := (sane_sizes L).
Notation sane_kind := (sane_kind L).

Lemma acts_app w l1 w1 l2 w2 : acts w l1 w1 -> acts w1 l2 w2 -> acts w (l1 ++ l2) w2.
Proof. induction 1; cbn; auto; intros; [apply acts_call|apply acts_sink]; auto. Qed.

(** The last call does not return. *)
Definition hangs (w : world) (l : list action) : Prop :=
  exists l1 c w1, l = l1 ++ [ACall c] /\ acts w l1 w1 /\ sane_call w1 c /\
    (snd (step ord fuel dbg (w_sys w1) c) = RHang \/ snd (step ord fuel dbg (w_sys w1) c) = RUB).
Lemma hangs_app w l1 w1 l2 : acts w l1 w1 -> hangs w1 l2 -> hangs w (l1 ++ l2).
Proof.
  intros A (l & c & w2 & -> & A2 & S & H). exists (l1 ++ l), c, w2. rewrite app_assoc. repeat split; auto. eapply acts_app; eauto.
Qed.

(** Any outcome of [m] is reached by sane actions; [Q] holds of the value. *)
Definition does {A} (P : world -> Prop) (m : M A) (Q : world -> A -> Prop) : Prop :=
  forall a a' r, P (a_world a) -> m a = (a', r) ->
    exists l, acts (a_world a) l (a_world a') /\ (r = Stuck -> hangs (a_world a) l) /\ forall x, r = Val x -> Q (a_world a') x.

Lemma does_local {A} (P : world -> Prop) (m : M A) (Q : world -> A -> Prop) : local m ->
  (forall a a' x, P (a_world a) -> m a = (a', Val x) -> Q (a_world a) x) -> does P m Q.
Proof.
  intros HL HQ a a' r HP H. exists []. destruct (HL _ _ _ H) as [W NS]. rewrite W. split; [apply acts_nil|]. split; [contradiction|].
  intros x ->. eapply HQ; eauto.
Qed.
Lemma does_bind {A B} (P : world -> Prop) (m : M A) R (f : A -> M B) Q : does P m R -> (forall x, does (fun w => R w x) (f x) Q) -> does P (bind m f) Q.
Proof.
  intros Hm Hf a a' r HP H. unfold bind in H. destruct (m a) as [a1 [x|e|]] eqn:E.
  - destruct (Hm _ _ _ HP E) as (l1 & A1 & _ & Q1). destruct (Hf x _ _ _ (Q1 x eq_refl) H) as (l2 & A2 & S2 & Q2).
    exists (l1 ++ l2). split; [eapply acts_app; eauto|]. split; auto. intros Z. eapply hangs_app; eauto.
  - inversion H; subst. destruct (Hm _ _ _ HP E) as (l1 & A1 & _). exists l1. split; auto. split; discriminate.
  - inversion H; subst. destruct (Hm _ _ _ HP E) as (l1 & A1 & S1 & _). exists l1. split; auto. split; [auto|discriminate].
Qed.
(** A step that leaves the system alone keeps what is known of it. *)
Lemma does_step {A B} (P : world -> Prop) (m : M A) (R : world -> A -> Prop) (f : A -> M B) Q : local m ->
  (forall a a' x, P (a_world a) -> m a = (a', Val x) -> R (a_world a) x) ->
  (forall x, does (fun w => P w /\ R w x) (f x) Q) -> does P (bind m f) Q.
Proof.
  intros HL HR Hf. eapply does_bind with (R := fun w x => P w /\ R w x); [|exact Hf].
  apply does_local; auto. intros a a' x HP H. split; eauto.
Qed.
Lemma does_weaken {A} (P P' : world -> Prop) (m : M A) (Q Q' : world -> A -> Prop) :
  (forall w, P' w -> P w) -> (forall w x, Q w x -> Q' w x) -> does P m Q -> does P' m Q'.
Proof. intros HP HQ H a a' r p E. destruct (H _ _ _ (HP _ p) E) as (l & A1 & A2 & A3). exists l. split; auto. Qed.
Lemma does_call (P : world -> Prop) c (Q : world -> unit -> Prop) : (forall w, P w -> sane_call w c) ->
  (forall w w' u, P w -> world_call ord fuel dbg c w = (w', Val u) -> Q w' tt) ->
  does P (do_call ord fuel dbg c) Q.
Proof.
  intros HS HQ a a' r HP H. unfold do_call, on_world in H.
  destruct (world_call ord fuel dbg c (a_world a)) as [w' r'] eqn:E. inversion H; subst. cbn [a_world]. exists [ACall c]. split.
  - apply acts_call; auto. rewrite E. apply acts_nil.
  - split; [|intros [] ->; eapply HQ; eauto]. intros ->. exists [], c, (a_world a). split; [reflexivity|]. split; [apply acts_nil|]. split; [auto|].
    unfold world_call in E. destruct (step ord fuel dbg (w_sys (a_world a)) c) as [s' o]. cbn.
    destruct o; try (inversion E; fail); auto. destruct c; inversion E.
Qed.
Lemma does_make (P : world -> Prop) d : (forall w, P w -> constructible L (w_busy w) d -> sane w (ASink d)) ->
  does P (make_sink L ord fuel dbg d) (fun _ _ => True).
Proof.
  intros HS a a' r HP H. destruct r as [[]|e|].
  - apply out_make in H as [C ->]. exists [ASink d]. split; [apply acts_sink; auto; apply acts_nil|]. split; [discriminate|auto].
  - exists []. split; [|split; discriminate]. unfold make_sink, on_world, world_sink in H.
    destruct (build L d); [inversion H; apply acts_nil|]. destruct (_ && _); [inversion H; apply acts_nil|].
    destruct (step _ _ _ _ _). inversion H.
  - unfold make_sink, on_world, world_sink in H.
    destruct (build L d); [inversion H|]. destruct (_ && _); [inversion H|]. destruct (step _ _ _ _ _). inversion H.
Qed.

(** ** Sinks *)
Lemma val_level tg n a a' x : parse_level L tg n a = (a', Val x) -> x <> Some IGNORE.
Proof.
  unfold parse_level. destruct (get n "level") as [[|t|l|l]|]; intros H.
  1,3,4: (pose proof (bind_say_pure _ _ _ _ _ _ _ H) as ->; discriminate).
  - repeat match type of H with (if ?b then _ else _) _ = _ => destruct b end;
      try (apply pure_val in H as [_ ->]; discriminate); try (inv_bind H b u E; apply pure_val in H as [_ ->]; discriminate).
  - apply pure_val in H as [_ ->]. discriminate.
Qed.
Lemma val_sink_level nm n a a' x : sink_level L nm n a = (a', Val x) -> x <> IGNORE.
Proof.
  unfold sink_level. intros H. inv_bind H a1 o E. apply pure_val in H as [-> ->]. apply val_level in E. destruct o; congruence.
Qed.

Definition raw_sizes (z : sizes) : Prop :=
  sane_number 4 (z_capacity z) /\ sane_number 64 (z_message z) /\
  (forall b, z_buffer z = Some b -> (event_size L * 4 <= b)%N /\ (b < 2 ^ 31 \/ 2 ^ 63 <= b)%N) /\ sane_number 0 (z_latency z).
Lemma val_number key wrong good nm n a a' x : parse_number L key wrong good nm n a = (a', Val x) ->
  forall b, x = Some b -> exists t z, as_int L t = Some z /\ good t z = true /\ b = to_size z.
Proof.
  unfold parse_number. intros H b ->. destruct (get n key) as [[|t|l|l]|]; try (apply bind_say_pure in H; discriminate).
  - inv_bind H a1 z E. unfold to_int in E. destruct (as_int L t) eqn:Z; [|discriminate]. apply pure_val in E as [-> ->].
    destruct (good t z0) eqn:G; [|apply bind_say_pure in H; discriminate]. apply pure_val in H as [_ H]. inversion H; subst. eauto.
  - apply pure_val in H as [_ H]. discriminate.
Qed.
Lemma val_sizes c nm n a a' z : parse_sizes L c nm n a = (a', Val z) -> usual_lib L -> raw_sizes z.
Proof.
  unfold parse_sizes. intros H UL.
  inv_bind H a1 cap E1. inv_bind H a2 buf E2. inv_bind H a3 msg E3. inv_bind H a4 lat E4. apply pure_val in H as [-> ->].
  unfold raw_sizes. cbn [z_capacity z_buffer z_message z_latency]. unfold sane_number.
  split; [|split; [|split]]; intros b Hb.
  - destruct (val_number _ _ _ _ _ _ _ _ E1 _ Hb) as (t & z & Z & G & ->). pose proof (ul_int _ UL _ _ Z).
    cbv beta in G. rewrite to_size_small by lia. lia.
  - destruct (val_number _ _ _ _ _ _ _ _ E3 _ Hb) as (t & z & Z & G & ->). pose proof (ul_int _ UL _ _ Z).
    cbv beta in G. assert (64 <= z)%Z by (destruct c; lia). rewrite to_size_small by lia. lia.
  - destruct (val_number _ _ _ _ _ _ _ _ E2 _ Hb) as (t & z & Z & G & ->). pose proof (ul_int _ UL _ _ Z).
    apply N.leb_le in G. split; [exact G|]. destruct (Z.lt_ge_cases z 0).
    + right. apply to_size_negative. lia.
    + left. rewrite to_size_small by lia. lia.
  - destruct (val_number _ _ _ _ _ _ _ _ E4 _ Hb) as (t & z & Z & G & ->). pose proof (ul_int _ UL _ _ Z).
    apply andb_prop in G as [_ G]. rewrite to_size_small by lia. lia.
Qed.
Lemma sane_built (RH : refuses_huge_buffers L) d busy z : constructible L busy d ->
  match d_kind d with KConsole _ _ _ z | KFile _ _ z | KSyslog _ _ z => Some z | KMulti _ => None end = Some z ->
  raw_sizes z -> sane_sizes z.
Proof.
  intros C E (R1 & R2 & R3 & R4). split; [|split; [|split]]; auto.
  intros b Hb. destruct (R3 b Hb) as [Q1 Q2]. pose proof (small L RH d busy z C E b Hb). lia.
Qed.

Notation top := (fun _ : world => True).
Notation any := (fun (_ : world) (_ : unit) => True).

Lemma does_console nm n : nm <> "*" -> does top (parse_console L ord fuel dbg nm n) any.
Proof.
  intros NS. unfold parse_console.
  eapply does_step with (R := fun _ _ => True); [mono|auto|intros color].
  eapply does_step with (R := fun _ _ => True); [mono|auto|intros str].
  eapply does_step with (R := fun _ _ => True); [mono|auto|intros ti].
  eapply does_step with (R := fun _ z => usual_lib L -> raw_sizes z); [mono|intros ? ? ? _; apply val_sizes|intros z].
  eapply does_step with (R := fun _ l => l <> IGNORE); [mono|intros ? ? ? _; apply val_sink_level|intros lv].
  eapply does_step with (R := fun _ _ => True); [mono|auto|intros u].
  eapply does_step with (R := fun _ _ => True); [mono|auto|intros v].
  apply does_make. intros w H C. cbn. split; [exact NS|]. split; [tauto|]. split; [exact C|].
  intros UL RH. eapply sane_built; [exact RH|exact C|reflexivity|tauto].
Qed.
Lemma does_with key mk nm n : nm <> "*" ->
  (forall t ti z, match mk t ti z with KConsole _ _ _ z | KFile _ _ z | KSyslog _ _ z => Some z | KMulti _ => None end = Some z) ->
  does top (parse_with L ord fuel dbg key mk nm n) any.
Proof.
  intros NS NZ. unfold parse_with.
  eapply does_step with (R := fun _ _ => True); [mono|auto|intros text].
  eapply does_step with (R := fun _ _ => True); [mono|auto|intros ti].
  eapply does_step with (R := fun _ z => usual_lib L -> raw_sizes z); [mono|intros ? ? ? _; apply val_sizes|intros z].
  eapply does_step with (R := fun _ l => l <> IGNORE); [mono|intros ? ? ? _; apply val_sink_level|intros lv].
  eapply does_step with (R := fun _ _ => True); [mono|auto|intros u].
  destruct text as [t|]; [|apply does_local; [mono|auto]].
  eapply does_step with (R := fun _ _ => True); [mono|auto|intros v].
  apply does_make. intros w H C. cbn. split; [exact NS|]. split; [tauto|]. split; [exact C|].
  assert (usual_lib L -> refuses_huge_buffers L -> sane_sizes z) by (intros UL RH; eapply sane_built; [exact RH|exact C|apply NZ|tauto]).
  specialize (NZ t ti z). unfold sane_kind. destruct (mk t ti z); inversion NZ; subst; auto.
Qed.
Lemma val_members nm l : forall a a' ks, find_members nm l a = (a', Val ks) ->
  Forall (fun k => exists t, find (smap (w_sys (a_world a))) t = Some k) ks.
Proof.
  intros a a' ks H. apply out_members in H as [-> _]. induction l as [|t l IH]; cbn; [constructor|].
  destruct (find _ t) eqn:E; cbn; auto. constructor; eauto.
Qed.
Lemma does_multi nm n : nm <> "*" -> does top (parse_multisink L ord fuel dbg nm n) any.
Proof.
  intros NS. unfold parse_multisink.
  eapply does_step with (R := fun _ _ => True); [mono|auto|intros mb].
  eapply does_step with (R := fun _ l => l <> IGNORE); [mono|intros ? ? ? _; apply val_sink_level|intros lv].
  eapply does_step with (R := fun _ _ => True); [mono|auto|intros u].
  destruct mb as [l|]; [|apply does_local; [mono|auto]].
  eapply does_step with (R := fun _ _ => True); [mono|auto|intros names].
  eapply does_step with (R := fun w ks => Forall (fun k => exists t, find (smap (w_sys w)) t = Some k) ks);
    [mono|intros ? ? ? _; apply val_members|intros ks].
  apply does_make. intros w H C. cbn. split; [exact NS|]. split; [tauto|]. split; [exact C|]. tauto.
Qed.
Lemma does_say (P : world -> Prop) e w l : does P (say e w l) any.
Proof. apply does_local; [mono|auto]. Qed.
Lemma does_sink i n : does top (parse_sink L ord fuel dbg i n) any.
Proof.
  unfold parse_sink, parse_file, parse_syslog, error, warning.
  eapply does_step with (R := fun _ _ => True); [mono|auto|intros nm].
  eapply does_step with (R := fun _ _ => True); [mono|auto|intros ty].
  destruct nm as [nm|]; [|apply does_local; [mono|auto]]. destruct ty as [ty|]; [|apply does_local; [mono|auto]].
  destruct (String.eqb_spec nm "*") as [|N]; [apply does_say|].
  destruct (ty =? "console"); [apply (does_weaken top _ _ any any); [tauto|tauto|now apply does_console]|].
  destruct (ty =? "file"); [apply (does_weaken top _ _ any any); [tauto|tauto|apply does_with; [exact N|reflexivity]]|].
  destruct (ty =? "syslog"); [apply (does_weaken top _ _ any any); [tauto|tauto|apply does_with; [exact N|reflexivity]]|].
  destruct (ty =? "multisink"); [apply (does_weaken top _ _ any any); [tauto|tauto|now apply does_multi]|].
  apply does_say.
Qed.
Lemma does_sink_list l : forall i, does top (parse_sink_list L ord fuel dbg i l) any.
Proof.
  induction l as [|n l IH]; intros i; cbn [parse_sink_list]; [apply does_local; [mono|auto]|].
  eapply does_bind with (R := any); [|intros; apply IH].
  destruct n; [apply does_say..|apply does_sink].
Qed.
Lemma does_sinks n : does top (parse_sinks L ord fuel dbg n) any.
Proof. unfold parse_sinks, error. destruct n; [apply does_say|apply does_say|apply does_sink_list|apply does_say]. Qed.

(** ** Groups *)
Lemma call_known c w t : known w t -> known (fst (world_call ord fuel dbg c w)) t \/ ~ sane_call w c.
Proof.
  intros K. unfold known in *. destruct (world_call ord fuel dbg c w) as [w' r] eqn:E. cbn [fst].
  destruct c; try (right; intros []; fail); left;
    first [ rewrite (call_make_smap _ _ _ _ _ _ _ _ _ _ E); exact K
          | apply call_fallback in E as [-> _]; exact K
          | apply world_call_sys in E; rewrite E;
            match goal with |- context [step _ _ _ _ ?c] => rewrite (proj2 (set_call_maps ord fuel dbg (w_sys w) c Logic.I)) end; exact K ].
Qed.
Lemma acts_known w l w' t : acts w l w' -> known w t -> known w' t.
Proof.
  induction 1 as [|w c l w' S A IH|w d l w' S A IH]; auto; intros K; apply IH.
  - destruct (call_known c w t K); [auto|contradiction].
  - unfold known, world_with_sink, add_sink. cbn. rewrite find_assign. destruct (String.eqb_spec (d_name d) t); [discriminate|exact K].
Qed.
Lemma does_known {A} (P : world -> Prop) (m : M A) Q t : does P m Q -> does (fun w => P w /\ known w t) m (fun w x => Q w x /\ known w t).
Proof.
  intros H a a' r [HP HK] E. destruct (H _ _ _ HP E) as (l & A1 & A2 & A3). exists l. split; auto. split; auto.
  intros x ->. split; [auto|]. eapply acts_known; eauto.
Qed.

Lemma does_group i n parent : parent <> Some "*" ->
  (forall t p, safe -> parent = Some p -> get n "name" = Some (NScalar t) -> t <> p) ->
  does (fun w => known w "*") (parse_group L ord fuel dbg i n parent)
    (fun w o => forall t, o = Some t -> t <> "*" /\ get n "name" = Some (NScalar t)).
Proof.
  intros NP NEST. unfold parse_group.
  eapply does_step with (R := fun _ nm => forall t, nm = Some t -> get n "name" = Some (NScalar t)); [mono| |intros nm].
  { intros a a' nm _ H t ->. destruct (get n "name") as [[|t'|x|x]|]; try (apply bind_say_pure in H; discriminate).
    apply pure_val in H as [_ H]. congruence. }
  cbv zeta. set (tmp := match nm with Some t => _ | None => _ end).
  eapply does_step with (R := fun _ _ => True); [mono|auto|intros fb].
  eapply does_step with (R := fun w sk => snd sk = false -> (parent = None -> fst sk <> None) /\ forall t, fst sk = Some t -> known w t);
    [mono| |intros sk].
  { intros a a' sk (KS & _) H F. destruct (get n "sink") as [[|t'|x|x]|].
    1,3,4: apply bind_say_pure in H; subst sk; discriminate.
    - inv_bind H a1 k E. inversion E; subst a1 k. destruct (find (smap (w_sys (a_world a))) t') eqn:K in H.
      + apply pure_val in H as [_ ->]. cbn. split; [discriminate|]. intros t Q. inversion Q; subst. unfold known. congruence.
      + apply bind_say_pure in H. subst sk. discriminate.
    - apply pure_val in H as [_ ->]. cbn. destruct parent; split; try discriminate. intros t Q. inversion Q; subst. tauto. }
  eapply does_step with (R := fun _ _ => True); [mono|auto|intros nl].
  eapply does_step with (R := fun _ l => l <> Some IGNORE); [mono|intros ? ? ? _; apply val_level|intros lv].
  eapply does_step with (R := fun _ _ => True); [mono|auto|intros bc].
  eapply does_step with (R := fun _ _ => True); [mono|auto|intros u].
  eapply does_step with (R := fun _ _ => True); [mono|auto|intros v].
  assert (BAD : forall P, does P (warning ("W: There are probably more bugs in the group " +++ tmp +++ "; Fix the existing ones first.") ;;; pure None)
    (fun w (o : option string) => forall t, o = Some t -> t <> "*" /\ get n "name" = Some (NScalar t))).
  { intros P. apply does_local; [mono|]. intros a a' x _ H t ->. apply bind_say_pure in H. discriminate. }
  destruct nm as [name|]; [|apply BAD]. destruct fb as [fb|]; [|apply BAD].
  destruct (snd sk || nl || bc) eqn:F; [apply BAD|]. apply orb_false_iff in F as [F _]. apply orb_false_iff in F as [F _].
  destruct (String.eqb_spec name "*") as [|NS].
  { apply does_local; [mono|]. intros a a' x _ H t ->. apply bind_say_pure in H. discriminate. }
  eapply does_step with (R := fun w g => g = find (gmap (w_sys w)) name); [mono| |intros g].
  { intros a a' x _ H. inversion H. reflexivity. }
  set (I := fun w => get n "name" = Some (NScalar name) /\ (parent = None -> fst sk <> None) /\
                     (forall t, fst sk = Some t -> known w t) /\ lv <> Some IGNORE).
  assert (IK : forall w c, I w -> sane_call w c -> I (fst (world_call ord fuel dbg c w))).
  { intros w c (I1 & I2 & I3 & I4) S. split; [exact I1|]. split; [exact I2|]. split; [|exact I4].
    intros t Q. destruct (call_known c w t (I3 t Q)); [auto|contradiction]. }
  assert (SET : forall c, set_call c -> (forall w, I w /\ find (gmap (w_sys w)) name <> None -> sane_call w c) ->
     does (fun w => I w /\ find (gmap (w_sys w)) name <> None) (do_call ord fuel dbg c) (fun w _ => I w /\ find (gmap (w_sys w)) name <> None)).
  { intros c SC HS. apply does_call; [exact HS|]. intros w w' u0 [HI HF] E.
    assert (W : w' = fst (world_call ord fuel dbg c w)) by now rewrite E. split.
    - rewrite W. apply IK; auto.
    - apply world_call_sys in E. rewrite E. now rewrite (proj1 (set_call_maps ord fuel dbg (w_sys w) c SC)). }
  assert (NOP : does (fun w => I w /\ find (gmap (w_sys w)) name <> None) (pure tt) (fun w _ => I w /\ find (gmap (w_sys w)) name <> None)).
  { apply does_local; [mono|]. auto. }
  match goal with |- does ?Pre _ _ => assert (HI : forall w, Pre w -> I w) end.
  { intros w [[[[[[[[[_ H1] _] H2] _] H4] _] _] _] HG]. destruct (H2 F) as [P1 P2]. unfold I. auto. }
  eapply does_bind with (R := fun w _ => I w /\ find (gmap (w_sys w)) name <> None).
  - destruct g as [g|].
    + eapply (does_weaken (fun w => I w /\ find (gmap (w_sys w)) name <> None) _ _ (fun w _ => I w /\ find (gmap (w_sys w)) name <> None) _); [|intros w x Hx; exact Hx|].
      { intros w H. split; [now apply HI|]. destruct H as [_ H]; congruence. }
      apply (does_bind (fun w => I w /\ find (gmap (w_sys w)) name <> None) _ (fun w _ => I w /\ find (gmap (w_sys w)) name <> None) _ (fun w _ => I w /\ find (gmap (w_sys w)) name <> None)); [destruct parent as [p|]; [apply SET|exact NOP]|intros _].
      * exact Logic.I.
      * intros w [(I1 & _) HF]. cbn. repeat match goal with |- _ /\ _ => split end; [exact NS|congruence|exact HF|]. intros s. now apply (NEST name p).
      * apply (does_bind (fun w => I w /\ find (gmap (w_sys w)) name <> None) _ (fun w _ => I w /\ find (gmap (w_sys w)) name <> None) _ (fun w _ => I w /\ find (gmap (w_sys w)) name <> None)); [destruct (fst sk) as [k|] eqn:EK; [apply SET|exact NOP]|intros _].
        -- exact Logic.I.
        -- intros w [(I1 & I2 & I3 & I4) HF]. cbn. repeat split; auto.
        -- destruct lv as [l|]; [apply SET|exact NOP]; [exact Logic.I|].
           intros w [(I1 & I2 & I3 & I4) HF]. cbn. repeat split; auto. congruence.
    + apply does_call.
      * intros w H. destruct (HI w H) as (I1 & I2 & I3 & I4). cbn. destruct H as (_ & HG). repeat match goal with |- _ /\ _ => split end; auto.
      * intros w w' u0 H E. split.
        -- assert (W : w' = fst (world_call ord fuel dbg (MakeGroup name parent (fst sk) lv) w)) by now rewrite E.
           rewrite W. apply IK.
           ++ now apply HI.
           ++ destruct (HI w H) as (I1 & I2 & I3 & I4). cbn. destruct H as (_ & HG). repeat match goal with |- _ /\ _ => split end; auto.
        -- apply call_make in E. apply E.
  - intros _. eapply does_bind with (R := fun w _ => I w).
    + destruct fb.
      * apply does_call.
        -- intros w [HJ HF]. cbn. auto.
        -- intros w w' u0 [HJ HF] E. assert (W : w' = fst (world_call ord fuel dbg (SetFallbackGroup name) w)) by now rewrite E.
           rewrite W. apply IK; auto. cbn. auto.
      * apply does_local; [mono|]. intros a a' x [HJ _] _. exact HJ.
    + intros _. apply does_local; [mono|]. intros a a' x HJ H t ->. apply pure_val in H as [_ H]. inversion H; subst.
      split; [exact NS|]. apply HJ.
Qed.

Lemma depth_get_lt l key v : get (NMap l) key = Some v -> depth v < depth (NMap l).
Proof.
  cbn [get depth]. induction l as [|[k x] l IH]; cbn [get_in]; [discriminate|]. destruct k; try (intros H; apply IH in H; lia).
  destruct (String.eqb text key); intros H; [inversion H; subst; lia|apply IH in H; lia].
Qed.
Lemma does_group_list f ch : (forall c t, depth (NSeq c) < f -> t <> "*" -> (safe -> ~ nested (Some t) c) -> does (fun w => known w "*") (ch (NSeq c) (Some t)) any) ->
  forall l i p, depth (NSeq l) <= f -> p <> Some "*" -> (safe -> ~ nested p l) ->
  does (fun w => known w "*") (parse_group_list L ord fuel dbg ch i l p) any.
Proof.
  intros CH. induction l as [|n l IH]; intros i p DP NP NE; cbn [parse_group_list]; [apply does_local; [mono|auto]|].
  assert (NL : safe -> ~ nested p l).
  { intros s Q. apply (NE s). inversion Q; subst; [eapply ne_here; [right|]; eauto|eapply ne_below; [right|..]; eauto]. }
  eapply does_bind with (R := fun w _ => known w "*"); [|intros; apply IH; auto; cbn [depth] in DP |- *; lia].
  assert (T : forall m, does (fun w => known w "*") m any -> does (fun w => known w "*") m (fun w (_ : unit) => known w "*")).
  { intros m H. apply does_known with (t := "*") in H. eapply does_weaken; [| |exact H]; cbn; tauto. }
  apply T. destruct n as [|t|x|x]; [apply does_say..|].
  eapply does_bind with (R := fun w o => (forall t, o = Some t -> t <> "*" /\ get (NMap x) "name" = Some (NScalar t)) /\ known w "*").
  - eapply does_weaken; [| |apply does_known with (t := "*"), (does_group i (NMap x) p NP)]; cbn; try tauto.
    intros t q s -> Hn ->. apply (NE s). eapply ne_here; [now left|exact Hn].
  - intros o. destruct o as [t|]; [|apply does_local; [mono|auto]].
    destruct (get (NMap x) "children") as [[| |c|]|] eqn:EC; try (apply does_local; [mono; fail|auto; fail]).
    intros a a' r [H1 H2] E. destruct (H1 t eq_refl) as [Q1 Q2]. refine (CH c t _ Q1 _ _ _ _ H2 E).
    { apply depth_get_lt in EC. revert DP. remember (NMap x) as y. remember (NSeq c) as z. cbn [depth]. subst z. lia. }
    intros s B. apply (NE s). eapply ne_below; [now left|exact Q2|]. unfold children_of. now rewrite EC.
Qed.
Lemma does_groups f : forall l p, depth (NSeq l) < f -> p <> Some "*" -> (safe -> ~ nested p l) ->
  does (fun w => known w "*") (parse_groups L ord fuel dbg f (NSeq l) p) any.
Proof.
  induction f as [|f IH]; intros l p DP NP NE; [lia|]. cbn [parse_groups].
  apply (does_group_list f); auto; [|lia]. intros c t D N H. apply IH; [exact D|congruence|exact H].
Qed.

Lemma does_parse n : (safe -> ~ nested None (top_groups n)) -> does (fun w => known w "*") (parse L ord fuel dbg n) any.
Proof.
  intros NE. unfold parse. destruct n as [|t|x|l]; try apply does_say.
  eapply does_step with (R := fun _ _ => True); [mono|auto|intros u].
  eapply does_step with (R := fun _ _ => True); [mono|auto|intros v].
  eapply does_bind with (R := fun w _ => known w "*").
  - eapply does_weaken with (P := fun w => True /\ known w "*") (Q := fun w _ => True /\ known w "*"); [tauto|tauto|].
    apply does_known. destruct (get (NMap l) "sinks"); [apply does_sinks|apply does_local; [mono|auto]].
  - intros _. unfold top_groups in NE. destruct (get (NMap l) "groups") as [[|t|g|g]|]; [apply does_say|apply does_say| |apply does_say|apply does_local; [mono|auto]].
    apply does_groups; [lia|discriminate|exact NE].
Qed.
End Acts.
