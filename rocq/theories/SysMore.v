(** * More properties of the logging system *)
From Coq Require Import String List Arith Bool Lia Permutation.
From Verif Require Import Base LevelModel SysModel SysSpec SysBase SysSpread SysInv SysOps SysSteps SysProps.
Import ListNotations.

(** ** C51: configure *)
Section Configure.
Variable ord : list nat -> list nat.
Variable dbg : bool.

Lemma configure_twice fuel fuel' s sc sc' : configured s = false ->
  configured (fst (configure ord fuel dbg s sc)) = true /\
  configure ord fuel' dbg (fst (configure ord fuel dbg s sc)) sc' = (fst (configure ord fuel dbg s sc), (None, RThrow)).
Proof.
  intros Hc. assert (H : configured (fst (configure ord fuel dbg s sc)) = true).
  { unfold configure. rewrite Hc. pose proof (run_configured ord dbg fuel (sc_calls sc) (with_configured s)) as Hr.
    destruct (run ord fuel dbg (with_configured s) (sc_calls sc)) as [s1 os]. cbn in Hr.
    destruct (existsb _ os); [exact Hr|]. destruct (existsb _ os); [exact Hr|]. destruct (sc_end sc); [|exact Hr].
    destruct (gmap s1); [exact Hr|]. match goal with |- context [match ?e with Some _ => _ | None => _ end] => destruct e end; exact Hr. }
  split; [exact H|]. unfold configure at 1. rewrite H. reflexivity.
Qed.

Lemma no_throw fuel s sc : configured s = false -> snd (snd (configure ord fuel dbg s sc)) <> RThrow.
Proof.
  intros Hc. unfold configure. rewrite Hc. destruct (run ord fuel dbg (with_configured s) (sc_calls sc)) as [s1 os].
  destruct (existsb _ os); [discriminate|]. destruct (existsb _ os); [discriminate|]. destruct (sc_end sc); [|discriminate].
  destruct (gmap s1); [discriminate|]. match goal with |- context [match ?e with Some _ => _ | None => _ end] => destruct e end; discriminate.
Qed.

Lemma returned_existsb os : all_returned os ->
  existsb (fun o => match o with RHang => true | _ => false end) os = false /\
  existsb (fun o => match o with RUB => true | _ => false end) os = false.
Proof.
  intros (H1 & H2). split.
  - destruct (existsb _ os) eqn:E; [|reflexivity]. apply existsb_exists in E. destruct E as (o & Ho & Hb). destruct o; try discriminate. contradiction.
  - destruct (existsb _ os) eqn:E; [|reflexivity]. apply existsb_exists in E. destruct E as (o & Ho & Hb). destruct o; try discriminate. contradiction.
Qed.

Definition has_sinks (s1 : sys) (m : list (string * nat)) : Prop :=
  forall n i, In (n, i) m -> n <> "*"%string -> exists G k kn, nth_error (groups s1) i = Some G /\ g_sink G = Some k /\ nth_error (sinks s1) k = Some kn.

Lemma check_spec s1 m : forall r, has_sinks s1 m ->
  fold_left (fun (a : option result) (e : string * nat) =>
              match a with
              | None => None
              | Some r =>
                  if String.eqb (fst e) "*" then Some r
                  else match nth_error (groups s1) (snd e) with
                       | None => None
                       | Some y =>
                           match g_sink y with
                           | None => None
                           | Some k =>
                               match nth_error (sinks s1) k with
                               | Some n => if String.eqb n "*"
                                           then Some (mkResult (has_error r) true
                                                  (message r ++ [("W: Group '" ++ fst e ++ "' has undefined sink; Sink to nowhere will be used")%string]))
                                           else Some r
                               | None => None
                               end
                           end
                       end
              end) m (Some r) =
  Some (mkResult (has_error r) (has_warning r || existsb (sends_nowhere s1) m)
                 (message r ++ map nowhere_warning (filter (sends_nowhere s1) m))).
Proof.
  induction m as [|[n i] m IH]; intros r Hs; cbn [fold_left].
  - cbn. rewrite orb_false_r, app_nil_r. destruct r; reflexivity.
  - assert (Hs' : has_sinks s1 m) by (intros n' i' Hi; apply Hs; right; exact Hi).
    cbn [existsb filter]. unfold sends_nowhere at 1 3. cbn [fst snd].
    destruct (String.eqb_spec n "*") as [->|Hn]; cbn [negb andb orb].
    + apply IH. exact Hs'.
    + destruct (Hs n i (or_introl eq_refl) Hn) as (G & k & kn & EG & EK & EN). rewrite EG, EK, EN.
      destruct (String.eqb_spec kn "*") as [->|Hkn].
      * rewrite IH by exact Hs'. cbn. rewrite <- app_assoc. rewrite orb_true_r. reflexivity.
      * rewrite IH by exact Hs'. reflexivity.
Qed.

Lemma configure_returns fuel s sc : configured s = false ->
  let '(s1, os) := run ord fuel dbg (with_configured s) (sc_calls sc) in
  all_returned os ->
  match sc_end sc with
  | inr what => configure ord fuel dbg s sc =
      (s1, (Some (mkResult true false ["E: Configure is failed: " ++ what ++ "; Logging system is unworkable"]%string), RUnit))
  | inl r =>
      (gmap s1 = [] -> configure ord fuel dbg s sc =
         (s1, (Some (mkResult true (has_warning r) (message r ++ ["E: No one group is defined; Logging system is unworkable"%string])), RUnit))) /\
      (gmap s1 <> [] -> has_sinks s1 (gmap s1) -> configure ord fuel dbg s sc =
         (s1, (Some (mkResult (has_error r) (has_warning r || existsb (sends_nowhere s1) (gmap s1))
                              (message r ++ map nowhere_warning (filter (sends_nowhere s1) (gmap s1)))), RUnit)))
  end.
Proof.
  intros Hc. unfold configure. rewrite Hc. destruct (run ord fuel dbg (with_configured s) (sc_calls sc)) as [s1 os] eqn:R.
  intros Hr. destruct (returned_existsb _ Hr) as (-> & ->). destruct (sc_end sc) as [r|what]; [|reflexivity]. split.
  - intros ->. reflexivity.
  - intros Hg Hs. rewrite (check_spec s1 (gmap s1) r Hs). destruct (gmap s1); [contradiction|reflexivity].
Qed.
End Configure.

(** ** C55: sinks *)
Section Sinks.
Variable ord : list nat -> list nat.
Hypothesis Hord : rearranges ord.
Variable dbg : bool.

Definition SInv (s : sys) : Prop :=
  (forall x X, nth_error (groups s) x = Some X -> g_sink X <> None) /\
  (forall i L, nth_error (loggers s) i = Some L -> l_sink L <> None).

Lemma S_level s s' g l b : SInv s -> level_changed s s' g l b -> SInv s'.
Proof.
  intros (G & Lo) ((HL & HLl & _) & HG & HLg). split.
  - intros x X' E. destruct (nth_pull _ _ _ _ HL E) as (X & EX). destruct (HG _ _ EX) as (X2 & E2 & B & _). rewrite E in E2. injection E2 as <-.
    unfold g_but_level in B. replace (g_sink X') with (g_sink X) by congruence. eauto.
  - intros i L' E. destruct (nth_pull _ _ _ _ HLl E) as (L & EL). destruct (HLg _ _ EL) as (L2 & E2 & B & _). rewrite E in E2. injection E2 as <-.
    unfold l_but_level in B. replace (l_sink L') with (l_sink L) by congruence. eauto.
Qed.

Lemma S_sink s s' g k b : Inv s -> SInv s -> k <> None -> sink_changed s s' g k b -> SInv s'.
Proof.
  intros I (G & Lo) Hk ((HL & HLl & _) & HG & HLg). split.
  - intros x X' E. destruct (nth_pull _ _ _ _ HL E) as (X & EX). destruct (HG _ _ EX) as (X2 & E2 & B & _ & K1 & K2). rewrite E in E2. injection E2 as <-.
    destruct (A_root _ I _ _ EX) as (h & Hh). destruct (inherits_dec g_sov s g x h Hh) as [Hi|Hi]; [rewrite (K1 Hi); exact Hk|rewrite (K2 Hi); eauto].
  - intros i L' E. destruct (nth_pull _ _ _ _ HLl E) as (L & EL). destruct (HLg _ _ EL) as (L2 & E2 & B & _ & K1 & K2). rewrite E in E2. injection E2 as <-.
    destruct (lt_nth_some _ _ (V_lgrp _ I _ _ EL)) as (Y & EY). destruct (A_root _ I _ _ EY) as (h & Hh).
    destruct (inherits_dec g_sov s g _ h Hh) as [Hi|Hi]; [|rewrite K2 by tauto; eauto].
    destruct (l_alive L) eqn:A; [|rewrite K2 by (intros (? & _); congruence); eauto].
    destruct (l_sov L) eqn:O; [rewrite K2 by (intros (_ & ? & _); congruence); eauto|]. rewrite K1 by auto. exact Hk.
Qed.

Lemma S_parent s s' g p l k : Inv s -> Inv s' -> SInv s -> k <> None -> parent_changed s s' g p l k -> SInv s'.
Proof.
  intros I I' (G & Lo) Hk ((HL & HLl & _) & HG & HLg). split.
  - intros x X' E. destruct (nth_pull _ _ _ _ HL E) as (X & EX). destruct (HG _ _ EX) as (X2 & E2 & _ & _ & _ & _ & _ & _ & K1 & K2). rewrite E in E2. injection E2 as <-.
    destruct (A_root _ I' _ _ E) as (h & Hh). destruct (inherits_dec g_sov s' g x h Hh) as [Hi|Hi]; [rewrite (K1 Hi); exact Hk|rewrite (K2 Hi); eauto].
  - intros i L' E. destruct (nth_pull _ _ _ _ HLl E) as (L & EL). destruct (HLg _ _ EL) as (L2 & E2 & _ & Hgr & _ & _ & _ & _ & _ & K1 & K2). rewrite E in E2. injection E2 as <-.
    destruct (lt_nth_some _ _ (V_lgrp _ I' _ _ E)) as (Y & EY). destruct (A_root _ I' _ _ EY) as (h & Hh). rewrite Hgr in Hh.
    destruct (inherits_dec g_sov s' g _ h Hh) as [Hi|Hi]; [|rewrite K2 by tauto; eauto].
    destruct (l_alive L) eqn:A; [|rewrite K2 by (intros (? & _); congruence); eauto].
    destruct (l_sov L) eqn:O; [rewrite K2 by (intros (_ & ? & _); congruence); eauto|]. rewrite K1 by auto. exact Hk.
Qed.

Lemma S_mod_logger s i f : SInv s -> (forall L, nth_error (loggers s) i = Some L -> l_sink L <> None -> l_sink (f L) <> None) -> SInv (mod_logger s i f).
Proof.
  intros (G & Lo) Hf. unfold mod_logger. destruct (nth_error (loggers s) i) as [L|] eqn:E; [|split; assumption]. split; [exact G|].
  cbn. intros j M EM. apply nth_set_cases in EM. destruct EM as [(-> & ->)|(_ & EM)]; eauto.
Qed.

Lemma sink_from_some i y L : l_sink L <> None -> l_sink (l_sink_from i y L) <> None.
Proof. unfold l_sink_from. destruct (g_sink y); cbn; [discriminate|auto]. Qed.
Lemma set_group_some i y L : l_sink L <> None -> l_sink (l_set_group i y L) <> None.
Proof.
  intros H. unfold l_set_group, l_sink_from. cbn. destruct (l_sov L) eqn:O; cbn; destruct (l_lov L) eqn:O2; cbn; rewrite ?O, ?O2; auto;
    destruct (g_sink y); cbn; rewrite ?O2; cbn; auto; try discriminate.
Qed.

Lemma step_sinks s c : Inv s -> SInv s -> usual_sinks s c -> SInv (fst (step ord (enough s) dbg s c)).
Proof.
  intros I S (Hu & Hr). pose proof (step_inv ord (rearranges_in _ Hord) (enough s) dbg s c I (le_n _) Hu) as (I' & _).
  pose proof (rearranges_in _ Hord) as Hin. destruct S as (G & Lo). assert (S : SInv s) by (split; assumption).
  destruct c; cbn [step] in *.
  - exact S.
  - destruct (makeable_dec s parent sink lv) as [Hm|Hm].
    + destruct (make_group_makes ord dbg s name parent sink lv I Hm) as (s' & X & Hs & HX & Hg & Hl & _). cbn [step] in Hs. rewrite Hs. cbn.
      split; [|rewrite Hl; exact Lo]. rewrite Hg. intros x Z E. apply nth_app_cases in E. destruct E as [(_ & E)|(_ & ->)]; [eauto|].
      destruct HX as (_ & HX). destruct Hm as (M1 & M2 & M3). destruct parent as [pn|].
      * destruct HX as (i & Y & F & E & _ & _ & HK). destruct sink as [kn|].
        -- destruct HK as (-> & _). destruct (M2 _ eq_refl) as (ki & FK). unfold sink_named in FK. congruence.
        -- destruct HK as (-> & _). eauto.
      * destruct HX as (_ & _ & _ & _ & ->). destruct sink as [kn|]; [|destruct Hr].
        destruct (M2 _ eq_refl) as (ki & FK). unfold sink_named in FK. congruence.
    + pose proof (make_group_throws ord dbg s name parent sink lv I Hm) as Hs. cbn [step] in Hs. rewrite Hs. exact S.
  - destruct (find (gmap s) g); exact S.
  - destruct (find (gmap s) g) as [gi|] eqn:F; [|exact S]. destruct (find (gmap s) p) as [pi|] eqn:F2; [|exact S].
    assert (Hne : pi <> gi). { destruct Hu as (Hs & _). cbn in Hs. rewrite F, F2 in Hs. destruct Hs; congruence. }
    destruct (find_valid _ _ _ I F) as (Gr & EG). destruct (find_valid _ _ _ I F2) as (P & EP).
    pose proof (cycle_check (enough s) s gi pi P I (le_n _) EP Hne) as Hc. cbn zeta in *.
    destruct (if oeqb _ _ then _ else _) as [[|]|]; [exact S| |destruct Hc].
    destruct (set_parent_spec ord Hin (enough s) s gi Gr pi P I (le_n _) (in_snd_find _ _ _ F) EG EP Hne (proj2 Hc)) as (s' & Hs & Hp & I2).
    rewrite Hs. cbn. eapply (S_parent s s'); [exact I|exact I2|exact S| |exact Hp]. destruct (g_sov Gr); eauto.
  - destruct (find (gmap s) g) as [gi|] eqn:F; [|exact S]. destruct (find_valid _ _ _ I F) as (Gr & EG).
    destruct (unset_parent_spec ord Hin (enough s) s gi Gr I (le_n _) (in_snd_find _ _ _ F) EG) as (s' & Hs & Hp & I2).
    rewrite Hs. cbn. eapply (S_parent s s'); [exact I|exact I2|exact S| |exact Hp]. eauto.
  - destruct (find (smap s) k) as [ki|] eqn:F2; [|exact S]. destruct (find (gmap s) g) as [gi|] eqn:F; [|exact S].
    destruct (find_valid _ _ _ I F) as (Gr & EG). assert (Hk : ki < length (sinks s)) by (eapply (V_smap _ I); apply find_In; eauto).
    destruct (set_sink_spec ord Hin (enough s) s gi Gr ki I (le_n _) (in_snd_find _ _ _ F) EG Hk) as (s' & Hs & Hp & I2).
    rewrite Hs. cbn. eapply (S_sink s s'); [exact I|exact S| |exact Hp]. discriminate.
  - destruct (find (gmap s) g) as [gi|] eqn:F; [|exact S]. destruct (find_valid _ _ _ I F) as (Gr & EG).
    destruct (reset_sink_spec ord Hin (enough s) s gi Gr I (le_n _) (in_snd_find _ _ _ F) EG) as (s' & Hs & Hp & I2).
    rewrite Hs. cbn. eapply S_sink; [exact I|exact S| |exact Hp]. unfold parent_of. rewrite EG. destruct (g_parent Gr) as [p|]; [|eauto].
    destruct (nth_error (groups s) p) eqn:EP; eauto.
  - destruct (find (gmap s) g) as [gi|] eqn:F; [|exact S]. destruct (find_valid _ _ _ I F) as (Gr & EG).
    destruct (set_level_spec ord Hin (enough s) s gi Gr lv I (le_n _) (in_snd_find _ _ _ F) EG) as (s' & Hs & Hp & I2).
    rewrite Hs. cbn. eapply S_level; eauto.
  - destruct (find (gmap s) g) as [gi|] eqn:F; [|exact S]. destruct (find_valid _ _ _ I F) as (Gr & EG).
    destruct (reset_level_spec ord Hin (enough s) s gi Gr I (le_n _) (in_snd_find _ _ _ F) EG) as (s' & Hs & Hp & I2).
    rewrite Hs. cbn. eapply S_level; eauto.
  - destruct (find (gmap s) g) as [gi|]; [|exact S]. destruct (live s x); [|exact S]. destruct (nth_error (groups s) gi); [|exact S].
    apply S_mod_logger; [exact S|]. intros L _. apply set_group_some.
  - destruct (find (smap s) k); [|exact S]. destruct (live s x); [|exact S]. apply S_mod_logger; [exact S|]. cbn. discriminate.
  - destruct (live s x) as [j|]; [|exact S]. destruct (nth_error (loggers s) j) as [L|]; [|exact S]. destruct (nth_error (groups s) _); [|exact S].
    apply S_mod_logger; [exact S|]. intros M _. apply sink_from_some.
  - destruct (live s x); [|exact S]. apply S_mod_logger; [exact S|]. cbn. auto.
  - destruct (live s x) as [j|]; [|exact S]. destruct (nth_error (loggers s) j) as [L|]; [|exact S]. destruct (nth_error (groups s) _); [|exact S].
    apply S_mod_logger; [exact S|]. cbn. auto.
  - destruct (get_logger_cases dbg s x g k lv I) as [(_ & ->)|[(_ & i & _ & ->)|[(_ & _ & _ & ->)|(i & y & w & _ & Lv & _ & E & H)]]]; try exact S.
    destruct (w && negb (can_warn y)); rewrite H; [exact S|]. split; [exact G|]. cbn. intros j L EL. apply nth_app_cases in EL.
    destruct EL as [(_ & EL)|(_ & ->)]; [eauto|]. pose proof (new_logger_is s x i y k lv) as (_ & _ & _ & _ & Hk).
    destruct (match k with Some n => find (smap s) n | None => None end); destruct Hk as (-> & _); [discriminate|eauto].
  - apply S_mod_logger; [exact S|]. cbn. auto.
  - destruct (nth_error (loggers s) i) as [L|]; [|exact S]. destruct (nth_error (groups s) _); [|exact S]. apply S_mod_logger; [exact S|]. cbn. auto.
  - destruct (nth_error (groups s) _); [|exact S]. apply S_mod_logger; [exact S|]. cbn. auto.
  - destruct (Nat.ltb _ _); [|exact S]. apply S_mod_logger; [exact S|]. cbn. discriminate.
  - destruct (nth_error (loggers s) i) as [L|]; [|exact S]. destruct (nth_error (groups s) _) eqn:E; [|exact S]. apply S_mod_logger; [exact S|]. cbn. eauto.
  - destruct (nth_error (groups s) _); [|exact S]. apply S_mod_logger; [exact S|]. intros M _. apply sink_from_some.
  - destruct (nth_error (groups s) _); [|exact S]. apply S_mod_logger; [exact S|]. intros M _. apply set_group_some.
  - apply S_mod_logger; [exact S|]. cbn. auto.
  - exact S.
  - exact S.
Qed.

Lemma sinks_inv s : reachable ord dbg usual_sinks s -> Inv s /\ SInv s.
Proof.
  intros H. induction H as [|s c H (I & S) Hc|s H (I & S)].
  - split; [apply Inv_init|]. split; intros [|i] ? E; discriminate.
  - split; [apply step_inv; [apply rearranges_in; exact Hord|exact I|apply le_n|apply Hc]|apply step_sinks; auto].
  - split; [apply Inv_configured; exact I|exact S].
Qed.

Lemma sinks_all s : reachable ord dbg usual_sinks s -> all_sinks s.
Proof.
  intros H. destruct (sinks_inv _ H) as (I & G & Lo). split.
  - intros x X E. specialize (G _ _ E). destruct (g_sink X) as [k|] eqn:K; [|congruence].
    destruct (lt_nth_some _ _ (V_gsnk _ I _ _ _ E K)) as (n & En). eauto.
  - intros i L E. specialize (Lo _ _ E). destruct (l_sink L) as [k|] eqn:K; [|congruence].
    destruct (lt_nth_some _ _ (V_lsnk _ I _ _ _ E K)) as (n & En). eauto.
Qed.

(** getLogger is defined once there is a group. *)
Lemma sinks_get s x g k lv : reachable ord dbg usual_sinks s -> gmap s <> [] ->
  snd (step ord (enough s) dbg s (GetLogger x g k lv)) <> RUB.
Proof.
  intros H Hg. destruct (sinks_inv _ H) as (I & G & Lo). pose proof (Star _ I Hg) as Hs. cbn.
  destruct (get_logger_cases dbg s x g k lv I) as [(_ & ->)|[(_ & i & _ & ->)|[(_ & _ & Q & ->)|(i & y & w & _ & _ & _ & E & Hgl)]]]; try discriminate.
  - unfold group_for in Q. destruct (String.eqb g "*"); [destruct dbg; [cbn; discriminate|destruct (find (gmap s) "*"); [discriminate|congruence]]|].
    destruct (find (gmap s) g); [discriminate|]. destruct (find (gmap s) "*"); [discriminate|congruence].
  - specialize (G _ _ E). assert (Hw : can_warn y = true) by (unfold can_warn; destruct (g_sink y); congruence). rewrite Hw, andb_false_r in Hgl.
    rewrite Hgl. discriminate.
Qed.

(** And exactly when it is not. *)
Lemma get_undefined s x g k lv : reachable ord dbg usual s ->
  (snd (step ord (enough s) dbg s (GetLogger x g k lv)) = RUB <->
   configured s = true /\ (forall i, ~ live_named s x i) /\
   ((g = "*"%string /\ dbg = false) \/ (g <> "*"%string /\ forall i, ~ group_named s g i)) /\
   forall i F, group_named s "*" i -> nth_error (groups s) i = Some F -> g_sink F = None /\ lcode WARN <= lcode (g_level F)).
Proof.
  intros H. pose proof (usual_inv ord Hord dbg s H) as I. cbn.
  assert (NV : live s x = None <-> forall i, ~ live_named s x i).
  { split; [intros E i Hi; apply (live_spec s x i I) in Hi; congruence|]. intros N. destruct (live s x) as [i|] eqn:E; [|reflexivity].
    exfalso. apply (N i). apply (live_spec s x i I). exact E. }
  assert (CW : forall y, can_warn y = false <-> g_sink y = None /\ lcode WARN <= lcode (g_level y)).
  { intros y. unfold can_warn, lle. destruct (g_sink y); [split; [discriminate|intros [Q _]; discriminate]|].
    destruct (Nat.leb_spec (lcode WARN) (lcode (g_level y))); cbn [negb]; split; auto; [discriminate|lia]. }
  assert (GF : (exists i w, group_for dbg s g = Some (i, w) /\ (w = false \/ exists y, nth_error (groups s) i = Some y /\ can_warn y = true)) \/
               (g = "*"%string /\ dbg = true) -> (((g = "*"%string /\ dbg = false) \/ (g <> "*"%string /\ forall i, ~ group_named s g i)) /\
   forall i F, group_named s "*" i -> nth_error (groups s) i = Some F -> g_sink F = None /\ lcode WARN <= lcode (g_level F)) -> False).
  { intros Q [[[-> Hd]|[Hg Hn]] Hf].
    - destruct Q as [(i & w & Q & R)|[_ Q]]; [|congruence]. unfold group_for in Q. cbn [String.eqb Ascii.eqb Bool.eqb] in Q. rewrite Hd in Q.
      destruct (find (gmap s) "*") as [j|] eqn:Fj; [|discriminate]. injection Q as <- <-. destruct R as [R|(y & Ey & R)]; [discriminate|].
      specialize (Hf j y Fj Ey). apply CW in Hf. congruence.
    - destruct Q as [(i & w & Q & R)|[Q _]]; [|congruence]. unfold group_for in Q. destruct (String.eqb_spec g "*"); [congruence|].
      destruct (find (gmap s) g) as [j|] eqn:Fg; [exfalso; apply (Hn j Fg)|]. destruct (find (gmap s) "*") as [j|] eqn:Fj; [|discriminate].
      injection Q as <- <-. destruct R as [R|(y & Ey & R)]; [discriminate|]. specialize (Hf j y Fj Ey). apply CW in Hf. congruence. }
  destruct (get_logger_cases dbg s x g k lv I) as [(C & ->)|[(C & i & Lv & ->)|[(C & Lv & Q & ->)|(i & y & w & C & Lv & Q & E & Hgl)]]]; cbn [snd].
  - split; [discriminate|]. intros (C' & _). congruence.
  - split; [discriminate|]. intros (_ & N & _). apply NV in N. congruence.
  - split.
    + intros R. split; [exact C|]. split; [apply NV, Lv|]. unfold group_for in Q. destruct (String.eqb_spec g "*") as [->|Hg].
      * destruct dbg eqn:Hd; [cbn in R; discriminate|]. destruct (find (gmap s) "*") as [j|] eqn:Fj; [discriminate|]. split; [left; auto|].
        intros i F Hi. unfold group_named in Hi. congruence.
      * destruct (find (gmap s) g) as [j|] eqn:Fg; [discriminate|]. destruct (find (gmap s) "*") as [j|] eqn:Fj; [discriminate|]. split.
        -- right. split; [exact Hg|]. intros i Hi. unfold group_named in Hi. congruence.
        -- intros i F Hi. unfold group_named in Hi. congruence.
    + intros (_ & _ & A & B). destruct (String.eqb_spec g "*") as [->|Hg]; [|reflexivity]. destruct A as [[_ ->]|[A _]]; [reflexivity|congruence].
  - destruct (w && negb (can_warn y)) eqn:W; rewrite Hgl; cbn [snd].
    + apply andb_true_iff in W. destruct W as [-> W]. apply negb_true_iff in W. split; [intros _|reflexivity]. split; [exact C|]. split; [apply NV, Lv|].
      unfold group_for in Q. destruct (String.eqb_spec g "*") as [->|Hg].
      * destruct dbg; [discriminate|]. destruct (find (gmap s) "*") as [j|] eqn:Fj; [|discriminate]. injection Q as ->. split; [left; auto|].
        intros i' F Hi E'. unfold group_named in Hi. assert (i' = i) as -> by congruence. assert (F = y) as -> by congruence. apply CW, W.
      * destruct (find (gmap s) g) as [j|] eqn:Fg; [discriminate|]. destruct (find (gmap s) "*") as [j|] eqn:Fj; [|discriminate]. injection Q as ->. split.
        -- right. split; [exact Hg|]. intros i' Hi. unfold group_named in Hi. congruence.
        -- intros i' F Hi E'. unfold group_named in Hi. assert (i' = i) as -> by congruence. assert (F = y) as -> by congruence. apply CW, W.
    + split; [discriminate|]. intros (_ & _ & AB). exfalso. apply GF; [|exact AB]. left. exists i, w. split; [exact Q|].
      destruct w; [right|left; reflexivity]. exists y. split; [exact E|]. cbn in W. now destruct (can_warn y).
Qed.

Lemma reachable_mono (ok ok' : sys -> call -> Prop) s : (forall s c, ok s c -> ok' s c) -> reachable ord dbg ok s -> reachable ord dbg ok' s.
Proof. intros Ho H. induction H; [constructor|apply reach_call; auto|apply reach_configure; auto]. Qed.

(** With sinks everywhere loggers follow their group's sink exactly. *)
Lemma logger_follows_sink s i L : reachable ord dbg usual_sinks s -> nth_error (loggers s) i = Some L -> l_alive L = true ->
  l_sov L = false -> exists G, nth_error (groups s) (l_group L) = Some G /\ l_sink L = g_sink G.
Proof.
  intros H E A O. destruct (sinks_inv _ H) as (I & G & Lo). destruct (lt_nth_some _ _ (V_lgrp _ I _ _ E)) as (Y & EY).
  exists Y. split; [exact EY|]. eapply (L_snk _ I); eauto.
Qed.

Lemma sinks_configure fuel s sc : 
  let '(s1, os) := run ord fuel dbg (with_configured s) (sc_calls sc) in
  reachable ord dbg usual_sinks s1 -> has_sinks s1 (gmap s1).
Proof.
  destruct (run ord fuel dbg (with_configured s) (sc_calls sc)) as [s1 os]. intros H n i Hi _.
  destruct (sinks_inv _ H) as (I & _). destruct (lt_nth_some _ _ (V_gmap _ I _ _ Hi)) as (G & E).
  destruct (sinks_all _ H) as (HG & _). destruct (HG _ _ E) as (k & kn & HK & HN). eauto 8.
Qed.

(** ** Loggers *)
Lemma only_mod s i L f : nth_error (loggers s) i = Some L -> only_logger s (mod_logger s i f) i (f L).
Proof.
  intros E. unfold mod_logger. rewrite E. repeat (split; [reflexivity|]). cbn. split; [apply set_at_length|].
  split; [apply nth_set_at; eapply nth_some_lt; eauto|]. intros j Hj. apply nth_set_at_other. exact Hj.
Qed.

Lemma logger_calls s i L : reachable ord dbg usual s -> nth_error (loggers s) i = Some L ->
  exists G, nth_error (groups s) (l_group L) = Some G /\
  (forall l, exists s', step ord (enough s) dbg s (LSetLevel i l) = (s', RUnit) /\ only_logger s s' i (relevel L l true)) /\
  (exists s', step ord (enough s) dbg s (LResetLevel i) = (s', RUnit) /\ only_logger s s' i (relevel L (g_level G) false)) /\
  (forall g Y, nth_error (groups s) g = Some Y -> exists s', step ord (enough s) dbg s (LSetLevelFromGroup i g) = (s', RUnit) /\
     only_logger s s' i (relevel L (g_level Y) (negb (Nat.eqb g (l_group L))))) /\
  (forall k, k < length (sinks s) -> exists s', step ord (enough s) dbg s (LSetSink i k) = (s', RUnit) /\ only_logger s s' i (resink L (Some k) true)) /\
  (exists s', step ord (enough s) dbg s (LResetSink i) = (s', RUnit) /\ only_logger s s' i (resink L (g_sink G) false)) /\
  (forall g Y, nth_error (groups s) g = Some Y -> exists s', step ord (enough s) dbg s (LSetSinkFromGroup i g) = (s', RUnit) /\
     only_logger s s' i (match g_sink Y with Some k => resink L (Some k) (negb (Nat.eqb g (l_group L))) | None => L end)) /\
  (forall g Y, nth_error (groups s) g = Some Y -> exists s', step ord (enough s) dbg s (LSetGroup i g) = (s', RUnit) /\
     only_logger s s' i (mkLogger (l_name L) g
       (if l_sov L then l_sink L else match g_sink Y with Some k => Some k | None => l_sink L end) (l_sov L)
       (if l_lov L then l_level L else g_level Y) (l_lov L) (l_alive L))).
Proof.
  intros H E. pose proof (usual_inv ord Hord dbg _ H) as I. destruct (lt_nth_some _ _ (V_lgrp _ I _ _ E)) as (G & EG). exists G. split; [exact EG|].
  repeat split; cbn [step]; rewrite ?E, ?EG.
  - intros l. eexists. split; [reflexivity|]. exact (only_mod s i L (l_set_level l) E).
  - eexists. split; [reflexivity|]. pose proof (only_mod s i L (l_level_from (l_group L) G) E) as Ho. unfold l_level_from at 2 in Ho. rewrite Nat.eqb_refl in Ho. exact Ho.
  - intros g Y EY. rewrite EY. eexists. split; [reflexivity|]. exact (only_mod s i L (l_level_from g Y) E).
  - intros k Hk. apply Nat.ltb_lt in Hk. rewrite Hk. eexists. split; [reflexivity|]. exact (only_mod s i L (l_set_sink k) E).
  - eexists. split; [reflexivity|]. exact (only_mod s i L (l_reset_sink G) E).
  - intros g Y EY. rewrite EY. eexists. split; [reflexivity|]. pose proof (only_mod s i L (l_sink_from g Y) E) as Ho. unfold l_sink_from at 2 in Ho. exact Ho.
  - intros g Y EY. rewrite EY. eexists. split; [reflexivity|]. pose proof (only_mod s i L (l_set_group g Y) E) as Ho.
    assert (Heq : l_set_group g Y L = mkLogger (l_name L) g
       (if l_sov L then l_sink L else match g_sink Y with Some k => Some k | None => l_sink L end) (l_sov L)
       (if l_lov L then l_level L else g_level Y) (l_lov L) (l_alive L)).
    { destruct L as [? ? ? so ? lo ?]. unfold l_set_group, l_sink_from, l_level_from. destruct so, lo; cbn; destruct (g_sink Y); cbn; rewrite ?Nat.eqb_refl; reflexivity. }
    rewrite <- Heq. exact Ho.
Qed.

(** The calls of the system on a logger do what those of the logger do. *)
Lemma system_logger_calls s x i L : reachable ord dbg usual s -> live_named s x i -> nth_error (loggers s) i = Some L ->
  exists G, nth_error (groups s) (l_group L) = Some G /\
  (forall l, exists s', step ord (enough s) dbg s (SetLevelOfLogger x l) = (s', RBool true) /\ only_logger s s' i (relevel L l true)) /\
  (exists s', step ord (enough s) dbg s (ResetLevelOfLogger x) = (s', RBool true) /\ only_logger s s' i (relevel L (g_level G) false)) /\
  (forall k ki, sink_named s k ki -> exists s', step ord (enough s) dbg s (SetSinkOfLogger x k) = (s', RBool true) /\ only_logger s s' i (resink L (Some ki) true)) /\
  (exists s', step ord (enough s) dbg s (ResetSinkOfLogger x) = (s', RBool true) /\
     only_logger s s' i (match g_sink G with Some k => resink L (Some k) false | None => L end)) /\
  (forall g gi Y, group_named s g gi -> nth_error (groups s) gi = Some Y -> exists s', step ord (enough s) dbg s (SetGroupOfLogger x g) = (s', RBool true) /\
     only_logger s s' i (mkLogger (l_name L) gi
       (if l_sov L then l_sink L else match g_sink Y with Some k => Some k | None => l_sink L end) (l_sov L)
       (if l_lov L then l_level L else g_level Y) (l_lov L) (l_alive L))).
Proof.
  intros H Hl E. pose proof (usual_inv ord Hord dbg _ H) as I. destruct (lt_nth_some _ _ (V_lgrp _ I _ _ E)) as (G & EG). exists G. split; [exact EG|].
  apply live_spec in Hl; [|exact I].
  repeat split; cbn [step]; rewrite ?Hl, ?E, ?EG.
  - intros l. eexists. split; [reflexivity|]. exact (only_mod s i L (l_set_level l) E).
  - eexists. split; [reflexivity|]. pose proof (only_mod s i L (l_level_from (l_group L) G) E) as Ho. unfold l_level_from at 2 in Ho. rewrite Nat.eqb_refl in Ho. exact Ho.
  - intros k ki F. rewrite F. eexists. split; [reflexivity|]. exact (only_mod s i L (l_set_sink ki) E).
  - eexists. split; [reflexivity|]. pose proof (only_mod s i L (l_sink_from (l_group L) G) E) as Ho. unfold l_sink_from at 2 in Ho. rewrite Nat.eqb_refl in Ho. exact Ho.
  - intros g gi Y F EY. rewrite F, EY. eexists. split; [reflexivity|]. pose proof (only_mod s i L (l_set_group gi Y) E) as Ho.
    assert (Heq : l_set_group gi Y L = mkLogger (l_name L) gi
       (if l_sov L then l_sink L else match g_sink Y with Some k => Some k | None => l_sink L end) (l_sov L)
       (if l_lov L then l_level L else g_level Y) (l_lov L) (l_alive L)).
    { destruct L as [? ? ? so ? lo ?]. unfold l_set_group, l_sink_from, l_level_from. destruct so, lo; cbn; destruct (g_sink Y); cbn; rewrite ?Nat.eqb_refl; reflexivity. }
    rewrite <- Heq. exact Ho.
Qed.

(** makeSink, setFallbackGroup. *)
Lemma make_sink_makes s n :
  exists s', step ord (enough s) dbg s (MakeSink n) = (s', RSink (length (sinks s))) /\
    sinks s' = sinks s ++ [n] /\ groups s' = groups s /\ loggers s' = loggers s /\ gmap s' = gmap s /\ lmap s' = lmap s /\ configured s' = configured s /\
    sink_named s' n (length (sinks s)) /\ forall m, m <> n -> find (smap s') m = find (smap s) m.
Proof.
  eexists. split; [reflexivity|]. cbn. repeat (split; [reflexivity|]). split; [apply find_assign_same|]. intros m Hm. apply find_assign_other. exact Hm.
Qed.

Lemma set_fallback_sets s g i : group_named s g i ->
  exists s', step ord (enough s) dbg s (SetFallbackGroup g) = (s', RBool true) /\
    groups s' = groups s /\ loggers s' = loggers s /\ sinks s' = sinks s /\ lmap s' = lmap s /\ smap s' = smap s /\ configured s' = configured s /\
    group_named s' "*" i /\ forall m, m <> "*"%string -> find (gmap s') m = find (gmap s) m.
Proof.
  intros F. cbn. rewrite F. eexists. split; [reflexivity|]. cbn. repeat (split; [reflexivity|]). split; [apply find_assign_same|]. intros m Hm. apply find_assign_other. exact Hm.
Qed.

(** ** C54: between the parts of makeGroup *)
Lemma Inv_register s i n : Inv s -> i < length (groups s) -> ~ last_name s n -> gmap s <> [] -> Inv (register s i n).
Proof.
  intros I Hi Hl Hg. pose proof (Star _ I Hg) as Hs. unfold register. destruct (find (gmap s) "*") eqn:F; [|congruence].
  apply Inv_assign; auto. left. congruence.
Qed.

(** The object of a root exists, but has no name yet. *)
Lemma Inv_construct_root s n k l s1 i : Inv s -> construct s n None k (Some l) = Some (s1, i) -> Inv s1.
Proof.
  intros I H. unfold construct in H. cbn in H.
  assert (Hx : exists kk, (forall j, kk = Some j -> j < length (sinks s)) /\ s1 = with_groups s (groups s ++ [mkGroup n None kk false l false]) /\ i = length (groups s)).
  { destruct k as [kn|]; [destruct (find (smap s) kn) as [ki|] eqn:FK|]; cbn in H; [|discriminate|]; injection H as <- <-.
    - exists (Some ki). repeat split. intros j [= <-]. eapply (V_smap _ I). apply find_In. eauto.
    - exists None. repeat split. discriminate. }
  destruct Hx as (kk & Hkk & -> & ->). set (X := mkGroup n None kk false l false).
  assert (Hold : forall p Y, nth_error (groups s ++ [X]) p = Some Y -> p < length (groups s) -> nth_error (groups s) p = Some Y).
  { intros p Y E Hp. rewrite nth_error_app1 in E by exact Hp. exact E. }
  constructor; cbn; try (apply I); rewrite ?app_length; cbn.
  - intros x Z p E P. apply nth_app_cases in E. destruct E as [(Hx & E)|(-> & ->)]; [|discriminate]. pose proof (V_par _ I _ _ _ E P). lia.
  - intros m j Hj. pose proof (V_gmap _ I _ _ Hj). lia.
  - intros j L E. pose proof (V_lgrp _ I _ _ E). lia.
  - intros x Z k0 E K. apply nth_app_cases in E. destruct E as [(Hx & E)|(-> & ->)]; [eapply (V_gsnk _ I); eauto|auto].
  - intros x Z E. apply nth_app_cases in E. destruct E as [(Hx & E)|(-> & ->)].
    + destruct (A_root _ I _ _ E) as (h & Hh). exists h. apply ht_app. exact Hh.
    + exists 0. eapply ht_root; [rewrite nth_error_app2, Nat.sub_diag by lia; reflexivity|reflexivity].
  - intros x Z p Y E O P EY. apply nth_app_cases in E. destruct E as [(Hx & E)|(-> & ->)]; [|discriminate].
    apply Hold in EY; [|exact (V_par _ I _ _ _ E P)]. eapply (H_lev _ I); eauto.
  - intros x Z p Y E O P EY. apply nth_app_cases in E. destruct E as [(Hx & E)|(-> & ->)]; [|discriminate].
    apply Hold in EY; [|exact (V_par _ I _ _ _ E P)]. eapply (H_snk _ I); eauto.
  - intros j L Y E A O EY. apply Hold in EY; [|exact (V_lgrp _ I _ _ E)]. eapply (L_lev _ I); eauto.
  - intros j L Y E A O EY K. apply Hold in EY; [|exact (V_lgrp _ I _ _ E)]. eapply (L_snk _ I); eauto.
  - intros x Z E P. apply nth_app_cases in E. destruct E as [(Hx & E)|(-> & ->)]; [eapply (Reg _ I); eauto|]. exfalso. apply P. reflexivity.
Qed.
End Sinks.
