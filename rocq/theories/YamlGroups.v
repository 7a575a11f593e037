(** * The list of groups *)
From Coq Require Import String List Arith ZArith NArith Bool Lia.
From Verif Require Import Base LevelModel EventModel SysModel YamlModel YamlSpec YamlFacts YamlRead YamlSinks.
Import ListNotations.
Local Open Scope string_scope.
Local Open Scope list_scope.

(** ** Maps *)
Lemma find_assign m k v k' : find (assign m k v) k' = if String.eqb k k' then Some v else find m k'.
Proof.
  induction m as [|[x y] m IH]; cbn.
  - destruct (String.eqb_spec k k'); reflexivity.
  - destruct (String.eqb_spec x k); cbn.
    + subst. destruct (String.eqb_spec k k'); reflexivity.
    + rewrite IH. destruct (String.eqb_spec x k'), (String.eqb_spec k k'); congruence.
Qed.

Section Groups.
Variable L : lib.
Hypothesis UL : usual_lib L.
Variable ord : list nat -> list nat.
Variable fuel : nat.
Variable dbg : bool.

Notation calls_run := (calls_run ord fuel dbg).
Lemma calls_run_app cs1 : forall cs2 w, calls_run (cs1 ++ cs2) w =
  match calls_run cs1 w with
  | (w', Val _) => calls_run cs2 w'
  | (w', Exn e) => (w', Exn e)
  | (w', Stuck) => (w', Stuck)
  end.
Proof.
  induction cs1 as [|c cs1 IH]; intros cs2 w; cbn; auto.
  destruct (world_call ord fuel dbg c w) as [w' [[]|e|]]; auto.
Qed.

Definition lift {A} (r : res unit) (x : A) : res A :=
  match r with Val _ => Val x | Exn e => Exn e | Stuck => Stuck end.

(** [m] complains unless [P] holds of some calls, and then it makes these. *)
Definition runner {A} (m : M A) (P : world -> list call -> A -> Prop) : Prop :=
  (forall a cs x, P (a_world a) cs x ->
     m a = (in_world a (fst (calls_run cs (a_world a))), lift (snd (calls_run cs (a_world a))) x)) /\
  (forall a a' x, m a = (a', Val x) -> clean a' ->
     exists cs, P (a_world a) cs x /\ calls_run cs (a_world a) = (a_world a', Val tt) /\
                a' = in_world a (a_world a')).

Lemma runner_iff {A} (m : M A) (P Q : world -> list call -> A -> Prop) :
  runner m P -> (forall w cs x, P w cs x <-> Q w cs x) -> runner m Q.
Proof.
  intros [H1 H2] E. split.
  - intros a cs x H. apply H1, E, H.
  - intros a a' x H C. destruct (H2 _ _ _ H C) as (cs & HP & HR). exists cs. split; auto. now apply E.
Qed.
Lemma runner_bind {A B} (m : M A) (f : A -> M B) R (P : A -> world -> list call -> B -> Prop) :
  reader m R -> (forall x, mono (f x)) -> (forall x, runner (f x) (P x)) ->
  runner (bind m f) (fun w cs y => exists x, R w x /\ P x w cs y).
Proof.
  intros [M1 M2] Hf HF. split.
  - intros a cs y (x & HR & HP). unfold bind. rewrite (M1 _ _ HR). now apply (proj1 (HF x)).
  - intros a a' y H C. unfold bind in H. destruct (m a) as [a1 [x|w|]] eqn:E; try discriminate.
    pose proof (grows_clean _ _ (Hf _ _ _ _ H) C) as C1.
    destruct (M2 _ _ _ E C1) as [-> HR].
    destruct (proj2 (HF x) _ _ _ H C) as (cs & HP & HQ). exists cs. split; auto. exists x; auto.
Qed.
Lemma runner_call c : runner (do_call ord fuel dbg c) (fun _ cs _ => cs = [c]).
Proof.
  unfold do_call, on_world. split.
  - intros a cs [] ->. cbn. destruct (world_call ord fuel dbg c (a_world a)) as [w' [[]|e|]]; reflexivity.
  - intros a a' [] H C. exists [c]. split; auto. cbn.
    destruct (world_call ord fuel dbg c (a_world a)) as [w' [[]|e|]]; inversion H; subst. auto.
Qed.
Lemma runner_pure {A} (x : A) : runner (pure x) (fun _ cs y => cs = [] /\ y = x).
Proof.
  split.
  - intros a cs y [-> ->]. cbn. now destruct a.
  - intros a a' y H C. inversion H; subst. exists []. cbn. repeat split; auto. now destruct a'.
Qed.
Lemma runner_never {A} (m : M A) (P : world -> list call -> A -> Prop) : reader m (fun _ _ => False) ->
  (forall w cs x, ~ P w cs x) -> runner m P.
Proof.
  intros [_ H] N. split; [intros a cs x HP; now apply N in HP|].
  intros a a' x E C. destruct (H _ _ _ E C) as [_ []].
Qed.
(** One after the other, the first not depending on anything that matters to the second. *)
Lemma runner_seq {B} (m1 : M unit) (m2 : M B) cs1 cs2 x :
  mono m2 ->
  runner m1 (fun _ cs _ => cs = cs1) -> runner m2 (fun _ cs y => cs = cs2 /\ y = x) ->
  runner (m1 ;;; m2) (fun _ cs y => cs = cs1 ++ cs2 /\ y = x).
Proof.
  intros Hm [A1 A2] [B1 B2]. split.
  - intros a cs y [-> ->]. unfold bind. rewrite (A1 a cs1 tt eq_refl), calls_run_app.
    destruct (calls_run cs1 (a_world a)) as [w1 [[]|e|]]; cbn; auto.
    rewrite (B1 (in_world a w1) cs2 x); auto.
  - intros a a' y H C. unfold bind in H. destruct (m1 a) as [a1 [[]|e|]] eqn:E; try discriminate.
    pose proof (grows_clean _ _ (Hm _ _ _ H) C) as C1.
    destruct (A2 _ _ _ E C1) as (? & -> & R1 & E1).
    destruct (B2 _ _ _ H C) as (? & [-> ->] & R2 & E2).
    exists (cs1 ++ cs2). repeat split; auto.
    + rewrite calls_run_app, R1. exact R2.
    + rewrite E2, E1. reflexivity.
Qed.
Lemma runner_unit m cs : runner m (fun _ cs' x => cs' = cs /\ x = tt) <-> runner m (fun _ cs' (_ : unit) => cs' = cs).
Proof. split; intros H; eapply runner_iff; try exact H; intros w c []; intuition. Qed.

(** ** One group, without its children *)


(** What a group says about itself. *)
Definition header (w : world) (n : node) (e : entry) : Prop :=
  get n "name" = Some (NScalar (e_name e)) /\ e_name e <> "*" /\
  setting n "is_fallback" (fun t b => as_bool L t = Some b) false (e_fallback e) /\
  setting n "sink" (fun t o => o = Some t /\ known w t) None (e_sink e) /\
  setting n "level" (means_level L) None (e_level e) /\ (e_parent e = None -> e_level e <> None) /\
  only_keys ["name"; "is_fallback"; "sink"; "level"; "children"] n /\
  (get n "children" = None \/ get n "children" = Some NNull \/ exists l, get n "children" = Some (NSeq l)).

Lemma reader_get_sink t : reader (get_sink t) (fun w k => k = find (smap (w_sys w)) t).
Proof. split; [intros x a ->; reflexivity|]. intros a a' x H _. inversion H; auto. Qed.

Ltac never := apply reader_bad; [reflexivity|apply mono_pure|].

(** The tail of parseGroup. *)
Lemma runner_tail (name : string) (fb : bool) (sk : option string) (lv : option level) parent :
  runner (if name =? "*" then error "E: Group name '*' is reserved; Try to use some other else" ;;; pure None
      else
        g <- get_group name ;;
        match g with
        | Some _ =>
            match parent with Some p => do_call ord fuel dbg (SetParentOfGroup name p) | None => pure tt end ;;;
            match sk with Some k => do_call ord fuel dbg (SetSinkOfGroup name k) | None => pure tt end ;;;
            match lv with Some l => do_call ord fuel dbg (SetLevelOfGroup name l) | None => pure tt end
        | None => do_call ord fuel dbg (MakeGroup name parent sk lv)
        end ;;;
        (if fb then do_call ord fuel dbg (SetFallbackGroup name) else pure tt) ;;;
        pure (Some name))
  (fun w cs x => x = Some name /\ name <> "*" /\
     cs = (match find (gmap (w_sys w)) name with
           | None => [MakeGroup name parent sk lv]
           | Some _ => match parent with Some p => [SetParentOfGroup name p] | None => [] end
                       ++ match sk with Some k => [SetSinkOfGroup name k] | None => [] end
                       ++ match lv with Some l => [SetLevelOfGroup name l] | None => [] end
           end) ++ (if fb then [SetFallbackGroup name] else [])).
Proof.
  destruct (String.eqb_spec name "*") as [->|N].
  { apply runner_never; [apply reader_complain; auto; apply mono_pure|]. intros w cs x (_ & H & _). congruence. }
  assert (T : runner ((if fb then do_call ord fuel dbg (SetFallbackGroup name) else pure tt) ;;; pure (Some name))
                (fun _ cs y => cs = (if fb then [SetFallbackGroup name] else []) /\ y = Some name)).
  { destruct fb.
    - change [SetFallbackGroup name] with ([SetFallbackGroup name] ++ []).
      apply runner_seq; [mono|apply runner_call|apply runner_pure].
    - apply (runner_seq (pure tt) _ [] []); [mono|apply runner_unit; apply runner_pure|apply runner_pure]. }
  pose (own := fun g : option nat => match g with
           | None => [MakeGroup name parent sk lv]
           | Some _ => match parent with Some p => [SetParentOfGroup name p] | None => [] end
                       ++ match sk with Some k => [SetSinkOfGroup name k] | None => [] end
                       ++ match lv with Some l => [SetLevelOfGroup name l] | None => [] end
           end).
  eapply runner_iff.
  - apply (runner_bind (get_group name) _ (fun w k => k = find (gmap (w_sys w)) name)
            (fun g _ cs x => cs = own g ++ (if fb then [SetFallbackGroup name] else []) /\ x = Some name)).
    + split; [intros x a ->; reflexivity|]. intros a a' x H _. inversion H; auto.
    + mono.
    + intros [i|]; apply runner_seq; try exact T; try (mono; fail).
      * unfold own. apply runner_unit. apply runner_seq; [mono| |].
        -- destruct parent; [apply runner_call|apply runner_unit; apply runner_pure].
        -- apply runner_seq; [mono| |].
           ++ destruct sk; [apply runner_call|apply runner_unit; apply runner_pure].
           ++ apply runner_unit. destruct lv; [apply runner_call|apply runner_unit; apply runner_pure].
      * unfold own. apply runner_call.
  - intros w cs x. unfold own. split.
    + intros (g & -> & -> & ->). auto.
    + intros (-> & _ & ->). eexists. split; [reflexivity|]. auto.
Qed.

Lemma entry_calls_tail e w :
  (match find (gmap (w_sys w)) (e_name e) with
   | None => [MakeGroup (e_name e) (e_parent e) (entry_sink e) (e_level e)]
   | Some _ => match e_parent e with Some p => [SetParentOfGroup (e_name e) p] | None => [] end
               ++ match entry_sink e with Some k => [SetSinkOfGroup (e_name e) k] | None => [] end
               ++ match e_level e with Some l => [SetLevelOfGroup (e_name e) l] | None => [] end
   end) ++ (if e_fallback e then [SetFallbackGroup (e_name e)] else [])
  = entry_calls (match find (gmap (w_sys w)) (e_name e) with None => true | Some _ => false end) e.
Proof. unfold entry_calls. destruct (find _ _); reflexivity. Qed.

(** parseGroup up to the children. *)
Lemma runner_group i l parent :
  runner (parse_group L ord fuel dbg i (NMap l) parent) (fun w cs x =>
    exists e, e_parent e = parent /\ header w (NMap l) e /\ (parent = None -> known w "*" \/ e_sink e <> None) /\
      x = Some (e_name e) /\
      cs = entry_calls (match find (gmap (w_sys w)) (e_name e) with None => true | Some _ => false end) e).
Proof.
  unfold parse_group. set (n := NMap l).
  eapply runner_iff.
  - eapply (runner_bind _ _ (fun _ o => exists t, get n "name" = Some (NScalar t) /\ o = Some t)).
    { destruct (get n "name") as [[|t|x|x]|].
      1,3,4,5: never; intros w x' (t & H & _); discriminate.
      apply reader_val. intros w x. split; [intros (t' & H & ->); congruence|intros ->; eauto]. }
    { mono. }
    intros nm. cbv zeta.
    eapply (runner_bind _ _ (fun _ o => exists b, setting n "is_fallback" (fun t b => as_bool L t = Some b) false b /\ o = Some b)).
    { destruct (get n "is_fallback") as [[|t|x|x]|] eqn:E.
      1,3,4: never; intros w x' (b & H & _); rewrite setting_cases, E in H; destruct H as [[H _]|(t & H & _)]; discriminate.
      - eapply reader_iff; [eapply reader_bind; [apply reader_to_bool|mono|intros; apply reader_pure]|].
        intros w x. split.
        + intros (b & Hb & ->). exists b. split; auto. eapply is_set; eauto.
        + intros (b & H & ->). exists b. rewrite setting_cases, E in H. destruct H as [[H _]|(t' & H & Hb)]; [discriminate|].
          inversion H; subst; auto.
      - apply reader_val. intros w x. split.
        + intros (b & H & ->). rewrite setting_cases, E in H. destruct H as [[_ ->]|(t' & H & Hb)]; [auto|discriminate].
        + intros ->. exists false. split; auto. now constructor. }
    { mono. }
    intros fb.
    eapply (runner_bind _ _ (fun w p => exists o, setting n "sink" (fun t o => o = Some t /\ known w t) None o /\
        p = (match o, parent with Some k, _ => Some k | None, Some _ => None | None, None => Some "*" end, false))).
    { destruct (get n "sink") as [[|t|x|x]|] eqn:E.
      1,3,4: never; intros w x' (b & H & _); rewrite setting_cases, E in H; destruct H as [[H _]|(t & H & _)]; discriminate.
      - eapply reader_iff; [eapply (reader_bind _ _ _ (fun w k p => p = (Some t, false) /\ k <> None)); [apply reader_get_sink|mono|]|].
        + intros [k|].
          * apply reader_val. intros w x. split; [now intros [-> _]|]. intros ->. split; auto; discriminate.
          * never. intros w x [_ H]. congruence.
        + intros w x. split.
          * intros (k & -> & -> & K). exists (Some t). split; auto. eapply is_set; eauto.
          * intros (o & H & ->). rewrite setting_cases, E in H. destruct H as [[H _]|(t' & H & -> & K)]; [discriminate|].
            inversion H; subst t'. exists (find (smap (w_sys w)) t). auto.
      - apply reader_val. intros w x. split.
        + intros (b & H & ->). rewrite setting_cases, E in H. destruct H as [[_ ->]|(t' & H & Hb)]; [auto|discriminate].
        + intros ->. exists None. split; auto. now constructor. }
    { mono. }
    intros sk.
    eapply (runner_bind _ _ (fun _ b => b = false /\ (parent = None -> get n "level" <> None))).
    { destruct (get n "level") as [lv|].
      - apply reader_val. intros w x. split; [tauto|]. intros ->. split; auto. discriminate.
      - destruct parent.
        + apply reader_val. intros w x. split; [tauto|]. intros ->. split; auto. discriminate.
        + never. intros w x [_ H]. now apply H. }
    { mono. }
    intros nolev.
    eapply runner_bind; [apply reader_level|mono|]. intros lv.
    eapply (runner_bind _ _ (fun _ b => b = false /\
      (get n "children" = None \/ get n "children" = Some NNull \/ exists l, get n "children" = Some (NSeq l)))).
    { destruct (get n "children") as [[|t|x|x]|].
      2,4: never; intros w x' [_ [H|[H|[l' H]]]]; discriminate.
      all: apply reader_val; intros w x'; split; [tauto|]; intros ->; split; eauto. }
    { mono. }
    intros badch.
    eapply runner_bind; [apply (reader_keys _ UL); cbn; intuition discriminate|mono|]. intros u1.
    eapply (runner_bind _ _ (fun w _ => match fst sk with None => True | Some t => known w t end)).
    { destruct (fst sk) as [t|].
      - eapply reader_iff; [eapply (reader_bind _ _ _ (fun w k p => k <> None)); [apply reader_get_sink|mono|]|].
        + intros [k|].
          * apply reader_val. intros w []. split; auto. discriminate.
          * apply reader_say; auto. 
        + intros w []. split.
          * intros (k & -> & K). exact K.
          * intros K. eexists. split; [reflexivity|]. exact K.
      - apply reader_val. intros w []. tauto. }
    { mono. }
    intros u2.
    instantiate (1 := fun u2 w cs x => exists name is_fallback, nm = Some name /\ fb = Some is_fallback /\
        snd sk || nolev || badch = false /\ x = Some name /\ name <> "*" /\
     cs = (match find (gmap (w_sys w)) name with
           | None => [MakeGroup name parent (fst sk) lv]
           | Some _ => match parent with Some p => [SetParentOfGroup name p] | None => [] end
                       ++ match fst sk with Some k => [SetSinkOfGroup name k] | None => [] end
                       ++ match lv with Some l => [SetLevelOfGroup name l] | None => [] end
           end) ++ (if is_fallback then [SetFallbackGroup name] else [])).
    cbv beta.
    destruct nm as [name|]; [destruct fb as [is_fallback|]; [destruct (snd sk || nolev || badch) eqn:F|]|].
    2: { eapply runner_iff; [apply runner_tail|]. intros w cs x. split.
         - intros (-> & N & ->). exists name, is_fallback. auto 8.
         - intros (name' & fb' & E1 & E2 & _ & -> & N & ->). inversion E1; inversion E2; subst. auto. }
    all: apply runner_never; [apply reader_complain; auto; apply mono_pure|];
      intros w cs x (name' & fb' & E1 & E2 & E3 & _); discriminate.
  - intros w cs x. cbn beta. split.
    + intros (nm & (name & Hn & ->) & fb & (is_fb & Hf & ->) & sk & (o & Ho & ->) & nolev & [-> Hnl] & lv & Hlv & badch & [-> Hch]
        & [] & Hk & [] & Hks & name' & fb' & E1 & E2 & _ & -> & N & ->).
      inversion E1; inversion E2; subst name' fb'.
      set (e := mkEntry parent name is_fb o lv).
      assert (S : match o with Some k => Some k | None => match parent with Some _ => None | None => Some "*" end end = entry_sink e) by reflexivity.
      exists e. cbn [fst snd] in *. rewrite S in *.
      split; [reflexivity|]. split; [|split; [|split; [reflexivity|apply (entry_calls_tail e w)]]].
      * unfold header. repeat match goal with |- _ /\ _ => split end; auto. cbn. intros Hp Hlv0. specialize (Hnl Hp).
        rewrite setting_cases in Hlv. destruct Hlv as [[H _]|(t & Ht & v & -> & _)]; [congruence|discriminate].
      * intros ->. unfold e, entry_sink in Hks. cbn in *. destruct o; [right; discriminate|left; exact Hks].
    + intros (e & Hp & (Hn & N & Hf & Hs & Hlv & Hr & Hk & Hch) & Hstar & -> & ->).
      exists (Some (e_name e)). split; [eauto|]. exists (Some (e_fallback e)). split; [eauto|].
      exists (entry_sink e, false). split.
      { exists (e_sink e). split; auto. unfold entry_sink. now rewrite Hp. }
      exists false. split.
      { split; auto. intros Hp'. rewrite Hp in Hr. specialize (Hr Hp'). rewrite setting_cases in Hlv.
        destruct Hlv as [[_ H]|(t & Ht & _)]; [contradiction|congruence]. }
      exists (e_level e). split; auto. exists false. split; auto. exists tt. split; auto. exists tt. split.
      { cbn [fst]. unfold entry_sink. rewrite Hp. rewrite setting_cases in Hs.
        destruct Hs as [[_ Q]|(t & _ & Q & K)]; rewrite Q; [|exact K].
        destruct parent; auto. destruct (Hstar eq_refl) as [K|K]; [exact K|congruence]. }
      exists (e_name e), (e_fallback e). repeat split; auto. cbn [fst]. rewrite <- Hp. symmetry. apply entry_calls_tail.
Qed.

(** ** What the calls leave alone *)

Lemma mod_group_gmap s g f : gmap (mod_group s g f) = gmap s /\ smap (mod_group s g f) = smap s.
Proof. unfold mod_group. destruct (nth_error _ _); auto. Qed.
Lemma spread_maps fl ov up lup s g s' : spread ord fl ov up lup s g = Some s' -> gmap s' = gmap s /\ smap s' = smap s.
Proof.
  unfold spread. destruct (scan _ _ _ _ _ _ _) as [[p st]|]; [|discriminate].
  destruct (spread_loggers _ _ _ _ _) as [ls lm]. intros H. inversion H; auto.
Qed.
Lemma ret_maps s o : (forall s', o = Some s' -> gmap s' = gmap s /\ smap s' = smap s) ->
  gmap (fst (ret s o)) = gmap s /\ smap (fst (ret s o)) = smap s.
Proof. intros H. destruct o; cbn; auto. Qed.

Definition set_call (c : call) : Prop :=
  match c with SetParentOfGroup _ _ | SetSinkOfGroup _ _ | SetLevelOfGroup _ _ => True | _ => False end.
Lemma set_call_maps s c : set_call c ->
  gmap (fst (step ord fuel dbg s c)) = gmap s /\ smap (fst (step ord fuel dbg s c)) = smap s.
Proof.
  destruct c; cbn [set_call]; try contradiction; intros _; cbn [step].
  - destruct (find (gmap s) g) as [gi|]; [|auto]. destruct (find (gmap s) p) as [pi|]; [|auto].
    match goal with |- context [if oeqb ?x ?y then Some false else climbs_to ?f ?gs ?g ?c] =>
      destruct (if oeqb x y then Some false else climbs_to f gs g c) as [[]|]; auto end.
    apply ret_maps. intros s' H. apply spread_maps in H as [-> ->].
    destruct (mod_group_gmap (match nth_error (groups s) pi with
                        | Some y => if oeqb (g_parent y) (Some gi) then mod_group s pi g_unset_parent else s
                        | None => s
                        end) gi (g_set_parent
       match nth_error (groups (match nth_error (groups s) pi with
                        | Some y => if oeqb (g_parent y) (Some gi) then mod_group s pi g_unset_parent else s
                        | None => s
                        end)) pi with Some y => Some (pi, y) | None => None end)) as [-> ->].
    destruct (nth_error (groups s) pi) as [y|]; auto. destruct (oeqb _ _); auto. apply mod_group_gmap.
  - destruct (find (smap s) k) as [ki|]; [|auto]. destruct (find (gmap s) g) as [gi|]; [|auto].
    apply ret_maps. intros s' H. apply spread_maps in H as [-> ->]. apply mod_group_gmap.
  - destruct (find (gmap s) g) as [gi|]; [|auto].
    apply ret_maps. intros s' H. apply spread_maps in H as [-> ->]. apply mod_group_gmap.
Qed.

Lemma world_call_sys c w w' r : world_call ord fuel dbg c w = (w', r) -> w_sys w' = fst (step ord fuel dbg (w_sys w) c).
Proof. unfold world_call. destruct (step ord fuel dbg (w_sys w) c). intros H. now inversion H. Qed.

Definition covers (names : list string) (w : world) : Prop :=
  forall n, n <> "*" -> existsb (String.eqb n) names = true <-> find (gmap (w_sys w)) n <> None.
Definition same_sinks (w w' : world) : Prop := smap (w_sys w') = smap (w_sys w).

Lemma calls_set cs : forall w w' r, Forall set_call cs -> calls_run cs w = (w', r) ->
  gmap (w_sys w') = gmap (w_sys w) /\ smap (w_sys w') = smap (w_sys w).
Proof.
  induction cs as [|c cs IH]; intros w w' r F H; cbn in H; [inversion H; auto|].
  inversion F; subst. destruct (world_call ord fuel dbg c w) as [w1 r1] eqn:E.
  pose proof (set_call_maps (w_sys w) c H2) as [M1 M2]. pose proof (world_call_sys _ _ _ _ E) as Q. rewrite <- Q in M1, M2.
  destruct r1; [|inversion H; subst; auto|inversion H; subst; auto].
  destruct (IH _ _ _ H3 H) as [-> ->]. auto.
Qed.

Lemma call_fallback n w w' r : world_call ord fuel dbg (SetFallbackGroup n) w = (w', r) ->
  smap (w_sys w') = smap (w_sys w) /\ (forall m, m <> "*" -> find (gmap (w_sys w')) m = find (gmap (w_sys w)) m).
Proof.
  intros H. pose proof (world_call_sys _ _ _ _ H) as ->. cbn.
  destruct (find (gmap (w_sys w)) n) as [i|]; cbn; auto. split; auto.
  intros m N. rewrite find_assign. destruct (String.eqb_spec "*" m); congruence.
Qed.
Lemma call_make n p k lv w w' u : world_call ord fuel dbg (MakeGroup n p k lv) w = (w', Val u) ->
  smap (w_sys w') = smap (w_sys w) /\ find (gmap (w_sys w')) n <> None /\
  (forall m, m <> "*" -> m <> n -> find (gmap (w_sys w')) m = find (gmap (w_sys w)) m).
Proof.
  unfold world_call. cbn [step]. destruct (construct (w_sys w) n p k lv) as [[s i]|] eqn:C; [|discriminate].
  unfold construct in C. destruct (g_construct _ _ _ _); [|discriminate]. inversion C; subst.
  intros H. inversion H; subst. unfold register. cbn [w_sys with_gmap smap gmap with_groups].
  split; auto. split.
  - rewrite find_assign, String.eqb_refl. discriminate.
  - intros m N1 N2. rewrite find_assign. destruct (String.eqb_spec n m); [congruence|].
    destruct (find (gmap (w_sys w)) "*"); auto. rewrite find_assign.
    destruct (String.eqb_spec "*" m); congruence.
Qed.
Lemma call_make_smap n p k lv w w' r : world_call ord fuel dbg (MakeGroup n p k lv) w = (w', r) ->
  smap (w_sys w') = smap (w_sys w).
Proof.
  intros H. apply world_call_sys in H. rewrite H. cbn [step].
  destruct (construct (w_sys w) n p k lv) as [[s i]|] eqn:C; auto.
  unfold construct in C. destruct (g_construct _ _ _ _); [|discriminate]. inversion C; subst. reflexivity.
Qed.

Lemma entry_calls_effect new e w w' : e_name e <> "*" ->
  calls_run (entry_calls new e) w = (w', Val tt) ->
  (new = false -> find (gmap (w_sys w)) (e_name e) <> None) ->
  same_sinks w w' /\ find (gmap (w_sys w')) (e_name e) <> None /\
  (forall m, m <> "*" -> m <> e_name e -> find (gmap (w_sys w')) m = find (gmap (w_sys w)) m).
Proof.
  intros NS H OLD. unfold entry_calls in H. rewrite calls_run_app in H.
  match type of H with match calls_run ?x w with _ => _ end = _ => destruct (calls_run x w) as [w1 [[]|?|]] eqn:E; try discriminate end.
  assert (A : same_sinks w w1 /\ find (gmap (w_sys w1)) (e_name e) <> None /\
     (forall m, m <> "*" -> m <> e_name e -> find (gmap (w_sys w1)) m = find (gmap (w_sys w)) m)).
  { destruct new.
    - cbn in E. destruct (world_call _ _ _ _ _) as [w2 [u|?|]] eqn:W; inversion E; subst. now apply call_make in W.
    - assert (F : Forall set_call (match e_parent e with Some p => [SetParentOfGroup (e_name e) p] | None => [] end
        ++ match entry_sink e with Some k => [SetSinkOfGroup (e_name e) k] | None => [] end
        ++ match e_level e with Some l => [SetLevelOfGroup (e_name e) l] | None => [] end)).
      { apply Forall_app; split; [|apply Forall_app; split]; [destruct (e_parent e)|destruct (entry_sink e)|destruct (e_level e)];
        repeat constructor. }
      destruct (calls_set _ _ _ _ F E) as [G S]. unfold same_sinks. rewrite G. repeat split; auto. }
  destruct A as (A1 & A2 & A3). destruct (e_fallback e); cbn in H; [|inversion H; subst; auto].
  destruct (world_call _ _ _ _ _) as [w2 [u|?|]] eqn:W; inversion H; subst.
  apply call_fallback in W as [B1 B2]. unfold same_sinks in *. repeat split.
  - congruence.
  - now rewrite B2.
  - intros m N1 N2. rewrite B2; auto.
Qed.

Lemma entry_covers names e w w' : e_name e <> "*" -> covers names w ->
  calls_run (entry_calls (negb (existsb (String.eqb (e_name e)) names)) e) w = (w', Val tt) ->
  same_sinks w w' /\ covers (e_name e :: names) w'.
Proof.
  intros NS C H. apply entry_calls_effect in H as (H1 & H2 & H3); auto.
  - split; auto. intros n N. cbn. destruct (String.eqb_spec n (e_name e)) as [->|Q]; cbn.
    + split; auto.
    + rewrite H3; auto.
  - intros F. apply C; auto. now apply negb_false_iff in F.
Qed.

Lemma is_new names w n : covers names w -> n <> "*" ->
  match find (gmap (w_sys w)) n with None => true | Some _ => false end = negb (existsb (String.eqb n) names).
Proof.
  intros C N. specialize (C n N). destruct (find _ _), (existsb _ _); cbn; auto.
  - destruct C as [_ C]. apply C. discriminate.
  - destruct C as [C _]. exfalso. now apply C.
Qed.

Fixpoint names_after (names : list string) (es : list entry) : list string :=
  match es with [] => names | e :: es' => names_after (e_name e :: names) es' end.
Lemma entries_calls_app es1 : forall names es2,
  entries_calls names (es1 ++ es2) = entries_calls names es1 ++ entries_calls (names_after names es1) es2.
Proof. induction es1 as [|e es1 IH]; intros; cbn; auto. now rewrite IH, app_assoc. Qed.
Lemma entries_covers es : forall names w w', Forall (fun e => e_name e <> "*") es -> covers names w ->
  calls_run (entries_calls names es) w = (w', Val tt) -> same_sinks w w' /\ covers (names_after names es) w'.
Proof.
  induction es as [|e es IH]; intros names w w' F C H; cbn in *.
  - inversion H; subst. split; [reflexivity|auto].
  - inversion F; subst. rewrite calls_run_app in H.
    match type of H with match calls_run ?x w with _ => _ end = _ => destruct (calls_run x w) as [w1 [[]|?|]] eqn:E; try discriminate end.
    destruct (entry_covers _ _ _ _ H2 C E) as [S1 C1]. destruct (IH _ _ _ H3 C1 H) as [S2 C2].
    split; auto. unfold same_sinks in *. congruence.
Qed.

(** ** Lists of groups *)

Section Lists.
Variable K : string -> Prop.
Definition agrees (w : world) : Prop := forall t, K t <-> known w t.
Lemma agrees_same w w' : same_sinks w w' -> agrees w -> agrees w'.
Proof. unfold same_sinks, agrees, known. intros ->. auto. Qed.

Lemma groups_read_names root : forall ds l, groups_read L K root ds l ->
  forall parent, Forall (fun e => e_name e <> "*") (all_entries parent ds).
Proof.
  assert (G : forall d root n parent, group_read L K root d n -> Forall (fun e => e_name e <> "*") (entries parent d)).
  { fix IH 1. intros [name fb sk lv ch] r n parent (_ & N & _ & _ & _ & _ & _ & l & _ & H). cbn. constructor; [exact N|].
    revert l H. induction ch as [|c ch IHc]; intros [|x l] H; try contradiction; auto.
    destruct H as [H1 H2]. apply Forall_app. split; [eapply IH; exact H1|eapply IHc; exact H2]. }
  induction ds as [|d ds IH]; intros [|n l] H parent; cbn in *; try contradiction; auto.
  destruct H as [H1 H2]. apply Forall_app. split; [eapply G; exact H1|eapply IH; exact H2].
Qed.

(** A declaration in terms of its header. *)
Definition kids (n : node) : list node := match get n "children" with Some (NSeq l) => l | _ => [] end.
Lemma each_groups ch : forall l,
  (fix each ch l : Prop :=
     match ch, l with
     | [], [] => True
     | c :: ch', x :: l' => group_read L K false c x /\ each ch' l'
     | _, _ => False
     end) ch l <-> groups_read L K false ch l.
Proof. induction ch as [|c ch IH]; intros [|x l]; cbn; try tauto. now rewrite IH. Qed.
Lemma entries_eq parent n fb sk lv ch :
  entries parent (GDecl n fb sk lv ch) = mkEntry parent n fb sk lv :: all_entries (Some n) ch.
Proof. reflexivity. Qed.
Lemma setting_iff {A} n key (m1 m2 : string -> A -> Prop) d v :
  (forall t x, m1 t x <-> m2 t x) -> setting n key m1 d v <-> setting n key m2 d v.
Proof.
  intros H. rewrite !setting_cases. split; (intros [Q|(t & Q & R)]; [now left|right; exists t; split; auto; now apply H]).
Qed.
Lemma group_read_header w parent d n : agrees w ->
  group_read L K (match parent with None => true | Some _ => false end) d n <->
  exists e ch, d = GDecl (e_name e) (e_fallback e) (e_sink e) (e_level e) ch /\ e_parent e = parent /\
    header w n e /\ groups_read L K false ch (kids n).
Proof.
  intros A. destruct d as [name fb sk lv ch]. cbn [group_read]. split.
  - intros (H1 & H2 & H3 & H4 & H5 & H6 & H7 & l & H8 & H9).
    exists (mkEntry parent name fb sk lv), ch. cbn [e_name e_fallback e_sink e_level e_parent].
    split; [reflexivity|]. split; [reflexivity|]. split.
    + unfold header. cbn. repeat match goal with |- _ /\ _ => split end; auto.
      * eapply setting_iff; [|exact H4]. intros t x. cbn. split; intros [-> Q]; split; auto; now apply A.
      * intros Q. subst parent. apply H6. exact eq_refl.
      * destruct H8 as [H8|[[H8|H8] _]]; eauto.
    + apply each_groups in H9. unfold kids. destruct H8 as [->|[[->| ->] ->]]; exact H9.
  - intros (e & ch' & E & Hp & (H1 & H2 & H3 & H4 & H5 & H6 & H7 & H8) & H9). inversion E; subst. clear E.
    repeat match goal with |- _ /\ _ => split end; auto.
    + eapply setting_iff; [|exact H4]. intros t x. cbn. split; intros [-> Q]; split; auto; now apply A.
    + destruct (e_parent e); [discriminate|auto].
    + exists (kids n). split; [|now apply each_groups]. unfold kids. destruct H8 as [->|[->|(l & ->)]]; auto.
Qed.

Hypothesis KS : K "*".

Definition outcome_of (cs : list call) (a : app) : app * res unit :=
  (in_world a (fst (calls_run cs (a_world a))), snd (calls_run cs (a_world a))).

Lemma depth_items l f : depth (NSeq l) <= S f -> Forall (fun n => depth n <= f) l.
Proof.
  cbn. intros H. assert (Q : (fix go l := match l with [] => 0 | x :: l' => Nat.max (depth x) (go l') end) l <= f) by lia. clear H.
  induction l; constructor; cbn in Q; [lia|]. apply IHl. lia.
Qed.
Lemma depth_get l key v f : get (NMap l) key = Some v -> depth (NMap l) <= S f -> depth v <= f.
Proof.
  intros G H. cbn in G, H. apply le_S_n in H. revert G H.
  induction l as [|[k x] l IH]; cbn; [discriminate|]. intros G H.
  destruct k as [|t|y|y]; try (apply IH; [exact G|lia]).
  destruct (t =? key); [inversion G; subst; lia|apply IH; [exact G|lia]].
Qed.

Lemma group_list_complete f : forall parent ds l i names a,
  groups_read L K (match parent with None => true | Some _ => false end) ds l ->
  Forall (fun n => depth n <= f) l -> covers names (a_world a) -> agrees (a_world a) ->
  parse_group_list L ord fuel dbg (parse_groups L ord fuel dbg f) i l parent a =
  outcome_of (entries_calls names (all_entries parent ds)) a.
Proof.
  induction f as [f IHf] using lt_wf_ind.
  intros parent ds. induction ds as [|d ds IH]; intros [|n l] i names a G D C A; try contradiction.
  { cbn. unfold outcome_of. cbn. now destruct a. }
  destruct G as [G1 G2]. inversion D as [|? ? D1 D2]; subst.
  apply (group_read_header _ _ _ _ A) in G1 as (e & ch & -> & Hp & HH & HC).
  assert (exists x, n = NMap x) as [x ->].
  { destruct HH as (Hn & _). destruct n; try discriminate. eauto. }
  cbn [parse_group_list all_entries flat_map]. fold (all_entries parent ds).
  rewrite entries_eq. cbn [Datatypes.app entries_calls e_name].
  assert (N : e_name e <> "*") by apply HH.
  assert (EE : mkEntry parent (e_name e) (e_fallback e) (e_sink e) (e_level e) = e) by (destruct e; cbn in *; congruence).
  rewrite EE.
  unfold outcome_of. rewrite entries_calls_app, calls_run_app.
  unfold bind at 1 2.
  rewrite (proj1 (runner_group i x parent) a (entry_calls (negb (existsb (String.eqb (e_name e)) names)) e) (Some (e_name e))).
  2: { exists e. repeat split; auto; try apply HH. intros _. left. now apply A. now rewrite <- (is_new _ _ _ C N). }
  destruct (calls_run (entry_calls (negb (existsb (String.eqb (e_name e)) names)) e) (a_world a)) as [w1 [[]|ex|]] eqn:E1;
    cbn [fst snd lift]; auto.
  destruct (entry_covers _ _ _ _ N C E1) as [S1 C1].
  assert (KIDS : match get (NMap x) "children" with
          | Some (NSeq c) => parse_groups L ord fuel dbg f (NSeq c) (Some (e_name e))
          | _ => pure tt
          end (in_world a w1) = outcome_of (entries_calls (e_name e :: names) (all_entries (Some (e_name e)) ch)) (in_world a w1)).
  { unfold kids in HC. destruct (get (NMap x) "children") as [[|t|c|c]|] eqn:GC.
    1,2,4,5: destruct ch; try contradiction; unfold outcome_of; cbn; now destruct a.
    destruct f as [|f]; [cbn in D1; lia|]. cbn [parse_groups].
    pose proof (depth_get _ _ _ _ GC D1) as D3.
    apply (IHf f); auto.
    - destruct f; [cbn in D3; lia|]. eapply Forall_impl; [|apply (depth_items _ _ D3)]. cbn. lia.
    - cbn. eapply agrees_same; eauto. }
  rewrite KIDS, calls_run_app. unfold outcome_of at 1. cbn [in_world a_world].
  destruct (calls_run (entries_calls (e_name e :: names) (all_entries (Some (e_name e)) ch)) w1) as [w2 [[]|ex|]] eqn:E2;
    cbn [fst snd]; auto.
  assert (F2 : Forall (fun e => e_name e <> "*") (all_entries (Some (e_name e)) ch)) by (eapply groups_read_names; exact HC).
  destruct (entries_covers _ _ _ _ F2 C1 E2) as [S2 C2].
  rewrite (IH l (S i) (names_after (e_name e :: names) (all_entries (Some (e_name e)) ch))); auto.
  cbn [a_world in_world]. eapply agrees_same; [exact S2|]. eapply agrees_same; eauto.
Qed.

Lemma group_list_sound f : forall parent l i names a a',
  parse_group_list L ord fuel dbg (parse_groups L ord fuel dbg f) i l parent a = (a', Val tt) -> clean a' ->
  covers names (a_world a) -> agrees (a_world a) ->
  exists ds, groups_read L K (match parent with None => true | Some _ => false end) ds l /\
    calls_run (entries_calls names (all_entries parent ds)) (a_world a) = (a_world a', Val tt) /\
    a' = in_world a (a_world a').
Proof.
  induction f as [f IHf] using lt_wf_ind.
  intros parent l. induction l as [|n l IH]; intros i names a a' H CL C A; cbn [parse_group_list] in H.
  { inversion H; subst. exists []. cbn. repeat split; auto. now destruct a'. }
  unfold bind at 1 in H.
  match type of H with (let (_, _) := ?m a in _) = _ => destruct (m a) as [a2 [[]|w|]] eqn:E end; try discriminate.
  assert (CL2 : clean a2).
  { eapply grows_clean; [|exact CL]. eapply (mono_parse_group_list L ord fuel dbg _ l parent); [|exact H].
    intros; apply mono_parse_groups. }
  destruct n as [|t|x|x]; try (exfalso; inversion E; subst; destruct CL2 as [CL2 _]; cbn in CL2;
    rewrite orb_true_r in CL2; discriminate).
  unfold bind in E. destruct (parse_group L ord fuel dbg i (NMap x) parent a) as [a1 [nm|w|]] eqn:E1; try discriminate.
  assert (CL1 : clean a1).
  { eapply grows_clean; [|exact CL2]. destruct nm; [|inversion E; subst; apply grows_refl].
    destruct (get (NMap x) "children") as [[|?|?|?]|]; try (inversion E; subst; apply grows_refl).
    eapply mono_parse_groups; exact E. }
  destruct (proj2 (runner_group i x parent) _ _ _ E1 CL1) as (cs & (e & Hp & HH & _ & -> & ->) & R1 & W1).
  assert (N : e_name e <> "*") by apply HH.
  rewrite (is_new _ _ _ C N) in R1. destruct (entry_covers _ _ _ _ N C R1) as [S1 C1].
  assert (A1 : agrees (a_world a1)) by (eapply agrees_same; eauto).
  assert (KIDS : exists ch, groups_read L K false ch (kids (NMap x)) /\
    calls_run (entries_calls (e_name e :: names) (all_entries (Some (e_name e)) ch)) (a_world a1) = (a_world a2, Val tt) /\
    a2 = in_world a1 (a_world a2)).
  { unfold kids. destruct (get (NMap x) "children") as [[|t|c|c]|].
    1,2,4,5: inversion E; subst; exists []; cbn; repeat split; auto; now destruct a2.
    destruct f as [|f]; [discriminate|]. cbn [parse_groups] in E.
    exact (IHf f (Nat.lt_succ_diag_r f) (Some (e_name e)) c 0 _ _ _ E CL2 C1 A1). }
  destruct KIDS as (ch & HC & R2 & W2).
  assert (F2 : Forall (fun e => e_name e <> "*") (all_entries (Some (e_name e)) ch)) by (eapply groups_read_names; exact HC).
  destruct (entries_covers _ _ _ _ F2 C1 R2) as [S2 C2].
  assert (A2 : agrees (a_world a2)) by (eapply agrees_same; eauto).
  destruct (IH _ _ _ _ H CL C2 A2) as (ds & HD & R3 & W3).
  exists (GDecl (e_name e) (e_fallback e) (e_sink e) (e_level e) ch :: ds).
  split; [split; [|exact HD]|split].
  - apply (group_read_header _ _ _ _ A). exists e, ch. auto.
  - cbn [all_entries flat_map]. fold (all_entries parent ds). rewrite entries_eq. cbn [Datatypes.app entries_calls e_name].
    assert (EE : mkEntry parent (e_name e) (e_fallback e) (e_sink e) (e_level e) = e) by (destruct e; cbn in *; congruence).
    rewrite EE, entries_calls_app, calls_run_app, R1, calls_run_app, R2. exact R3.
  - rewrite W3, W2, W1. reflexivity.
Qed.
End Lists.

End Groups.
