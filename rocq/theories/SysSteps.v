(** * The invariant holds after every history *)
From Coq Require Import String List Arith Bool Lia Permutation.
From Verif Require Import Base LevelModel SysModel SysSpec SysBase SysSpread SysInv SysOps.
Import ListNotations.

Lemma Inv_init : Inv init.
Proof.
  assert (E : forall {A} i (x : A), nth_error [] i = Some x -> False) by (intros A [|i] x; discriminate).
  constructor; cbn; try solve [intros; exfalso; eapply E; eassumption]; try solve [intros; contradiction]; try solve [constructor].
  - intros n i [[= <- <-]|[]]. lia.
  - constructor; [intros []|constructor].
  - intros x X H. exfalso. eapply E; eauto.
Qed.

Lemma Inv_configured s : Inv s -> Inv (with_configured s).
Proof. intros I. destruct I. constructor; assumption. Qed.

(** ** Loggers *)
Definition l_ok (s : sys) (L : logger) : Prop :=
  l_group L < length (groups s) /\ (forall k, l_sink L = Some k -> k < length (sinks s)) /\
  (l_alive L = true -> l_lov L = false -> forall Y, nth_error (groups s) (l_group L) = Some Y -> l_level L = g_level Y) /\
  (l_alive L = true -> l_sov L = false -> forall Y, nth_error (groups s) (l_group L) = Some Y -> g_sink Y <> None -> l_sink L = g_sink Y).

Lemma Inv_l_ok s i L : Inv s -> nth_error (loggers s) i = Some L -> l_ok s L.
Proof.
  intros I E. repeat split.
  - eapply (V_lgrp _ I); eauto.
  - intros k K. eapply (V_lsnk _ I); eauto.
  - intros A O Y EY. eapply (L_lev _ I); eauto.
  - intros A O Y EY K. eapply (L_snk _ I); eauto.
Qed.

Lemma Inv_loggers s ls m : Inv s ->
  (forall i L, nth_error ls i = Some L -> l_ok s L) ->
  (forall i L, nth_error ls i = Some L -> l_alive L = true -> In (l_name L, i) m) ->
  (forall n i, In (n, i) m -> exists L, nth_error ls i = Some L /\ l_name L = n) ->
  NoDup (map fst m) -> Inv (with_loggers s ls m).
Proof.
  intros I Hok Hreg Hm Hn. constructor; cbn; try (apply I).
  - intros i L E. apply (Hok _ _ E).
  - exact Hm.
  - intros i L k E. apply (Hok _ _ E).
  - exact Hn.
  - intros i L Y E A O EY. eapply (Hok _ _ E); eauto.
  - intros i L Y E A O EY K. eapply (Hok _ _ E); eauto.
  - exact Hreg.
Qed.

Lemma nth_set_cases {A} (l : list A) i j x y : nth_error (set_at l i x) j = Some y -> (j = i /\ y = x) \/ (j <> i /\ nth_error l j = Some y).
Proof.
  intros H. destruct (Nat.eq_dec j i) as [->|Hj].
  - left. split; [reflexivity|]. rewrite nth_set_at in H; [congruence|]. apply nth_some_lt in H. rewrite set_at_length in H. exact H.
  - right. rewrite nth_set_at_other in H by exact Hj. auto.
Qed.

Lemma Inv_mod_logger s i f : Inv s ->
  (forall L, nth_error (loggers s) i = Some L -> l_ok s L -> l_ok s (f L) /\ l_name (f L) = l_name L /\ (l_alive (f L) = true -> l_alive L = true)) ->
  Inv (mod_logger s i f).
Proof.
  intros I Hf. unfold mod_logger. destruct (nth_error (loggers s) i) as [L|] eqn:E; [|exact I].
  destruct (Hf L eq_refl (Inv_l_ok _ _ _ I E)) as (H1 & H2 & H3). apply Inv_loggers; [exact I| | | |exact (N_l _ I)].
  - intros j M EM. apply nth_set_cases in EM. destruct EM as [(-> & ->)|(Hj & EM)]; [exact H1|]. eapply Inv_l_ok; eauto.
  - intros j M EM A. apply nth_set_cases in EM. destruct EM as [(-> & ->)|(Hj & EM)].
    + rewrite H2. eapply (LReg _ I); eauto.
    + eapply (LReg _ I); eauto.
  - intros n j Hj. destruct (V_lmap _ I _ _ Hj) as (M & EM & NM). destruct (Nat.eq_dec j i) as [->|Hji].
    + exists (f L). rewrite nth_set_at by (eapply nth_some_lt; eauto). split; [reflexivity|]. congruence.
    + exists M. rewrite nth_set_at_other by exact Hji. auto.
Qed.

Lemma ok_set_level s l L : l_ok s L -> l_ok s (l_set_level l L).
Proof. intros (A & B & C & D). repeat split; cbn; auto; discriminate. Qed.
Lemma ok_set_sink s k L : k < length (sinks s) -> l_ok s L -> l_ok s (l_set_sink k L).
Proof. intros Hk (A & B & C & D). repeat split; cbn; auto; try discriminate. intros j [= <-]. exact Hk. Qed.
Lemma ok_level_from s i y L : nth_error (groups s) i = Some y -> l_ok s L -> l_ok s (l_level_from i y L).
Proof.
  intros E (A & B & C & D). repeat split; cbn; auto. intros Al O Y EY. destruct (Nat.eqb_spec i (l_group L)) as [->|]; [|discriminate]. congruence.
Qed.
Lemma ok_sink_from s i y L : Inv s -> nth_error (groups s) i = Some y -> l_ok s L -> l_ok s (l_sink_from i y L).
Proof.
  intros I E (A & B & C & D). unfold l_sink_from. destruct (g_sink y) as [k|] eqn:K; [|repeat split; auto].
  repeat split; cbn; auto.
  - intros j [= <-]. eapply (V_gsnk _ I); eauto.
  - intros Al O Y EY _. destruct (Nat.eqb_spec i (l_group L)) as [->|]; [|discriminate]. congruence.
Qed.
Lemma ok_reset_sink s y L : Inv s -> nth_error (groups s) (l_group L) = Some y -> l_ok s L -> l_ok s (l_reset_sink y L).
Proof.
  intros I E (A & B & C & D). repeat split; cbn; auto.
  - intros j K. eapply (V_gsnk _ I); eauto.
  - intros Al O Y EY _. congruence.
Qed.
Lemma ok_set_group s i y L : Inv s -> nth_error (groups s) i = Some y -> l_ok s L -> l_ok s (l_set_group i y L).
Proof.
  intros I E (A & B & C & D). unfold l_set_group, l_level_from, l_sink_from. cbn.
  pose proof (nth_some_lt _ _ _ E) as Hi.
  destruct (l_sov L) eqn:So; cbn; destruct (l_lov L) eqn:Lo; cbn; rewrite ?So, ?Lo; cbn; try (destruct (g_sink y) as [k|] eqn:K; cbn; rewrite ?Lo; cbn);
    repeat split; cbn; rewrite ?So, ?Lo, ?Nat.eqb_refl; cbn; auto; try discriminate; try congruence;
    try (intros j [= <-]; eapply (V_gsnk _ I); eauto).
Qed.

Lemma live_some s x i : live s x = Some i -> exists L, find (lmap s) x = Some i /\ nth_error (loggers s) i = Some L /\ l_alive L = true.
Proof.
  unfold live. destruct (find (lmap s) x) as [j|] eqn:F; [|discriminate]. destruct (nth_error (loggers s) j) as [L|] eqn:E; [|discriminate].
  destruct (l_alive L) eqn:A; [|discriminate]. intros [= <-]. eauto.
Qed.

Lemma live_none s x i L : Inv s -> live s x = None -> In (x, i) (lmap s) -> nth_error (loggers s) i = Some L -> l_alive L = false.
Proof.
  intros I H Hi E. apply In_find in Hi; [|exact (N_l _ I)]. unfold live in H. rewrite Hi, E in H. destruct (l_alive L); [discriminate|reflexivity].
Qed.

Lemma Inv_drop s x : Inv s -> live s x = None -> Inv (drop_entry s x).
Proof.
  intros I H. apply Inv_loggers; [exact I| | | |].
  - intros i L E. eapply Inv_l_ok; eauto.
  - intros i L E A. apply erase_in. pose proof (LReg _ I _ _ E A) as Hi. split; [exact Hi|].
    intros Heq. rewrite Heq in Hi. rewrite (live_none _ _ _ _ I H Hi E) in A. discriminate.
  - intros n i Hi. apply erase_in in Hi. exact (V_lmap _ I _ _ (proj1 Hi)).
  - apply erase_nodup. exact (N_l _ I).
Qed.

(** ** Groups *)

Lemma in_snd_find m k v : find m k = Some v -> In v (map snd m).
Proof. intros H. apply find_In in H. change v with (snd (k, v)). apply in_map. exact H. Qed.

Lemma snd_in_find m v : NoDup (map fst m) -> In v (map snd m) -> exists k, find m k = Some v.
Proof. intros Hn H. apply in_map_iff in H. destruct H as ([k v'] & <- & H). exists k. apply In_find; assumption. Qed.

Lemma assign_nonnil m k v : assign m k v <> [].
Proof. destruct m as [|[k' v'] m]; cbn; [discriminate|]. destruct (String.eqb k' k); discriminate. Qed.

(** A name is given to a group; another group does not lose its last one. *)
Lemma Inv_assign s n i : Inv s -> i < length (groups s) ->
  ((find (gmap s) "*"%string <> None) \/ n = "*"%string) -> ~ last_name s n -> Inv (with_gmap s (assign (gmap s) n i)).
Proof.
  intros I Hi Hst Hln. constructor; cbn; try (apply I).
  - intros k j Hk. apply in_assign in Hk. destruct Hk as [(-> & ->)|Hk]; [exact Hi|]. exact (V_gmap _ I _ _ Hk).
  - apply assign_nodup. exact (N_g _ I).
  - intros x X E P. pose proof (Reg _ I _ _ E P) as Hx. destruct (snd_in_find _ _ (N_g _ I) Hx) as (k & Hk).
    destruct (String.eqb_spec k n) as [->|Hkn].
    + destruct (Nat.eq_dec x i) as [->|Hxi]; [eapply in_snd_find; apply find_assign_same|].
      assert (H : exists n', n' <> n /\ find (gmap s) n' = Some x).
      { (* otherwise it would be the last name *)
        destruct (List.find (fun e => negb (String.eqb (fst e) n) && Nat.eqb (snd e) x) (gmap s)) as [[n' x']|] eqn:F.
        - apply find_some in F. destruct F as (F1 & F2). cbn in F2. apply andb_prop in F2. destruct F2 as (F2 & F3).
          apply negb_true_iff in F2. apply Nat.eqb_eq in F3. subst x'. exists n'. split.
          + intros ->. rewrite String.eqb_refl in F2. discriminate.
          + apply In_find; [exact (N_g _ I)|exact F1].
        - exfalso. apply Hln. exists x, X. repeat split; auto. intros n' Hn' Hf. apply find_In in Hf.
          pose proof (find_none _ _ F _ Hf) as H. cbn in H. rewrite Nat.eqb_refl, andb_true_r in H. apply negb_false_iff in H.
          apply String.eqb_eq in H. contradiction. }
      destruct H as (n' & Hn' & Hf). apply (in_snd_find _ n'). rewrite find_assign_other by exact Hn'. exact Hf.
    + apply (in_snd_find _ k). rewrite find_assign_other by exact Hkn. exact Hk.
  - intros _. rewrite find_assign. destruct (String.eqb_spec "*" n) as [<-|Hn]; [discriminate|].
    destruct Hst as [H|H]; [exact H|]. congruence.
Qed.

(** A new group, without a name. *)
Definition g_ok (s : sys) (X : group) : Prop :=
  (forall p, g_parent X = Some p -> p < length (groups s)) /\
  (forall k, g_sink X = Some k -> k < length (sinks s)) /\
  (g_lov X = false -> forall p Y, g_parent X = Some p -> nth_error (groups s) p = Some Y -> g_level X = g_level Y) /\
  (g_sov X = false -> forall p Y, g_parent X = Some p -> nth_error (groups s) p = Some Y -> g_sink X = g_sink Y).

Lemma nth_app_cases {A} (l : list A) a i x : nth_error (l ++ [a]) i = Some x ->
  (i < length l /\ nth_error l i = Some x) \/ (i = length l /\ x = a).
Proof.
  intros H. destruct (lt_dec i (length l)) as [Hi|Hi].
  - rewrite nth_error_app1 in H by exact Hi. auto.
  - rewrite nth_error_app2 in H by lia. destruct (i - length l) as [|n] eqn:E.
    + cbn in H. right. split; [lia|congruence].
    + cbn in H. destruct n; discriminate.
Qed.

Lemma ht_app gs X x h : ht gs x h -> ht (gs ++ [X]) x h.
Proof.
  intros H. induction H as [x Z E P|x Z p h E P H IH].
  - eapply ht_root; [|exact P]. rewrite nth_error_app1 by (eapply nth_some_lt; eauto). exact E.
  - eapply ht_step; [|exact P|exact IH]. rewrite nth_error_app1 by (eapply nth_some_lt; eauto). exact E.
Qed.

(** Registered together. *)
Lemma Inv_new_group s X m : Inv s -> g_ok s X ->
  let s1 := with_groups s (groups s ++ [X]) in
  (forall n i, In (n, i) m -> In (n, i) (gmap s) \/ i = length (groups s)) ->
  (forall x Z, nth_error (groups s) x = Some Z -> g_parent Z <> None -> In x (map snd m)) ->
  In (length (groups s)) (map snd m) -> NoDup (map fst m) -> find m "*"%string <> None ->
  Inv (with_gmap s1 m).
Proof.
  intros I (G1 & G2 & G3 & G4) s1 Hm Hreg Hnew Hnd Hstar.
  assert (Hold : forall p Y, nth_error (groups s ++ [X]) p = Some Y -> p < length (groups s) -> nth_error (groups s) p = Some Y).
  { intros p Y E Hp. rewrite nth_error_app1 in E by exact Hp. exact E. }
  constructor; cbn; try (apply I); rewrite ?app_length; cbn.
  - intros x Z p E P. apply nth_app_cases in E. destruct E as [(Hx & E)|(-> & ->)].
    + pose proof (V_par _ I _ _ _ E P). lia.
    + specialize (G1 _ P). lia.
  - intros n i Hi. destruct (Hm _ _ Hi) as [H| ->]; [pose proof (V_gmap _ I _ _ H)|]; lia.
  - intros i L E. pose proof (V_lgrp _ I _ _ E). lia.
  - intros x Z k E K. apply nth_app_cases in E. destruct E as [(Hx & E)|(-> & ->)]; [eapply (V_gsnk _ I); eauto|auto].
  - exact Hnd.
  - intros x Z E. apply nth_app_cases in E. destruct E as [(Hx & E)|(-> & ->)].
    + destruct (A_root _ I _ _ E) as (h & Hh). exists h. apply ht_app. exact Hh.
    + assert (EX : nth_error (groups s ++ [X]) (length (groups s)) = Some X) by (rewrite nth_error_app2, Nat.sub_diag by lia; reflexivity).
      destruct (g_parent X) as [p|] eqn:P.
      * destruct (lt_nth_some (groups s) p (G1 _ eq_refl)) as (Y & EY). destruct (A_root _ I _ _ EY) as (h & Hh).
        exists (S h). eapply ht_step; [exact EX|exact P|]. apply ht_app. exact Hh.
      * exists 0. eapply ht_root; eauto.
  - intros x Z p Y E O P EY. apply nth_app_cases in E. destruct E as [(Hx & E)|(-> & ->)].
    + apply Hold in EY; [|exact (V_par _ I _ _ _ E P)]. eapply (H_lev _ I); eauto.
    + apply Hold in EY; [|auto]. eapply G3; eauto.
  - intros x Z p Y E O P EY. apply nth_app_cases in E. destruct E as [(Hx & E)|(-> & ->)].
    + apply Hold in EY; [|exact (V_par _ I _ _ _ E P)]. eapply (H_snk _ I); eauto.
    + apply Hold in EY; [|auto]. eapply G4; eauto.
  - intros i L Y E A O EY. apply Hold in EY; [|exact (V_lgrp _ I _ _ E)]. eapply (L_lev _ I); eauto.
  - intros i L Y E A O EY K. apply Hold in EY; [|exact (V_lgrp _ I _ _ E)]. eapply (L_snk _ I); eauto.
  - intros x Z E P. apply nth_app_cases in E. destruct E as [(Hx & E)|(-> & ->)]; [eapply Hreg; eauto|exact Hnew].
  - intros _. exact Hstar.
Qed.

(** What makeGroup builds. *)
Definition look (s : sys) (n : string) : option (nat * group) :=
  match find (gmap s) n with
  | Some i => match nth_error (groups s) i with Some y => Some (i, y) | None => None end
  | None => None
  end.

Lemma construct_some s n p k lv s' i : Inv s -> construct s n p k lv = Some (s', i) ->
  exists X, s' = with_groups s (groups s ++ [X]) /\ i = length (groups s) /\ g_ok s X /\ g_name X = n.
Proof.
  intros I H. unfold construct in H.
  destruct (g_construct n _ _ lv) as [X|] eqn:C; [|discriminate]. injection H as <- <-. exists X.
  split; [reflexivity|]. split; [reflexivity|].
  unfold g_construct in C.
  destruct p as [pn|]; [fold (look s pn) in C; destruct (look s pn) as [[pi P]|] eqn:LP; [|discriminate]|].
  - rewrite g_set_parent_eq in C. cbn in C.
    assert (EP : nth_error (groups s) pi = Some P).
    { unfold look in LP. destruct (find (gmap s) pn) as [j|]; [|discriminate]. destruct (nth_error (groups s) j) eqn:E; [|discriminate].
      injection LP as <- <-. exact E. }
    pose proof (nth_some_lt _ _ _ EP) as Hpi.
    destruct k as [kn|]; [destruct (find (smap s) kn) as [ki|] eqn:FK; [|discriminate]|].
    + assert (Hki : ki < length (sinks s)) by (eapply (V_smap _ I); apply find_In; eauto).
      destruct lv as [l|]; cbn in C; injection C as <-; (split; [repeat split; cbn|reflexivity]); try congruence; try discriminate;
        try (intros j [= <-]; assumption); intros; congruence.
    + destruct lv as [l|]; cbn in C; injection C as <-; (split; [repeat split; cbn|reflexivity]); try congruence; try discriminate;
        try (intros j [= <-]; assumption); try (intros j K; eapply (V_gsnk _ I); eauto); intros; congruence.
  - destruct k as [kn|]; [destruct (find (smap s) kn) as [ki|] eqn:FK; [|discriminate]|].
    + assert (Hki : ki < length (sinks s)) by (eapply (V_smap _ I); apply find_In; eauto).
      destruct lv as [l|]; cbn in C; [|discriminate]; injection C as <-; (split; [repeat split; cbn|reflexivity]); try congruence; try discriminate;
        intros; congruence.
    + destruct lv as [l|]; cbn in C; [|discriminate]; injection C as <-; (split; [repeat split; cbn|reflexivity]); try congruence; try discriminate;
        intros; congruence.
Qed.

Lemma Inv_make_group s n X : Inv s -> g_ok s X -> ~ last_name s n ->
  Inv (register (with_groups s (groups s ++ [X])) (length (groups s)) n).
Proof.
  intros I Hok Hln. unfold register. cbn [gmap with_groups].
  set (m0 := match find (gmap s) "*" with None => assign (gmap s) "*" (length (groups s)) | Some _ => gmap s end).
  assert (N0 : NoDup (map fst m0)). { unfold m0. destruct (find (gmap s) "*"); [|apply assign_nodup]; exact (N_g _ I). }
  assert (F0 : find m0 "*"%string <> None). { unfold m0. destruct (find (gmap s) "*") eqn:F; [congruence|]. rewrite find_assign_same. discriminate. }
  assert (H0 : forall k, k <> "*"%string -> find m0 k = find (gmap s) k).
  { intros k Hk. unfold m0. destruct (find (gmap s) "*"); [reflexivity|]. apply find_assign_other. exact Hk. }
  assert (Hs0 : find (gmap s) "*"%string <> None -> m0 = gmap s). { intros H. unfold m0. destruct (find (gmap s) "*"); congruence. }
  apply (Inv_new_group s X); auto.
  - intros k j Hj. apply in_assign in Hj. destruct Hj as [(_ & ->)|Hj]; [auto|]. unfold m0 in Hj.
    destruct (find (gmap s) "*"); [auto|]. apply in_assign in Hj. destruct Hj as [(_ & ->)|Hj]; auto.
  - intros x Z E P. destruct (gmap s) as [|e g0] eqn:Eg.
    { exfalso. pose proof (Reg _ I _ _ E P) as H. rewrite Eg in H. destruct H. }
    assert (Hst : find (gmap s) "*"%string <> None) by (apply (Star _ I); congruence).
    rewrite <- Eg in *. rewrite (Hs0 Hst).
    pose proof (Inv_assign s n x I ltac:(eapply nth_some_lt; eauto) (or_introl Hst) Hln) as I'.
    (* names of others survive *)
    destruct (snd_in_find _ _ (N_g _ I) (Reg _ I _ _ E P)) as (k & Hk).
    destruct (String.eqb_spec k n) as [->|Hkn].
    + assert (Hother : exists n', n' <> n /\ find (gmap s) n' = Some x).
      { destruct (List.find (fun e => negb (String.eqb (fst e) n) && Nat.eqb (snd e) x) (gmap s)) as [[n' x']|] eqn:F.
        - apply find_some in F. destruct F as (F1 & F2). cbn in F2. apply andb_prop in F2. destruct F2 as (F2 & F3).
          apply negb_true_iff in F2. apply Nat.eqb_eq in F3. subst x'. exists n'. split.
          + intros ->. rewrite String.eqb_refl in F2. discriminate.
          + apply In_find; [exact (N_g _ I)|exact F1].
        - exfalso. apply Hln. exists x, Z. repeat split; auto. intros n' Hn' Hf. apply find_In in Hf.
          pose proof (find_none _ _ F _ Hf) as H. cbn in H. rewrite Nat.eqb_refl, andb_true_r in H. apply negb_false_iff in H.
          apply String.eqb_eq in H. contradiction. }
      destruct Hother as (n' & Hn' & Hf). apply (in_snd_find _ n'). rewrite find_assign_other by exact Hn'. exact Hf.
    + apply (in_snd_find _ k). rewrite find_assign_other by exact Hkn. exact Hk.
  - eapply in_snd_find. apply find_assign_same.
  - apply assign_nodup. exact N0.
  - rewrite find_assign. destruct (String.eqb "*" n); [discriminate|exact F0].
Qed.

Lemma Inv_perm s gm lm : Inv s -> Permutation gm (gmap s) -> Permutation lm (lmap s) ->
  Inv (mkSys (groups s) (loggers s) (sinks s) gm lm (smap s) (configured s)).
Proof.
  intros I Pg Pl.
  assert (Ng : NoDup (map fst gm)) by (eapply Permutation_NoDup; [apply Permutation_sym, Permutation_map; exact Pg|exact (N_g _ I)]).
  constructor; cbn; try (apply I); auto.
  - intros n i H. eapply (V_gmap _ I). eapply Permutation_in; eauto.
  - intros n i H. eapply (V_lmap _ I). eapply Permutation_in; eauto.
  - eapply Permutation_NoDup; [apply Permutation_sym, Permutation_map; exact Pl|exact (N_l _ I)].
  - intros x X E P. eapply Permutation_in; [apply Permutation_sym, Permutation_map; exact Pg|]. eapply (Reg _ I); eauto.
  - intros i L E A. eapply Permutation_in; [apply Permutation_sym; exact Pl|]. eapply (LReg _ I); eauto.
  - intros H. rewrite (find_perm _ _ _ Pg Ng). apply (Star _ I). intros H'. rewrite H' in Pg. apply H, Permutation_nil, Permutation_sym, Pg.
Qed.

(** ** getLogger *)

Lemma Inv_new_logger s x L : Inv s -> l_ok s L -> l_name L = x -> live s x = None ->
  Inv (with_loggers s (loggers s ++ [L]) (assign (lmap s) x (length (loggers s)))).
Proof.
  intros I Hok Hx Hl. apply Inv_loggers; [exact I| | | |].
  - intros i M E. apply nth_app_cases in E. destruct E as [(_ & E)|(_ & ->)]; [eapply Inv_l_ok; eauto|exact Hok].
  - intros i M E A. apply in_assign_iff; [exact (N_l _ I)|]. apply nth_app_cases in E. destruct E as [(Hi & E)|(-> & ->)].
    + right. pose proof (LReg _ I _ _ E A) as Hr. split; [|exact Hr]. intros Hn. rewrite Hn in Hr.
      rewrite (live_none _ _ _ _ I Hl Hr E) in A. discriminate.
    + left. auto.
  - intros n i H. apply in_assign_iff in H; [|exact (N_l _ I)]. destruct H as [(-> & ->)|(_ & H)].
    + exists L. rewrite nth_error_app2, Nat.sub_diag by lia. auto.
    + destruct (V_lmap _ I _ _ H) as (M & E & N). exists M. rewrite nth_error_app1 by (eapply nth_some_lt; eauto). auto.
  - apply assign_nodup. exact (N_l _ I).
Qed.

(** The logger that getLogger creates. *)
Definition new_logger (s : sys) (x : string) (i : nat) (y : group) (k : option string) (lv : option level) : logger :=
  let l := l_construct x i y in
  let l := match k with
           | Some n => match find (smap s) n with Some k => l_set_sink k l | None => l end
           | None => l
           end in
  match lv with Some v => l_set_level v l | None => l end.

Lemma new_logger_ok s x i y k lv : Inv s -> nth_error (groups s) i = Some y ->
  l_ok s (new_logger s x i y k lv) /\ l_name (new_logger s x i y k lv) = x /\ l_group (new_logger s x i y k lv) = i /\
  l_alive (new_logger s x i y k lv) = true.
Proof.
  intros I E. assert (H0 : l_ok s (l_construct x i y) /\ l_name (l_construct x i y) = x /\ l_group (l_construct x i y) = i /\ l_alive (l_construct x i y) = true).
  { unfold l_construct, l_level_from, l_sink_from. destruct (g_sink y) as [j|] eqn:K; cbn; (split; [|auto]); repeat split; cbn;
      try (eapply nth_some_lt; eauto); rewrite ?Nat.eqb_refl; cbn; try congruence; try discriminate; intros ? [= <-]; eapply (V_gsnk _ I); eauto. }
  unfold new_logger.
  assert (H1 : forall L, l_ok s L /\ l_name L = x /\ l_group L = i /\ l_alive L = true -> let L' := match k with
           | Some n => match find (smap s) n with Some k => l_set_sink k L | None => L end
           | None => L end in l_ok s L' /\ l_name L' = x /\ l_group L' = i /\ l_alive L' = true).
  { intros L (A & B). destruct k as [n|]; [|split; assumption]. cbn. destruct (find (smap s) n) as [j|] eqn:F; [|split; assumption]. split; [|exact B].
    apply ok_set_sink; [|exact A]. eapply (V_smap _ I). apply find_In. exact F. }
  specialize (H1 _ H0). cbn zeta in H1. destruct H1 as (A & B & C & D). destruct lv as [v|]; [|auto].
  split; [apply ok_set_level; exact A|]. auto.
Qed.

(** The group a new logger gets, and whether a warning is logged; [None]: none. *)
Definition group_for (dbg : bool) (s : sys) (g : string) : option (nat * bool) :=
  if String.eqb g "*" then (if dbg then None else match find (gmap s) "*" with Some i => Some (i, true) | None => None end)
  else match find (gmap s) g with
       | Some i => Some (i, false)
       | None => match find (gmap s) "*" with Some i => Some (i, true) | None => None end
       end.

Lemma get_logger_cases dbg s x g k lv : Inv s ->
  (configured s = false /\ get_logger dbg s x g k lv = (s, RThrow)) \/
  (configured s = true /\ exists i, live s x = Some i /\ get_logger dbg s x g k lv = (s, RLogger i)) \/
  (configured s = true /\ live s x = None /\ group_for dbg s g = None /\
     get_logger dbg s x g k lv = (s, if String.eqb g "*" && dbg then RThrow else RUB)) \/
  (exists i y w, configured s = true /\ live s x = None /\ group_for dbg s g = Some (i, w) /\ nth_error (groups s) i = Some y /\
     if w && negb (can_warn y) then get_logger dbg s x g k lv = (s, RUB)
     else get_logger dbg s x g k lv =
       (with_loggers s (loggers s ++ [new_logger s x i y k lv]) (assign (lmap s) x (length (loggers s))), RLogger (length (loggers s)))).
Proof.
  intros I. unfold get_logger. destruct (configured s) eqn:Cf; [|left; auto]. cbn [negb]. right.
  destruct (live s x) as [i|] eqn:Lv; [left; eauto|]. right. unfold group_for.
  assert (Hv : forall n i, find (gmap s) n = Some i -> exists y, nth_error (groups s) i = Some y).
  { intros n i F. apply lt_nth_some. eapply (V_gmap _ I). apply find_In. exact F. }
  destruct (String.eqb_spec g "*") as [->|Hg].
  - destruct dbg; [left; auto|]. destruct (find (gmap s) "*") as [i|] eqn:F; [|left; auto].
    right. destruct (Hv _ _ F) as (y & E). exists i, y, true. rewrite E. repeat split; auto. cbn.
    destruct (can_warn y); reflexivity.
  - destruct (find (gmap s) g) as [i|] eqn:F.
    + right. destruct (Hv _ _ F) as (y & E). exists i, y, false. rewrite E. repeat split; auto.
    + destruct (find (gmap s) "*") as [i|] eqn:F2; [|left; auto].
      right. destruct (Hv _ _ F2) as (y & E). exists i, y, true. rewrite E. repeat split; auto. cbn.
      destruct (can_warn y); reflexivity.
Qed.

(** ** All calls *)
Section Steps.
Variable ord : list nat -> list nat.
Hypothesis ord_in : forall l x, In x (ord l) <-> In x l.

Lemma find_valid s n i : Inv s -> find (gmap s) n = Some i -> exists X, nth_error (groups s) i = Some X.
Proof. intros I F. apply lt_nth_some. eapply (V_gmap _ I). apply find_In. exact F. Qed.


Lemma cycle_check fuel s g p P : Inv s -> length (groups s) <= fuel -> nth_error (groups s) p = Some P -> p <> g ->
  let pp := match nth_error (groups s) p with Some y => g_parent y | None => None end in
  match (if oeqb pp (Some g) then Some false else climbs_to fuel (groups s) g pp) with
  | None => False
  | Some true => would_cycle s g p
  | Some false => ~ would_cycle s g p /\ (g_parent P = Some g \/ avoids (groups s) g p)
  end.
Proof.
  intros I Hf EP Hpg. cbn zeta. rewrite EP. destruct (oeqb (g_parent P) (Some g)) eqn:O.
  - apply oeqb_spec in O. split; [|auto]. intros (_ & H). exact (H _ EP O).
  - assert (O' : g_parent P <> Some g). { intros H. apply oeqb_spec in H. congruence. }
    destruct (A_root _ I _ _ EP) as (h & Hh). destruct (g_parent P) as [q|] eqn:Q.
    + inversion Hh as [? X E1 P1|? X q' h' E1 P1 H1]; subst; [congruence|]. assert (q' = q) by congruence. subst q'.
      pose proof (ht_bound _ _ _ H1) as Hb. pose proof (climbs_total fuel (groups s) g q h' H1 ltac:(lia)) as Ht.
      destruct (climbs_to fuel (groups s) g (Some q)) as [b|] eqn:C; [|congruence].
      pose proof (climbs_spec _ _ _ _ _ _ (V_par _ I) H1 C) as Hc. destruct b.
      * split; [|intros P' E'; congruence]. apply (avoids_anc s g q h' H1) in Hc.
        destruct Hc as [->|Hc]; [congruence|]. eapply anc_step; eauto.
      * assert (Av : avoids (groups s) g p) by (eapply av_step; eauto). split; [|auto]. intros (An & _).
        assert (~ avoids (groups s) g p) as Nav by (apply (avoids_anc s g p _ Hh); auto). contradiction.
    + assert (Av : avoids (groups s) g p) by (eapply av_root; eauto).
      destruct fuel; cbn; (split; [|auto]); intros (An & _);
        assert (~ avoids (groups s) g p) as Nav by (apply (avoids_anc s g p _ Hh); auto); contradiction.
Qed.

Lemma step_inv fuel dbg s c : Inv s -> length (groups s) <= fuel -> usual s c ->
  Inv (fst (step ord fuel dbg s c)) /\ snd (step ord fuel dbg s c) <> RHang.
Proof.
  intros I Hf (Hself & Hkeep). destruct c; cbn [step].
  - (* MakeSink *) split; [|discriminate]. cbn. constructor; cbn; try (apply I); rewrite ?app_length; cbn.
    + intros n i H. apply in_assign in H. destruct H as [(-> & ->)|H]; [lia|]. pose proof (V_smap _ I _ _ H). lia.
    + intros x X k E K. pose proof (V_gsnk _ I _ _ _ E K). lia.
    + intros i L k E K. pose proof (V_lsnk _ I _ _ _ E K). lia.
    + apply assign_nodup. exact (N_s _ I).
  - (* MakeGroup *) destruct (construct s name parent sink lv) as [[s' i]|] eqn:C; [|split; [exact I|discriminate]].
    destruct (construct_some _ _ _ _ _ _ _ I C) as (X & -> & -> & Hok & _). split; [|discriminate].
    apply Inv_make_group; auto.
  - (* SetFallbackGroup *) destruct (find (gmap s) g) as [i|] eqn:F; [|split; [exact I|discriminate]].
    split; [|discriminate]. destruct (find_valid _ _ _ I F) as (X & E). apply Inv_assign; auto. eapply nth_some_lt; eauto.
  - (* SetParentOfGroup *) destruct (find (gmap s) g) as [gi|] eqn:F; [|split; [exact I|discriminate]].
    destruct (find (gmap s) p) as [pi|] eqn:F2; [|split; [exact I|discriminate]].
    assert (Hne : pi <> gi). { cbn in Hself. rewrite F, F2 in Hself. destruct Hself; congruence. }
    destruct (find_valid _ _ _ I F) as (G & EG). destruct (find_valid _ _ _ I F2) as (P & EP).
    pose proof (cycle_check fuel s gi pi P I Hf EP Hne) as Hc. cbn zeta in *.
    destruct (if oeqb _ _ then _ else _) as [[|]|]; [split; [exact I|discriminate]| |destruct Hc].
    destruct (set_parent_spec ord ord_in fuel s gi G pi P I Hf (in_snd_find _ _ _ F) EG EP Hne (proj2 Hc)) as (s' & Hs & _ & I').
    rewrite Hs. split; [exact I'|discriminate].
  - (* UnsetParentOfGroup *) destruct (find (gmap s) g) as [gi|] eqn:F; [|split; [exact I|discriminate]].
    destruct (find_valid _ _ _ I F) as (G & EG).
    destruct (unset_parent_spec ord ord_in fuel s gi G I Hf (in_snd_find _ _ _ F) EG) as (s' & Hs & _ & I').
    rewrite Hs. split; [exact I'|discriminate].
  - (* SetSinkOfGroup *) destruct (find (smap s) k) as [ki|] eqn:F2; [|split; [exact I|discriminate]].
    destruct (find (gmap s) g) as [gi|] eqn:F; [|split; [exact I|discriminate]].
    destruct (find_valid _ _ _ I F) as (G & EG).
    assert (Hk : ki < length (sinks s)) by (eapply (V_smap _ I); apply find_In; eauto).
    destruct (set_sink_spec ord ord_in fuel s gi G ki I Hf (in_snd_find _ _ _ F) EG Hk) as (s' & Hs & _ & I').
    rewrite Hs. split; [exact I'|discriminate].
  - destruct (find (gmap s) g) as [gi|] eqn:F; [|split; [exact I|discriminate]].
    destruct (find_valid _ _ _ I F) as (G & EG).
    destruct (reset_sink_spec ord ord_in fuel s gi G I Hf (in_snd_find _ _ _ F) EG) as (s' & Hs & _ & I').
    rewrite Hs. split; [exact I'|discriminate].
  - destruct (find (gmap s) g) as [gi|] eqn:F; [|split; [exact I|discriminate]].
    destruct (find_valid _ _ _ I F) as (G & EG).
    destruct (set_level_spec ord ord_in fuel s gi G lv I Hf (in_snd_find _ _ _ F) EG) as (s' & Hs & _ & I').
    rewrite Hs. split; [exact I'|discriminate].
  - destruct (find (gmap s) g) as [gi|] eqn:F; [|split; [exact I|discriminate]].
    destruct (find_valid _ _ _ I F) as (G & EG).
    destruct (reset_level_spec ord ord_in fuel s gi G I Hf (in_snd_find _ _ _ F) EG) as (s' & Hs & _ & I').
    rewrite Hs. split; [exact I'|discriminate].
  - (* SetGroupOfLogger *) destruct (find (gmap s) g) as [gi|] eqn:F; [|split; [exact I|discriminate]].
    destruct (find_valid _ _ _ I F) as (G & EG). rewrite EG.
    destruct (live s x) as [i|] eqn:Lv; [|split; [apply Inv_drop; auto|discriminate]].
    split; [|discriminate]. apply Inv_mod_logger; [exact I|]. intros L E Hok. split; [apply ok_set_group; auto|].
    destruct L as [? ? ? so ? lo ?]. unfold l_set_group, l_sink_from, l_level_from. destruct so, lo; cbn; auto; destruct (g_sink G); cbn; auto.
  - destruct (find (smap s) k) as [ki|] eqn:F2; [|split; [exact I|discriminate]].
    assert (Hk : ki < length (sinks s)) by (eapply (V_smap _ I); apply find_In; eauto).
    destruct (live s x) as [i|] eqn:Lv; [|split; [apply Inv_drop; auto|discriminate]].
    split; [|discriminate]. apply Inv_mod_logger; [exact I|]. intros L E Hok. split; [apply ok_set_sink; auto|]. auto.
  - destruct (live s x) as [i|] eqn:Lv; [|split; [exact I|discriminate]].
    destruct (live_some _ _ _ Lv) as (L & Fi & E & A). rewrite E.
    destruct (lt_nth_some _ _ (V_lgrp _ I _ _ E)) as (Y & EY). rewrite EY. split; [|discriminate].
    apply Inv_mod_logger; [exact I|]. intros L' E' Hok. split; [apply ok_sink_from; auto|]. unfold l_sink_from. destruct (g_sink Y); cbn; auto.
  - destruct (live s x) as [i|] eqn:Lv; [|split; [apply Inv_drop; auto|discriminate]].
    split; [|discriminate]. apply Inv_mod_logger; [exact I|]. intros L E Hok. split; [apply ok_set_level; auto|]. auto.
  - destruct (live s x) as [i|] eqn:Lv; [|split; [apply Inv_drop; auto|discriminate]].
    destruct (live_some _ _ _ Lv) as (L & Fi & E & A). rewrite E.
    destruct (lt_nth_some _ _ (V_lgrp _ I _ _ E)) as (Y & EY). rewrite EY. split; [|discriminate].
    apply Inv_mod_logger; [exact I|]. intros L' E' Hok. split; [apply ok_level_from; auto|]. auto.
  - (* GetLogger *) destruct (get_logger_cases dbg s x g k lv I) as [(_ & ->)|[(_ & i & _ & ->)|[(_ & _ & _ & ->)|(i & y & w & _ & Lv & _ & E & H)]]].
    + split; [exact I|discriminate].
    + split; [exact I|discriminate].
    + split; [exact I|]. destruct (String.eqb g "*" && dbg); discriminate.
    + destruct (w && negb (can_warn y)); rewrite H; cbn; [split; [exact I|discriminate]|]. split; [|discriminate].
      destruct (new_logger_ok s x i y k lv I E) as (A & B & _). apply Inv_new_logger; auto.
  - split; [|discriminate]. apply Inv_mod_logger; [exact I|]. intros L E Hok. split; [apply ok_set_level; auto|]. auto.
  - destruct (nth_error (loggers s) i) as [L|] eqn:E; [|split; [exact I|discriminate]].
    destruct (lt_nth_some _ _ (V_lgrp _ I _ _ E)) as (Y & EY). rewrite EY. split; [|discriminate].
    apply Inv_mod_logger; [exact I|]. intros L' E' Hok. split; [apply ok_level_from; auto|]. auto.
  - destruct (nth_error (groups s) g) as [Y|] eqn:EY; [|split; [exact I|discriminate]]. split; [|discriminate].
    apply Inv_mod_logger; [exact I|]. intros L' E' Hok. split; [apply ok_level_from; auto|]. auto.
  - destruct (Nat.ltb_spec k (length (sinks s))) as [Hk|Hk]; [|split; [exact I|discriminate]]. split; [|discriminate].
    apply Inv_mod_logger; [exact I|]. intros L E Hok. split; [apply ok_set_sink; auto|]. auto.
  - destruct (nth_error (loggers s) i) as [L|] eqn:E; [|split; [exact I|discriminate]].
    destruct (lt_nth_some _ _ (V_lgrp _ I _ _ E)) as (Y & EY). rewrite EY. split; [|discriminate].
    apply Inv_mod_logger; [exact I|]. intros L' E' Hok. assert (L' = L) by congruence. subst L'. split; [apply ok_reset_sink; auto|]. auto.
  - destruct (nth_error (groups s) g) as [Y|] eqn:EY; [|split; [exact I|discriminate]]. split; [|discriminate].
    apply Inv_mod_logger; [exact I|]. intros L' E' Hok. split; [apply ok_sink_from; auto|]. unfold l_sink_from. destruct (g_sink Y); cbn; auto.
  - destruct (nth_error (groups s) g) as [G|] eqn:EY; [|split; [exact I|discriminate]]. split; [|discriminate].
    apply Inv_mod_logger; [exact I|]. intros L E Hok. split; [apply ok_set_group; auto|].
    destruct L as [? ? ? so ? lo ?]. unfold l_set_group, l_sink_from, l_level_from. destruct so, lo; cbn; auto; destruct (g_sink G); cbn; auto.
  - split; [|discriminate]. apply Inv_mod_logger; [exact I|]. intros L E (A & B & C & D). split; [|split; [reflexivity|discriminate]].
    repeat split; cbn; auto; discriminate.
  - split; [|discriminate]. cbn. unfold with_gmap. apply (Inv_perm s); [exact I|apply swap_perm|reflexivity].
  - split; [|discriminate]. cbn. unfold with_loggers. apply (Inv_perm s); [exact I|reflexivity|apply swap_perm].
Qed.

Lemma reachable_inv dbg (ok : sys -> call -> Prop) s : (forall s c, ok s c -> usual s c) -> reachable ord dbg ok s -> Inv s.
Proof.
  intros Hok H. induction H as [|s c H IH Hc|s H IH].
  - apply Inv_init.
  - apply step_inv; auto.
  - apply Inv_configured. exact IH.
Qed.
End Steps.
