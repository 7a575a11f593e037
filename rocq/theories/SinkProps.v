(** * Safety of sinks: what is accepted, written, on disk (C18-C22, C24, C27, C28) *)
From Coq Require Import List Arith NArith Bool Lia.
From Verif Require Import Base LevelModel SinkModel SinkSpec SinkProofs SinkLabels SinkLife.
Import ListNotations.

Lemma flat_map_nil {A B} (f : A -> list B) l : (forall x, In x l -> f x = []) -> flat_map f l = [].
Proof.
  induction l as [|x l IH]; intros H; [reflexivity|]. cbn. rewrite (H x) by (left; reflexivity).
  apply IH. intros y Hy. apply H. right. exact Hy.
Qed.

Section Props.
Context {E : Type}.
Variable C : cfg E.
Notation state := (state E).
Notation pc := (pc E).

Lemma reach_inv op n s ls : sizes_ok C -> has_dest C op -> reach C op n s ls -> Inv C s.
Proof.
  intros Hs Hd. assert (HM : forall e, (c_msize C e <= M64)%N).
  { intros e. rewrite M64_eq. apply N.lt_le_incl, Hs. }
  revert s ls. apply (reach_ind C op n (fun s _ => Inv C s)).
  - apply init_inv. exact Hd.
  - intros s ls m _ H. apply step_inv; assumption.
Qed.

Lemma infl_in_hand (l : list pc) : flat_map infl l = flat_map in_hand l.
Proof. reflexivity. Qed.

Lemma all_events op n s ls : sizes_ok C -> has_dest C op -> reach C op n s ls ->
  accepted ls = lost ls ++ written ls ++ pending s.
Proof.
  intros Hs Hd Hr. pose proof (reach_inv _ _ _ _ Hs Hd Hr) as HI.
  destruct (reach_hist C _ _ _ _ Hr) as (H1 & H2 & H3).
  unfold accepted, pending. rewrite <- H1, <- H2, <- H3, (I_all C s HI), infl_in_hand.
  rewrite <- !app_assoc. reflexivity.
Qed.

Lemma step_opened s m : opened s = true ->
  opened (fst (step C s m)) = true /\ lost (snd (step C s m)) = [] /\
  length (h_closed (fst (step C s m))) = length (h_closed s) + fresh_files (snd (step C s m)).
Proof.
  intros Ho. assert (T : opened s = true /\ @lost E [] = [] /\ length (h_closed s) = length (h_closed s) + 0) by auto.
  destruct m as [t c|n]; cbn [step]; [|exact T].
  destruct (nth_error (thr s) t) as [p|]; [|exact T].
  assert (HR : forall k : cont E, lost (ret_label t k) = [] /\ fresh_files (ret_label t k) = 0 /\
     fresh_files (LUnlock t :: ret_label t k) = 0).
  { intros k. destruct k; cbn; auto. }
  destruct p as [ |e|n e|n e| | | |k|k|k e|k oe|k|k|k|k|k|k| | | | | | | | | ]; cbn [step_thread];
  rewrite ?Ho;
  repeat match goal with
  | |- context [match ?x with _ => _ end] =>
      match type of x with
      | choice _ => destruct x
      | bool => destruct x
      | list _ => destruct x
      | option _ => destruct x
      | stage => destruct x
      | sink_kind => destruct x
      | reopen => destruct x
      | SinkModel.pc _ => destruct x
      end
  end; try exact T; cbn [fst snd]; try (destruct (HR k) as (R1 & R2 & R3));
  cbn [s_thr s_q s_acc s_flags s_out opened h_closed lost flat_map app]; rewrite ?R2, ?R3;
  try (split; [first [exact Ho|reflexivity]|]; split; [first [exact R1|reflexivity]|];
       rewrite ?app_length; cbn; lia).
Qed.

Lemma opened_stays n s ls : reach C true n s ls ->
  opened s = true /\ lost ls = [] /\ length (h_closed s) = fresh_files ls.
Proof.
  revert s ls. apply (reach_ind C true n (fun s ls => opened s = true /\ lost ls = [] /\
     length (h_closed s) = fresh_files ls)).
  - auto.
  - intros s ls m _ (H1 & H2 & H3). destruct (step_opened s m H1) as (G1 & G2 & G3).
    rewrite lost_app, fresh_app, H2, G2, G3, H3. auto.
Qed.

Lemma files_runs op n s ls : sizes_ok C -> has_dest C op -> reach C op n s ls ->
  files s = map (fun r => concat (map (c_render C) r)) (h_closed s ++ [h_cur s]) /\
  concat (h_closed s ++ [h_cur s]) = written ls.
Proof.
  intros Hs Hd Hr. pose proof (reach_inv _ _ _ _ Hs Hd Hr) as HI.
  destruct (reach_hist C _ _ _ _ Hr) as (H1 & H2 & H3).
  split.
  - unfold files. rewrite map_app, (I_closed C s HI), (I_cur C s HI). reflexivity.
  - rewrite concat_app. cbn. rewrite app_nil_r. exact H2.
Qed.

Lemma concat_map_map (f : E -> bytes) (l : list (list E)) :
  concat (map (fun r => concat (map f r)) l) = concat (map f (concat l)).
Proof.
  induction l as [|x l IH]; [reflexivity|]. cbn. rewrite map_app, concat_app, IH. reflexivity.
Qed.

Lemma pending_bound op n s ls : sizes_ok C -> has_dest C op -> reach C op n s ls ->
  length (pending s) <= c_cap C + 1.
Proof.
  intros Hs Hd Hr. pose proof (reach_inv _ _ _ _ Hs Hd Hr) as HI.
  unfold pending. rewrite app_length, map_length. pose proof (I_cap C s HI).
  assert (length (flat_map in_hand (thr s)) <= 1); [|lia].
  assert (length (flat_map in_hand (thr s)) <= length (flat_map fl (thr s))).
  { induction (thr s) as [|p l IH]; [auto|]. cbn. rewrite !app_length.
    enough (length (in_hand p) <= length (fl p)) by lia.
    destruct p as [| | | | | | | | | | ? [?|] | | | | | | | | | | | | | | | ]; cbn; lia. }
  rewrite (I_flag C s HI) in *. destruct (fip s); cbn in *; lia.
Qed.

(** ** C19 *)
Lemma output_is_accepted n s ls : sizes_ok C -> c_kind C <> KSyslog -> reach C true n s ls ->
  accepted ls = written ls ++ pending s /\
  concat (files s) = concat (map (c_render C) (written ls)) /\
  length (pending s) <= c_cap C + 1.
Proof.
  intros Hs Hk Hr. assert (Hd : has_dest C true) by (right; reflexivity).
  destruct (opened_stays _ _ _ Hr) as (_ & Hl & _).
  split; [rewrite (all_events true n s ls Hs Hd Hr), Hl; reflexivity|].
  destruct (files_runs true n s ls Hs Hd Hr) as [F1 F2].
  split; [rewrite F1, concat_map_map, F2; reflexivity|].
  eapply pending_bound; eassumption.
Qed.

Lemma syslog_in_order n s ls : sizes_ok C -> reach C true n s ls ->
  accepted ls = written ls ++ pending s.
Proof.
  intros Hs Hr. assert (Hd : has_dest C true) by (right; reflexivity).
  destruct (opened_stays _ _ _ Hr) as (_ & Hl & _).
  rewrite (all_events true n s ls Hs Hd Hr), Hl. reflexivity.
Qed.

Lemma output_unopened n s ls : sizes_ok C -> c_kind C = KFile -> reach C false n s ls ->
  accepted ls = lost ls ++ written ls ++ pending s /\
  concat (files s) = concat (map (c_render C) (written ls)).
Proof.
  intros Hs Hk Hr. assert (Hd : has_dest C false) by (left; exact Hk).
  split; [apply (all_events false n s ls Hs Hd Hr)|].
  destruct (files_runs false n s ls Hs Hd Hr) as [F1 F2]. rewrite F1, concat_map_map, F2. reflexivity.
Qed.

(** ** C20 *)
Lemma trying_one (p : pc) : length (trying p) <= 1.
Proof. destruct p as [| | | | | | | [] | [] | [] | [] | [] | [] | [] | [] | [] | [] | | | | | | | | | ]; cbn; lia. Qed.

Lemma per_thread_order n s ls : sizes_ok C -> reach C true n s ls ->
  (exists k, written ls = map snd (firstn k (accepts ls))) /\
  forall t, t < length (thr s) ->
    exists rest, for_sink_by (c_level C) t ls = accepted_by t ls ++ rest /\ length rest <= 1.
Proof.
  intros Hs Hr. split.
  - exists (length (written ls)). rewrite <- firstn_map.
    change (map snd (accepts ls)) with (accepted ls). rewrite (syslog_in_order n s ls Hs Hr).
    rewrite firstn_app, Nat.sub_diag, firstn_all. cbn. rewrite app_nil_r. reflexivity.
  - intros t Ht. exists (trying (pc_of s t)). split; [|apply trying_one].
    rewrite <- admitted_for_sink. eapply reach_pushes; eassumption.
Qed.

(** ** C18 *)
Lemma rejected_no_effect s t l e : nth_error (thr s) t = Some Idle -> t <> 0 -> alive s = true ->
  for_sink (c_level C) l = false ->
  step C s (MThread t (CPush l e)) = (s, [LPush t l e; LReturn t]).
Proof.
  intros Hp Ht Ha Hf. cbn. rewrite Hp. cbn. rewrite Ha, admits_iff, Hf.
  destruct (Nat.eqb_spec t 0); [contradiction|]. reflexivity.
Qed.

Lemma accepted_exactly op n s ls t : reach C op n s ls -> nth_error (thr s) t = Some Idle ->
  accepted_by t ls = for_sink_by (c_level C) t ls.
Proof.
  intros Hr Hp. rewrite <- admitted_for_sink.
  rewrite (reach_pushes C op n s ls Hr t) by (apply nth_error_Some; congruence).
  unfold pc_of. rewrite (nth_error_nth _ _ _ Hp). cbn. rewrite app_nil_r. reflexivity.
Qed.

(** ** C21 *)
Lemma destroyer_others op s t p u p' : Life C op s ->
  nth_error (thr s) t = Some p -> destroying p = true ->
  nth_error (thr s) u = Some p' -> u <> t -> u <> 0 -> p' = Idle.
Proof.
  intros (w & cs & Et & Hw & Hcs & Hhw & _ & Hm) Hp Hd Hp' Hut Hu. rewrite Et in *.
  destruct u as [|u]; [congruence|]. cbn in Hp'.
  destruct t as [|t].
  { cbn in Hp. injection Hp as ->.
    destruct p as [ |e|n e|n e| | | |k|k|k e|k oe|k|k|k|k|k|k| | | | | | | | | ]; try discriminate;
    destruct k; discriminate. }
  cbn in Hp. destruct Hm as [(M1 & _)|(l1 & p0 & l2 & M1 & M2 & M3 & M4 & M5)].
  - eapply Forall_forall in M1; [|eapply nth_error_In; exact Hp]. cbn in M1. congruence.
  - assert (HI : forall i x, nth_error cs i = Some x -> i <> length l1 -> x = Idle).
    { intros i x Hx Hi. rewrite M1 in Hx. destruct (Nat.lt_ge_cases i (length l1)) as [Hlt|Hge].
      - rewrite nth_error_app1 in Hx by exact Hlt. apply nth_error_In in Hx.
        eapply Forall_forall in M2; [|exact Hx]. auto.
      - rewrite nth_error_app2 in Hx by lia. destruct (i - length l1) as [|k] eqn:Hk; [lia|].
        cbn in Hx. apply nth_error_In in Hx. eapply Forall_forall in M3; [|exact Hx]. auto. }
    destruct (Nat.eq_dec t (length l1)) as [->|Ht].
    + apply (HI u); [exact Hp'|]. lia.
    + apply (HI t) in Hp; [|exact Ht]. subst p. discriminate.
Qed.

Lemma closing_worker op s t : Life C op s ->
  nth_error (thr s) t = Some DClose \/ nth_error (thr s) t = Some Dead ->
  t <> 0 /\ nth_error (thr s) 0 = Some WDone /\ (hw C op = true -> q s = []).
Proof.
  intros (w & cs & Et & Hw & Hcs & Hhw & _ & Hm) Hp. rewrite Et in *. cbn [nth_error].
  destruct t as [|t].
  { cbn in Hp. destruct Hp as [Hp|Hp]; injection Hp as ->; discriminate Hw. }
  split; [discriminate|]. cbn in Hp.
  destruct Hm as [(M1 & _)|(l1 & p0 & l2 & M1 & M2 & M3 & M4 & M5)].
  - rewrite Forall_forall in M1.
    destruct Hp as [Hp|Hp]; apply nth_error_In in Hp; apply M1 in Hp; discriminate Hp.
  - assert (HI : forall i x, nth_error cs i = Some x -> i <> length l1 -> x = Idle).
    { intros i x Hx Hi. rewrite M1 in Hx. destruct (Nat.lt_ge_cases i (length l1)) as [Hlt|Hge].
      - rewrite nth_error_app1 in Hx by exact Hlt. apply nth_error_In in Hx.
        eapply Forall_forall in M2; [|exact Hx]. auto.
      - rewrite nth_error_app2 in Hx by lia. destruct (i - length l1) as [|k] eqn:Hk; [lia|].
        cbn in Hx. apply nth_error_In in Hx. eapply Forall_forall in M3; [|exact Hx]. auto. }
    assert (Ht : t = length l1).
    { destruct (Nat.eq_dec t (length l1)) as [Ht|Ht]; [exact Ht|].
      destruct Hp as [Hp|Hp]; apply HI in Hp; auto; discriminate. }
    assert (Hp0 : p0 = DClose \/ p0 = Dead).
    { subst cs t. rewrite nth_error_app2, Nat.sub_diag in Hp by lia. cbn in Hp.
      destruct Hp as [Hp|Hp]; injection Hp as ->; auto. }
    unfold dcond in M5. unfold hw in *. destruct (c_lat0 C) eqn:Hl.
    + cbn in *. rewrite (Hhw eq_refl). split; [reflexivity|discriminate].
    + destruct Hp0 as [-> | ->]; destruct M5 as (_ & -> & M6); auto.
Qed.

Lemma inflush_unique s t u p p' : Inv C s -> nth_error (thr s) t = Some p ->
  nth_error (thr s) u = Some p' -> inflush p = true -> inflush p' = true -> t = u.
Proof.
  intros HI Hp Hp' H H'. destruct (Nat.eq_dec t u) as [Htu|Htu]; [exact Htu|exfalso].
  destruct (thr_split _ _ _ Hp) as (l1 & l2 & E1 & E2 & _).
  destruct (others_out C s l1 p l2 HI E1 H) as (O1 & O2 & _).
  assert (HN : forall (l : list pc) x, flat_map fl l = [] -> In x l -> inflush x = false).
  { intros l x Hl Hx. apply in_split in Hx. destruct Hx as (a & b & ->).
    rewrite flat_map_app in Hl. apply app_eq_nil in Hl. destruct Hl as [_ Hl].
    cbn in Hl. apply app_eq_nil in Hl. destruct Hl as [Hl _]. unfold fl in Hl.
    destruct (inflush x); [discriminate|reflexivity]. }
  rewrite E1 in Hp'. destruct (Nat.lt_ge_cases u (length l1)) as [Hlt|Hge].
  - rewrite nth_error_app1 in Hp' by exact Hlt. apply nth_error_In in Hp'.
    rewrite (HN _ _ O1 Hp') in H'. discriminate.
  - rewrite nth_error_app2 in Hp' by lia. destruct (u - length l1) as [|k] eqn:Hk; [lia|].
    cbn in Hp'. apply nth_error_In in Hp'. rewrite (HN _ _ O2 Hp') in H'. discriminate.
Qed.

Lemma uses_cases (p : pc) : uses_output p = true -> inflush p = true \/ p = DClose.
Proof. destruct p; cbn; auto; discriminate. Qed.

Lemma one_user op n s ls t u p p' : sizes_ok C -> has_dest C op -> reach C op n s ls ->
  nth_error (thr s) t = Some p -> nth_error (thr s) u = Some p' ->
  uses_output p = true -> uses_output p' = true -> t = u.
Proof.
  intros Hs Hd Hr Hp Hp' H H'. pose proof (reach_inv _ _ _ _ Hs Hd Hr) as HI.
  pose proof (reach_life C op n s ls Hr) as HL.
  destruct (Nat.eq_dec t u) as [Htu|Htu]; [exact Htu|exfalso].
  assert (G : forall a b x, nth_error (thr s) a = Some DClose -> nth_error (thr s) b = Some x ->
     a <> b -> uses_output x = true -> False).
  { intros a b x Ha Hb Hab Hx. destruct (closing_worker op s a HL (or_introl Ha)) as (A1 & A2 & _).
    destruct (Nat.eq_dec b 0) as [->|Hb0]; [rewrite A2 in Hb; injection Hb as <-; discriminate|].
    rewrite (destroyer_others op s a DClose b x HL Ha eq_refl Hb) in Hx by auto. discriminate. }
  destruct (uses_cases p H) as [I1|I1]; destruct (uses_cases p' H') as [I2|I2].
  - apply Htu. eapply inflush_unique; eassumption.
  - subst p'. eapply (G u t); eauto.
  - subst p. eapply (G t u); eauto.
  - subst p. eapply (G t u); eauto.
Qed.

(** ** C22, safety *)
Lemma dead_frozen op s t u c : Life C op s -> nth_error (thr s) t = Some Dead ->
  step C s (MThread u c) = (s, []).
Proof.
  intros HL Hp. destruct (closing_worker op s t HL (or_intror Hp)) as (A1 & A2 & _).
  cbn [step]. destruct (nth_error (thr s) u) as [p|] eqn:Hu; [|reflexivity].
  destruct (Nat.eq_dec u t) as [->|Hut].
  { rewrite Hp in Hu. injection Hu as <-. reflexivity. }
  destruct (Nat.eq_dec u 0) as [->|Hu0].
  { rewrite A2 in Hu. injection Hu as <-. reflexivity. }
  rewrite (destroyer_others op s t Dead u p HL Hp eq_refl Hu Hut Hu0).
  assert (Ha : alive s = false /\ clients_idle s = false).
  { unfold alive, clients_idle. destruct (thr s) as [|w cs]; [destruct t; discriminate|].
    destruct t as [|t]; [congruence|]. cbn in Hp. apply nth_error_In in Hp. cbn [tl]. split.
    - destruct (forallb _ cs) eqn:Hf; [|reflexivity]. rewrite forallb_forall in Hf. apply Hf in Hp. discriminate.
    - destruct (forallb _ cs) eqn:Hf; [|reflexivity]. rewrite forallb_forall in Hf. apply Hf in Hp. discriminate. }
  destruct Ha as [Ha1 Ha2]. cbn [step_thread]. rewrite Ha1, Ha2. destruct c; reflexivity.
Qed.

Lemma destroyed_step s u c p t : nth_error (thr s) u = Some p ->
  In (LDestroyed t) (snd (step_thread C s u c p)) ->
  t = u /\ p = DClose /\ nth_error (thr (fst (step_thread C s u c p))) t = Some Dead /\
  (c_kind C = KFile -> obuf (fst (step_thread C s u c p)) = []).
Proof.
  intros Hp Hin. assert (HR : forall k : cont E, ~ In (LDestroyed t) (ret_label u k)).
  { intros [] []; try discriminate; assumption. }
  assert (Hlt : u < length (thr s)) by (apply nth_error_Some; congruence).
  assert (HU : forall p', nth_error (upd (thr s) u p') u = Some p').
  { intros p'. rewrite nth_error_nth' with (d := Dead) by (rewrite upd_length; exact Hlt).
    rewrite nth_upd_same by exact Hlt. reflexivity. }
  destruct p as [ |e|n e|n e| | | |k|k|k e|k oe|k|k|k|k|k|k| | | | | | | | | ]; cbn [step_thread] in *;
  repeat match type of Hin with
  | context [match ?x with _ => _ end] =>
      match type of x with
      | choice _ => destruct x
      | bool => destruct x
      | list _ => destruct x
      | option _ => destruct x
      | stage => destruct x
      | sink_kind => destruct x
      | reopen => destruct x
      | SinkModel.pc _ => destruct x
      end
  end; cbn [snd In] in Hin;
  repeat match goal with H : _ \/ _ |- _ => destruct H | H : False |- _ => destruct H end;
  try discriminate; try (exfalso; eapply HR; eassumption).
  all: injection H as ->; cbn [fst s_thr s_out thr obuf]; rewrite HU;
    (split; [reflexivity|]; split; [reflexivity|]; split; [reflexivity|]); intros; congruence.
Qed.

Lemma destroyed_dead op n s ls t : reach C op n s ls -> In (LDestroyed t) ls ->
  nth_error (thr s) t = Some Dead /\ (c_kind C = KFile -> obuf s = []).
Proof.
  revert s ls. apply (reach_ind C op n (fun s ls => In (LDestroyed t) ls ->
     nth_error (thr s) t = Some Dead /\ (c_kind C = KFile -> obuf s = []))).
  - intros [].
  - intros s ls m Hr IH Hin. apply in_app_iff in Hin. destruct Hin as [Hin|Hin].
    + destruct (IH Hin) as [I1 I2]. destruct m as [u c|k].
      * rewrite (dead_frozen op s t u c (reach_life C op n s ls Hr) I1). auto.
      * cbn. split; [exact I1|]. intros Hk. rewrite (I2 Hk). destruct k; reflexivity.
    + destruct m as [u c|k]; [|destruct Hin]. cbn [step] in *.
      destruct (nth_error (thr s) u) as [p|] eqn:Hp; [|destruct Hin].
      destruct (destroyed_step s u c p t Hp Hin) as (-> & _ & D1 & D2). auto.
Qed.

Lemma dead_no_hand op s t : Life C op s -> nth_error (thr s) t = Some Dead ->
  flat_map in_hand (thr s) = [].
Proof.
  intros HL Hp. destruct (closing_worker op s t HL (or_intror Hp)) as (A1 & A2 & _).
  assert (H : forall x, In x (thr s) -> in_hand x = []).
  { intros x Hx. apply In_nth_error in Hx. destruct Hx as (u & Hu).
    destruct (Nat.eq_dec u t) as [->|Hut]; [rewrite Hp in Hu; injection Hu as <-; reflexivity|].
    destruct (Nat.eq_dec u 0) as [->|Hu0]; [rewrite A2 in Hu; injection Hu as <-; reflexivity|].
    rewrite (destroyer_others op s t Dead u x HL Hp eq_refl Hu Hut Hu0). reflexivity. }
  apply flat_map_nil. exact H.
Qed.
End Props.
