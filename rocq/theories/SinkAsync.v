(** * What async_flush() achieves, in every schedule (C29, C77) *)
From Coq Require Import List Arith NArith Bool Lia.
From Verif Require Import Base LevelModel SinkModel SinkSpec SinkAsyncSpec SinkProofs SinkLabels SinkLife SinkProps SinkProgress SinkReturn SinkMore.
Import ListNotations.

Section Async.
Context {E : Type}.
Variable C : cfg E.
Notation state := (state E).
Notation pc := (pc E).
Variable n : nat.
Hypothesis sz : sizes_ok C.
Hypothesis buffered : c_kind C <> KSyslog.

Definition not_ntf' (p : pc) : Prop := match p with FNtf _ => False | _ => True end.

(** One step. *)
Inductive kind_of_step (s : state) (t : nat) (p p' : pc) (s' : state) (l : list (label E)) : Prop :=
| ks_write k e : p = FWrite k (Some e) -> p' = FCasFlush k -> l = [LWrite t e] -> ntf s' = ntf s -> kind_of_step s t p p' s' l
| ks_cas k : p = FCasFlush k -> p' = FStream k -> l = [] -> kind_of_step s t p p' s' l
| ks_cas_not k : p = FCasFlush k -> ntf s = false \/ (p' = p /\ s' = s) -> l = [] -> kind_of_step s t p p' s' l
| ks_stream k : p = FStream k -> (forall k', p' <> FCasFlush k') -> l = [] -> ntf s' = ntf s ->
    concat (disk s') = concat (files s) -> kind_of_step s t p p' s' l
| ks_other : (forall k, p <> FCasFlush k) -> (forall k, p' <> FCasFlush k) -> (forall k, p <> FStream k) ->
    (ntf s = true -> ntf s' = true) -> (forall u e, ~ In (LWrite u e) l) ->
    (forall u, In (LUnlock u) l -> u = t /\ exists k, p = FClear k) -> kind_of_step s t p p' s' l.

Lemma step_kind s t c p : nth_error (thr s) t = Some p -> not_ntf' p -> opened s = true -> c <> CGo true ->
  exists p', thr (fst (step_thread C s t c p)) = upd (thr s) t p' /\
    kind_of_step s t p p' (fst (step_thread C s t c p)) (snd (step_thread C s t c p)).
Proof.
  intros Hp Hn Ho Hc.
  assert (Et : thr s = upd (thr s) t p).
  { destruct (thr_split _ _ _ Hp) as (l1 & l2 & E1 & _ & E2). rewrite (E2 p). exact E1. }
  destruct p as [ |e|x e|x e| | | |k|k|k e|k oe|k|k|k|k|k|k| | | | | | | | | ]; try contradiction;
  try (destruct k as [ek| | |]); cbn [step_thread after_flush ret_label]; rewrite ?Ho;
  repeat match goal with
  | |- context [match ?x with _ => _ end] =>
      match type of x with
      | choice _ => destruct x
      | bool => destruct x eqn:?
      | list _ => destruct x eqn:?
      | option _ => destruct x
      | stage => destruct x
      | reopen => destruct x
      | sink_kind => destruct x eqn:?
      | SinkModel.pc _ => destruct x
      end
  end; cbn [fst snd s_thr s_q s_acc s_flags s_out thr]; try contradiction; try congruence;
  (eexists; split; [first [exact Et|reflexivity]|]);
  first
  [ eapply ks_write; reflexivity
  | eapply ks_cas; reflexivity
  | eapply ks_cas_not; [reflexivity|first [right; split; reflexivity|left; assumption]|reflexivity]
  | eapply ks_stream; [reflexivity|discriminate|reflexivity|reflexivity|
      unfold disk, files; cbn [s_thr s_out closed cur obuf]; rewrite ?app_nil_r; reflexivity]
  | apply ks_other; [discriminate|discriminate|discriminate|cbn [s_thr s_q s_acc s_flags s_out ntf]; auto
      |cbn; intuition discriminate|cbn; intros u0 Hin; intuition (try discriminate); 
       try match goal with H : LUnlock _ = LUnlock _ |- _ => injection H as <- end; eauto] ].
Qed.

Lemma no_ntf' s ls : reach C true n s ls -> Forall not_ntf' (thr s).
Proof.
  intros H. revert s ls H. apply reach_ind.
  - cbn. constructor; [destruct (c_lat0 C); exact I|]. induction n; cbn; constructor; auto; exact I.
  - intros s ls [t c|k] _ IH; [|exact IH]. cbn [step]. destruct (nth_error (thr s) t) as [p|] eqn:Hp; [|exact IH].
    destruct p as [ |e|x e|x e| | | |k|k|k e|k oe|k|k|k|k|k|k| | | | | | | | | ]; cbn [step_thread];
    try (destruct k as [ek| | |]); cbn [after_flush ret_label];
    repeat match goal with
    | |- context [match ?x with _ => _ end] =>
        match type of x with
        | choice _ => destruct x
        | bool => destruct x eqn:?
        | list _ => destruct x eqn:?
        | option _ => destruct x
        | stage => destruct x
        | reopen => destruct x
        | sink_kind => destruct x eqn:?
        | SinkModel.pc _ => destruct x
        end
    end; cbn [fst snd s_thr s_q s_acc s_flags s_out thr]; try congruence;
    first [exact IH|apply upd_Forall; [exact IH|exact I]].
Qed.

(** Everything that was written when the flag was set, and the next event if nobody was
    flushing then. *)
Variable s2 : state.
Variable ls2 : list (label E).
Hypothesis r2 : reach C true n s2 ls2.
Hypothesis set2 : ntf s2 = true.

Definition goal (l : list (label E)) : bytes :=
  concat (files s2) ++ if fip s2 then [] else match written l with e :: _ => c_render C e | [] => [] end.
Definition ended (l : list (label E)) : Prop := exists u e a b, l = a ++ LWrite u e :: b /\ In (LUnlock u) b.

Inductive status (s : state) (l : list (label E)) : Prop :=
| st_done : (fip s2 = false -> written l <> []) -> is_prefix (goal l) (concat (disk s)) -> status s l
| st_stream v k : nth_error (thr s) v = Some (FStream k) -> (fip s2 = false -> written l <> []) -> ~ ended l ->
    (forall u e, In (LWrite u e) l -> u = v) -> status s l
| st_set : ntf s = true -> ~ ended l -> (forall u e, In (LWrite u e) l -> exists k, nth_error (thr s) u = Some (FCasFlush k)) ->
    (fip s2 = false -> forall u k, nth_error (thr s) u = Some (FCasFlush k) -> exists e, In (LWrite u e) l) -> status s l.

Lemma goal_written s l : reach C true n s (ls2 ++ l) -> is_prefix (goal l) (concat (files s)).
Proof.
  intros R. destruct (output_is_accepted C n s _ sz buffered R) as (_ & F & _).
  destruct (output_is_accepted C n s2 _ sz buffered r2) as (_ & F2 & _). rewrite F.
  assert (W : written (ls2 ++ l) = written ls2 ++ written l) by (unfold written; apply flat_map_app).
  rewrite W, map_app, concat_app, <- F2. unfold goal.
  destruct (fip s2); [exists (concat (map (c_render C) (written l))); rewrite app_nil_r; reflexivity|].
  destruct (written l) as [|e w]; [exists []; cbn; rewrite !app_nil_r; reflexivity|]. exists (concat (map (c_render C) w)). cbn [map concat]. rewrite app_assoc. reflexivity.
Qed.
Lemma ended_app l l' : ~ ended l -> (forall u e, In (LWrite u e) l -> ~ In (LUnlock u) l') ->
  (forall u e, ~ In (LWrite u e) l') \/ (forall u, ~ In (LUnlock u) l') -> ~ ended (l ++ l').
Proof.
  intros H H1 H2 (u & e & a & b & Q & I).
  assert (Hin : In (LUnlock u) (l ++ l')) by (rewrite Q; apply in_app_iff; right; right; exact I).
  destruct (app_eq_app _ _ _ _ Q) as (m & [[Q1 Q2]|[Q1 Q2]]).
  - (* l = a ++ m *) destruct m as [|y m].
    + rewrite app_nil_r in Q1. subst l. cbn in Q2. destruct H2 as [H2|H2]; [apply (H2 u e); rewrite <- Q2; left; reflexivity|].
      apply (H2 u). rewrite <- Q2. right. exact I.
    + cbn in Q2. injection Q2 as <- ->. apply in_app_iff in I. destruct I as [I|I].
      * apply H. exists u, e, a, m. auto.
      * apply (H1 u e); [rewrite Q1; apply in_app_iff; right; left; reflexivity|exact I].
  - subst a l'. destruct H2 as [H2|H2]; [apply (H2 u e)|apply (H2 u)]; apply in_app_iff; right; [left; reflexivity|right; exact I].
Qed.
Lemma written_nonempty (l : list (label E)) u e : In (LWrite u e) l -> written l <> [].
Proof. intros I Q. assert (X : In e (written l)) by (apply in_flat_map; exists (LWrite u e); split; [exact I|left; reflexivity]). rewrite Q in X. exact X. Qed.

Lemma status_step s l m : reach C true n s (ls2 ++ l) -> spurious m = false -> status s l ->
  status (fst (step C s m)) (l ++ snd (step C s m)).
Proof.
  intros R Hm St. destruct (opened_stays C n s _ R) as (Ho & _).
  pose proof (reach_inv C true n s _ sz (or_intror eq_refl) R) as HI.
  pose proof (no_ntf' s _ R) as Hnn.
  destruct St as [D1 D2|v k Hv D1 D2 D3|N1 N2 N3 N4].
  - (* done *) apply st_done.
    + intros Hf. unfold written. rewrite flat_map_app. intros Q. apply app_eq_nil in Q. exact (D1 Hf (proj1 Q)).
    + assert (G : goal (l ++ snd (step C s m)) = goal l).
      { unfold goal. destruct (fip s2) eqn:Ef; [reflexivity|]. specialize (D1 eq_refl). unfold written. rewrite flat_map_app.
        unfold written in D1. destruct (flat_map _ l); [contradiction|reflexivity]. }
      rewrite G. destruct D2 as [x Hx]. destruct (disk_step C s m Ho) as [y Hy]. exists (x ++ y). rewrite Hy, Hx, app_assoc. reflexivity.
  - (* at the stream *)
    destruct m as [t c|k0]; cbn [step].
    2: { cbn [snd fst]. rewrite app_nil_r. eapply st_stream; eauto. }
    destruct (nth_error (thr s) t) as [p|] eqn:Hp; [|cbn; rewrite app_nil_r; eapply st_stream; eauto].
    assert (Hnp : not_ntf' p) by (rewrite Forall_forall in Hnn; apply Hnn; eapply nth_error_In; exact Hp).
    assert (Hc : c <> CGo true) by (intros ->; discriminate).
    assert (Hlt : t < length (thr s)) by (apply nth_error_Some; congruence).
    destruct (step_kind s t c p Hp Hnp Ho Hc) as (p' & T & K).
    destruct (Nat.eq_dec t v) as [->|Htv].
    + assert (p = FStream k) by congruence. subst p.
      inversion K; try discriminate; try congruence.
      subst. match goal with H : snd _ = [] |- _ => rewrite H end. rewrite app_nil_r. apply st_done; [exact D1|].
        match goal with H : concat (disk _) = _ |- _ => rewrite H end. apply goal_written. exact R.
    + assert (Ex : inflush p = false).
      { destruct (inflush p) eqn:Ei; [|reflexivity]. destruct Htv. eapply (inflush_unique C); [exact HI|exact Hp|exact Hv|exact Ei|reflexivity]. }
      destruct K; subst; try discriminate Ex.
      eapply st_stream with (v := v) (k := k).
      * rewrite T. rewrite nth_error_upd_other by congruence. exact Hv.
      * intros Hf. unfold written. rewrite flat_map_app. intros Q. apply app_eq_nil in Q. exact (D1 Hf (proj1 Q)).
      * apply ended_app; [exact D2| |left; assumption]. intros u e I J.
        match goal with H : forall u, In (LUnlock u) _ -> _ |- _ => destruct (H u J) as [-> [kk ->]] end. discriminate Ex.
      * intros u e I. apply in_app_iff in I. destruct I as [I|I]; [exact (D3 u e I)|].
        exfalso. match goal with H : forall u e, ~ In (LWrite u e) _ |- _ => exact (H u e I) end.
  - destruct m as [t c|k0]; cbn [step].
    2: { cbn [snd fst]. rewrite app_nil_r. apply st_set; auto. }
    destruct (nth_error (thr s) t) as [p|] eqn:Hp; [|cbn; rewrite app_nil_r; apply st_set; auto].
    assert (Hnp : not_ntf' p) by (rewrite Forall_forall in Hnn; apply Hnn; eapply nth_error_In; exact Hp).
    assert (Hc : c <> CGo true) by (intros ->; discriminate).
    assert (Hlt : t < length (thr s)) by (apply nth_error_Some; congruence).
    destruct (step_kind s t c p Hp Hnp Ho Hc) as (p' & T & K).
    assert (Nt : nth_error (thr (fst (step_thread C s t c p))) t = Some p') by (rewrite T; apply nth_error_upd; exact Hlt).
    assert (No : forall u, u <> t -> nth_error (thr (fst (step_thread C s t c p))) u = nth_error (thr s) u)
      by (intros u Hu; rewrite T; apply nth_error_upd_other; congruence).
    destruct K as [k e -> -> Hl Hf|k -> -> Hl|k -> Hq Hl|k -> Hp2 Hl Hf Hd|O1 O2 O3 O4 O5 O6].
    + assert (Nw : forall u e, ~ In (LWrite u e) l).
      { intros u e0 I. destruct (N3 u e0 I) as [k' Hk]. assert (u = t) by (eapply (inflush_unique C); [exact HI|exact Hk|exact Hp|reflexivity|reflexivity]).
        subst u. congruence. }
      rewrite Hl. apply st_set.
      * congruence.
      * apply ended_app; [exact N2|intros u e0 I; destruct (Nw u e0 I)|right; cbn; intros u [X|[]]; discriminate X].
      * intros u e0 I. apply in_app_iff in I. destruct I as [I|[I|[]]]; [destruct (Nw u e0 I)|]. injection I as <- <-. exists k. exact Nt.
      * intros _ u k' Hk. destruct (Nat.eq_dec u t) as [->|Hu].
        -- exists e. apply in_app_iff. right. left. reflexivity.
        -- rewrite (No u Hu) in Hk. exfalso. apply Hu. eapply (inflush_unique C); [exact HI|exact Hk|exact Hp|reflexivity|reflexivity].
    + rewrite Hl, app_nil_r. eapply st_stream with (v := t) (k := k); [exact Nt| |exact N2|].
      * intros Hf. destruct (N4 Hf t k Hp) as [e He]. eapply written_nonempty. exact He.
      * intros u e I. destruct (N3 u e I) as [k' Hk]. eapply (inflush_unique C); [exact HI|exact Hk|exact Hp|reflexivity|reflexivity].
    + destruct Hq as [Hq|[-> Hs]]; [congruence|]. rewrite Hl, app_nil_r, Hs. apply st_set; auto.
    + rewrite Hl, app_nil_r. apply st_set; [congruence|exact N2| |].
      * intros u e I. destruct (N3 u e I) as [k' Hk]. assert (u = t) by (eapply (inflush_unique C); [exact HI|exact Hk|exact Hp|reflexivity|reflexivity]).
        subst u. congruence.
      * intros Hfr u k' Hk. destruct (Nat.eq_dec u t) as [->|Hu]; [rewrite Nt in Hk; injection Hk as Hk; destruct (Hp2 k' Hk)|].
        rewrite (No u Hu) in Hk. exact (N4 Hfr u k' Hk).
    + apply st_set; [exact (O4 N1)| | |].
      * apply ended_app; [exact N2| |left; exact O5]. intros u e I J. destruct (O6 u J) as [-> [kk ->]]. destruct (N3 t e I) as [k' Hk]. congruence.
      * intros u e I. apply in_app_iff in I. destruct I as [I|I]; [|destruct (O5 u e I)]. destruct (N3 u e I) as [k' Hk].
        exists k'. rewrite No; [exact Hk|]. intros ->. assert (X : p = FCasFlush k') by congruence. exact (O1 k' X).
      * intros Hfr u k' Hk. destruct (Nat.eq_dec u t) as [->|Hu]; [rewrite Nt in Hk; injection Hk as Hk; destruct (O2 k' Hk)|].
        rewrite (No u Hu) in Hk. destruct (N4 Hfr u k' Hk) as [e He]. exists e. apply in_app_iff. left. exact He.
Qed.

Lemma status_exec ms : forall s l s' l', reach C true n s (ls2 ++ l) -> Forall (fun m => spurious m = false) ms -> status s l ->
  exec C s ms = (s', l') -> status s' (l ++ l').
Proof.
  induction ms as [|m ms IH]; intros s l s' l' R F St Ex; cbn [exec] in Ex.
  - injection Ex as <- <-. rewrite app_nil_r. exact St.
  - inversion F as [|? ? F1 F2]; subst. pose proof (status_step s l m R F1 St) as S1. pose proof (reach_step C true n s _ m R) as R1.
    destruct (step C s m) as [s1 l1]. cbn [fst snd] in *. rewrite <- app_assoc in R1. destruct (exec C s1 ms) as [s3 l3] eqn:E3. injection Ex as <- <-.
    rewrite app_assoc. eapply IH; eassumption.
Qed.

Lemma start_status : status s2 [].
Proof.
  apply st_set; [exact set2| | |].
  - intros (u & e & a & b & Q & _). destruct a; discriminate Q.
  - intros u e [].
  - intros Hf u k Hk. exfalso. pose proof (I_flag _ _ (reach_inv C true n s2 _ sz (or_intror eq_refl) r2)) as Fl. rewrite Hf in Fl.
    destruct (thr_split _ _ _ Hk) as (l1 & l2 & E1 & _). rewrite E1, flat_map_app in Fl. apply app_eq_nil in Fl as [_ Fl]. discriminate Fl.
Qed.
Lemma asked ms s l : Forall (fun m => spurious m = false) ms -> exec C s2 ms = (s, l) -> ended l \/ (written l <> [] /\ fip s = false) ->
  is_prefix (goal l) (concat (disk s)) /\ (fip s2 = false -> written l <> []).
Proof.
  intros F Ex En.
  assert (R : reach C true n s2 (ls2 ++ [])) by (rewrite app_nil_r; exact r2).
  assert (Rs : reach C true n s (ls2 ++ l)) by (eapply reach_exec; [exact r2|exact Ex]).
  pose proof (reach_inv C true n s _ sz (or_intror eq_refl) Rs) as HI.
  assert (Out : fip s = false -> forall u p, nth_error (thr s) u = Some p -> inflush p = true -> False).
  { intros Hf u p Hp Hi. pose proof (I_flag _ _ HI) as Fl. rewrite Hf in Fl. destruct (thr_split _ _ _ Hp) as (l1 & l2 & E1 & _).
    rewrite E1, flat_map_app in Fl. apply app_eq_nil in Fl as [_ Fl]. cbn in Fl. apply app_eq_nil in Fl as [Fl _]. unfold fl in Fl. rewrite Hi in Fl. discriminate Fl. }
  destruct (status_exec ms s2 [] s l R F start_status Ex) as [D1 D2|v k Hv _ D _|_ D D3 _]; cbn [List.app] in *; [auto| |].
  - destruct En as [En|[_ Hf]]; [contradiction|]. destruct (Out Hf v _ Hv eq_refl).
  - destruct En as [En|[Hw Hf]]; [contradiction|]. destruct (written l) as [|e w] eqn:W; [contradiction|].
    assert (X : In e (written l)) by (rewrite W; left; reflexivity). apply in_flat_map in X. destruct X as (x & I & J).
    destruct x as [u0 y e0|u0 e0|u0|u0|u0 e0|u0 e0|u0|u0 y|u0|u0]; cbn in J; try contradiction. destruct (D3 _ _ I) as [k Hk]. destruct (Out Hf _ _ Hk eq_refl).
Qed.
End Async.

(** A call of async_flush() sets the flag. *)
Section Call.
Context {E : Type}.
Variable C : cfg E.
Hypothesis lat : c_lat0 C = false.
Lemma other_keeps (s : state E) t u c p : nth_error (thr s) t = Some p -> u <> t ->
  nth_error (thr (fst (step C s (MThread u c)))) t = Some p /\ ~ In (LReturn t) (snd (step C s (MThread u c))).
Proof.
  intros Hp Hu. cbn [step]. destruct (nth_error (thr s) u) as [p0|] eqn:Hq; [|cbn; auto].
  destruct (step_own C s u c p0 Hq) as (O & p' & T). split.
  - rewrite T, nth_error_upd_other by congruence. exact Hp.
  - intros I. rewrite Forall_forall in O. specialize (O _ I). cbn in O. congruence.
Qed.
Lemma waits ms : forall (s s1 : state E) t l1, nth_error (thr s) t = Some RAsync -> exec C s ms = (s1, l1) -> ~ In (LReturn t) l1 ->
  nth_error (thr s1) t = Some RAsync.
Proof.
  induction ms as [|m ms IH]; intros s s1 t l1 Hp Ex Hr; cbn [exec] in Ex.
  - injection Ex as <- <-. exact Hp.
  - destruct (step C s m) as [s0 l0] eqn:E0. destruct (exec C s0 ms) as [s3 l3] eqn:E3. injection Ex as <- <-.
    assert (Hr0 : ~ In (LReturn t) l0) by (intros I; apply Hr, in_app_iff; auto).
    assert (Hr3 : ~ In (LReturn t) l3) by (intros I; apply Hr, in_app_iff; auto).
    apply (IH s0 s3 t l3); [|exact E3|exact Hr3]. destruct m as [u c|k].
    + destruct (Nat.eq_dec u t) as [->|Hu].
      * exfalso. cbn [step] in E0. rewrite Hp in E0. cbn [step_thread] in E0. rewrite lat in E0. injection E0 as <- <-. apply Hr0. left. reflexivity.
      * pose proof (proj1 (other_keeps s t u c _ Hp Hu)) as K. rewrite E0 in K. exact K.
    + cbn in E0. injection E0 as <- <-. exact Hp.
Qed.
Lemma async_sets n t s ls s2 l : reach C true n s ls -> calls_async C t s s2 l -> ntf s2 = true /\ reach C true n s2 (ls ++ l).
Proof.
  intros R (Ht & Hp & Ha & ms & m & s1 & l1 & l2 & Ex & Hr & St & Hr2 & ->).
  assert (R2 : reach C true n s2 (ls ++ l1 ++ l2)).
  { rewrite app_assoc. pose proof (reach_exec C true n s ls _ s1 l1 R Ex) as R1. pose proof (reach_step C true n s1 _ m R1) as R2.
    rewrite St in R2. exact R2. }
  split; [|exact R2].
  assert (Q : nth_error (thr s1) t = Some RAsync).
  { cbn [exec] in Ex. destruct (step C s (MThread t CAsync)) as [s0 l0] eqn:E0. cbn [step] in E0. rewrite Hp in E0. cbn [step_thread] in E0.
    rewrite Ha in E0. rewrite (proj2 (Nat.eqb_neq t 0) Ht) in E0. cbn [negb andb] in E0. injection E0 as <- <-.
    destruct (exec C (s_thr s t RAsync) ms) as [s3 l3] eqn:E3. injection Ex as <- <-.
    apply (waits ms (s_thr s t RAsync) s3 t l3); [|exact E3|exact Hr]. cbn [s_thr thr]. apply nth_error_upd. apply nth_error_Some. congruence. }
  destruct m as [u c|k]; [|cbn in St; injection St as <- <-; destruct Hr2].
  destruct (Nat.eq_dec u t) as [->|Hu].
  - cbn [step] in St. rewrite Q in St. cbn [step_thread] in St. rewrite lat in St. injection St as <- <-. reflexivity.
  - exfalso. apply (proj2 (other_keeps s1 t u c _ Q Hu)). rewrite St. exact Hr2.
Qed.

Hypothesis sz : sizes_ok C.
Hypothesis buffered : c_kind C <> KSyslog.

Lemma async_effective n t s ls s2 l2 ms s3 l3 : reach C true n s ls -> calls_async C t s s2 l2 ->
  steady_moves ms -> exec C s2 ms = (s3, l3) -> write_ended l3 \/ (written l3 <> [] /\ fip s3 = false) ->
  is_prefix (concat (files s2)) (concat (disk s3)) /\
  (fip s2 = false -> exists e w, written l3 = e :: w /\ is_prefix (concat (files s2) ++ c_render C e) (concat (disk s3))).
Proof.
  intros R Ca F Ex En. destruct (async_sets n t s ls s2 l2 R Ca) as [Sf R2].
  destruct (asked C n sz buffered s2 _ R2 Sf ms s3 l3 F Ex En) as [P1 P2]. unfold goal in P1. split.
  - destruct P1 as [x ->]. rewrite <- app_assoc. eexists. reflexivity.
  - intros Hf. specialize (P2 Hf). rewrite Hf in P1. destruct (written l3) as [|e w]; [contradiction|]. exists e, w. auto.
Qed.

Lemma critical_asked n t s ls s2 l2 ms s3 l3 e rest : reach C true n s ls -> calls_async C t s s2 l2 ->
  pending s2 = [] -> fip s2 = false ->
  steady_moves ms -> exec C s2 ms = (s3, l3) -> accepted l3 = e :: rest -> In e (written l3) -> fip s3 = false ->
  is_prefix (concat (map (c_render C) (accepted (ls ++ l2) ++ [e]))) (concat (disk s3)).
Proof.
  intros R Ca Pe Hf F Ex Ac Wr Hf3. destruct (async_sets n t s ls s2 l2 R Ca) as [Sf R2].
  assert (Wn : written l3 <> []) by (intros Q; rewrite Q in Wr; exact Wr).
  destruct (async_effective n t s ls s2 l2 ms s3 l3 R Ca F Ex (or_intror (conj Wn Hf3))) as [_ P]. destruct (P Hf) as (e1 & w & W & Px).
  destruct (output_is_accepted C n s2 _ sz buffered R2) as (A2 & F2 & _). rewrite Pe, app_nil_r in A2.
  pose proof (reach_exec C true n s2 _ ms s3 l3 R2 Ex) as R3. destruct (output_is_accepted C n s3 _ sz buffered R3) as (A3 & _ & _).
  assert (Ap : accepted ((ls ++ l2) ++ l3) = accepted (ls ++ l2) ++ accepted l3) by (unfold accepted, accepts; rewrite flat_map_app, map_app; reflexivity).
  assert (Wp : written ((ls ++ l2) ++ l3) = written (ls ++ l2) ++ written l3) by (unfold written; apply flat_map_app).
  rewrite Ap, Wp, A2, Ac, W in A3. rewrite <- app_assoc in A3. apply app_inv_head in A3. cbn in A3. injection A3 as <- _.
  rewrite map_app, concat_app, A2, <- F2. cbn [map concat]. rewrite app_nil_r. exact Px.
Qed.
End Call.
