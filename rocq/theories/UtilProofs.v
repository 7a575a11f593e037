From Coq Require Import Ascii String NArith Arith List Bool Lia.
From Verif Require Import Base LevelModel EventModel EventProofs UtilModel UtilSpec.
Import ListNotations.
Local Open Scope N_scope.

Lemma run_app s h1 h2 : run s (h1 ++ h2) =
  let '(s1, l1) := run s h1 in let '(s2, l2) := run s1 h2 in (s2, l1 ++ l2).
Proof.
  revert s. induction h1 as [|[t o] h IH]; intros s; cbn.
  - destruct (run s h2). reflexivity.
  - destruct (step s t o) as [s' r]. rewrite IH. destruct (run s' h) as [s1 l1]. destruct (run s1 h2). reflexivity.
Qed.

Lemma run_ops s h s' l : run s h = (s', l) -> map fst l = h.
Proof.
  revert s s' l. induction h as [|[t o] h IH]; intros s s' l; cbn; [intros E; inversion E; reflexivity|].
  destruct (step s t o) as [s1 r]. destruct (run s1 h) as [s2 l2] eqn:E2. intros E; inversion E; subst. cbn. f_equal. eapply IH, E2.
Qed.

(** ** Numbers *)
Lemma firsts_from_snoc seen h t o :
  firsts_from seen (h ++ [(t, o)]) = firsts_from seen h ++
    match o with ONumber => if in_dec Nat.eq_dec t (seen ++ firsts_from seen h) then [] else [t] | _ => [] end.
Proof.
  revert seen. induction h as [|[u p] h IH]; intros seen; cbn [app firsts_from].
  - destruct o; cbn; try reflexivity. rewrite app_nil_r. destruct (in_dec Nat.eq_dec t seen); reflexivity.
  - destruct p; try apply IH. destruct (in_dec Nat.eq_dec u seen); [apply IH|]. rewrite IH. cbn [app]. f_equal. apply (f_equal (fun z => _ ++ z)%list).
    destruct o; try reflexivity.
    destruct (in_dec Nat.eq_dec t (seen ++ u :: firsts_from (u :: seen) h)) as [i|n1];
    destruct (in_dec Nat.eq_dec t (u :: seen ++ firsts_from (u :: seen) h)) as [i'|n2]; try reflexivity.
    + exfalso. apply n2. apply in_app_iff in i as [i|[i|i]]; subst; [right; apply in_app_iff; auto|left; reflexivity|right; apply in_app_iff; auto].
    + exfalso. apply n1. destruct i' as [i|i]; [subst; apply in_app_iff; right; left; reflexivity|].
      apply in_app_iff in i as [i|i]; apply in_app_iff; [left|right; right]; assumption.
Qed.
Lemma firsts_snoc h t o :
  firsts (h ++ [(t, o)]) = firsts h ++ match o with ONumber => if in_dec Nat.eq_dec t (firsts h) then [] else [t] | _ => [] end.
Proof. apply (firsts_from_snoc []). Qed.

Definition number_of (x : thread) : option N := match t_tid x with TNone => None | TBusy n | TDone n => Some n end.

Record numbers (h : list (nat * op)) (s : state) : Prop := {
  n_nodup : NoDup (firsts h);
  n_count : counter s = size_t (N.of_nat (length (firsts h)));
  n_has : forall t n, number_of (thr s t) = Some n <-> exists i, nth_error (firsts h) i = Some t /\ n = size_t (N.of_nat i + 1)
}.

Lemma numbers_step h s t o s' r : numbers h s -> step s t o = (s', r) -> numbers (h ++ [(t, o)]) s'.
Proof.
  intros [N1 N2 N3] E.
  assert (Hin : In t (firsts h) <-> exists n, number_of (thr s t) = Some n).
  { split.
    - intros I. apply In_nth_error in I as [i I]. exists (size_t (N.of_nat i + 1)). apply N3. eauto.
    - intros [n I]. apply N3 in I as (i & I & _). eapply nth_error_In, I. }
  assert (Keep : forall s', counter s' = counter s -> (forall u, number_of (thr s' u) = number_of (thr s u)) ->
    firsts (h ++ [(t, o)]) = firsts h -> numbers (h ++ [(t, o)]) s').
  { intros s1 C K F. constructor; rewrite F; [exact N1|congruence|]. intros u n. rewrite K. apply N3. }
  destruct o; cbn [step] in E.
  - destruct (t_tid (thr s t)) as [|n|n] eqn:T.
    + inversion E; subst. clear E.
      assert (NI : ~ In t (firsts h)). { intros I. apply Hin in I as [n I]. unfold number_of in I. rewrite T in I. discriminate. }
      assert (F : firsts (h ++ [(t, ONumber)]) = firsts h ++ [t]). { rewrite firsts_snoc. destruct (in_dec Nat.eq_dec t (firsts h)); [contradiction|reflexivity]. }
      assert (C : size_t (counter s + 1) = size_t (N.of_nat (length (firsts h)) + 1)).
      { rewrite N2. unfold size_t. rewrite N.add_mod_idemp_l by (intros X; discriminate). reflexivity. }
      constructor; rewrite F.
      * apply NoDup_rev in N1. rewrite <- (rev_involutive (firsts h)). rewrite <- (rev_involutive (rev (rev (firsts h)) ++ [t])).
        apply NoDup_rev. rewrite rev_app_distr. cbn. constructor; [|rewrite !rev_involutive; exact N1].
        rewrite !rev_involutive. intros I. apply in_rev in I. contradiction.
      * cbn [counter upd]. rewrite C, app_length. cbn. f_equal. lia.
      * intros u n. cbn [upd thr]. destruct (Nat.eqb_spec u t) as [->|Hu].
        -- unfold number_of. cbn [t_tid]. rewrite C. split.
           ++ intros X. inversion X; subst. exists (length (firsts h)). split; [|reflexivity].
              rewrite nth_error_app2 by lia. rewrite Nat.sub_diag. reflexivity.
           ++ intros (i & I & ->). f_equal. f_equal. f_equal.
              destruct (lt_dec i (length (firsts h))) as [L|L].
              ** rewrite nth_error_app1 in I by exact L. exfalso. apply NI. eapply nth_error_In, I.
              ** assert (i < length (firsts h ++ [t]))%nat by (apply nth_error_Some; congruence). rewrite app_length in H. cbn in H. lia.
        -- cbn [thr]. rewrite N3. split; intros (i & I & ->); exists i; split; try reflexivity.
           ++ rewrite nth_error_app1; [exact I|]. apply nth_error_Some. congruence.
           ++ destruct (lt_dec i (length (firsts h))) as [L|L]; [rewrite nth_error_app1 in I by exact L; exact I|].
              rewrite nth_error_app2 in I by lia. destruct (i - length (firsts h))%nat as [|k]; [cbn in I; congruence|destruct k; discriminate].
    + inversion E; subst. apply Keep; [reflexivity| |].
      * intros u. cbn. destruct (Nat.eqb_spec u t) as [->|]; [|reflexivity]. unfold number_of. rewrite T. reflexivity.
      * rewrite firsts_snoc. destruct (in_dec Nat.eq_dec t (firsts h)) as [|NI]; [apply app_nil_r|].
        exfalso. apply NI, Hin. exists n. unfold number_of. rewrite T. reflexivity.
    + inversion E; subst. apply Keep; [reflexivity|reflexivity|].
      rewrite firsts_snoc. destruct (in_dec Nat.eq_dec t (firsts h)) as [|NI]; [apply app_nil_r|].
      exfalso. apply NI, Hin. exists n. unfold number_of. rewrite T. reflexivity.
  - destruct (t_cache (thr s t)); inversion E; subst; apply Keep; try reflexivity; try (rewrite firsts_snoc; apply app_nil_r).
    intros u. cbn. destruct (Nat.eqb_spec u t) as [->|]; reflexivity.
  - inversion E; subst; apply Keep; try reflexivity; try (rewrite firsts_snoc; apply app_nil_r).
    intros u. cbn. destruct (Nat.eqb_spec u t) as [->|]; reflexivity.
  - inversion E; subst; apply Keep; try reflexivity; try (rewrite firsts_snoc; apply app_nil_r).
    intros u. cbn. destruct (Nat.eqb_spec u t) as [->|]; reflexivity.
Qed.

Lemma numbers_start name0 : numbers [] (start name0).
Proof.
  constructor; [constructor|reflexivity|]. intros t n. cbn. split; [discriminate|]. intros (i & I & _). destruct i; discriminate.
Qed.

Lemma numbers_run name0 h : numbers h (fst (run (start name0) h)).
Proof.
  induction h as [|[t o] h IH] using rev_ind; [apply numbers_start|]. rewrite run_app.
  destruct (run (start name0) h) as [s l]. cbn. destruct (step s t o) as [s' r] eqn:E. cbn. eapply numbers_step; [exact IH|exact E].
Qed.

(** Every number returned is the position of the thread. *)
Lemma returned name0 h s l t o n :
  run (start name0) h = (s, l) -> In (t, o, RNumber n) l ->
  exists i, nth_error (firsts h) i = Some t /\ n = size_t (N.of_nat i + 1).
Proof.
  revert s l. induction h as [|[u p] h IH] using rev_ind; intros s l E I; [inversion E; subst; destruct I|].
  rewrite run_app in E. pose proof (numbers_run name0 h) as NR. destruct (run (start name0) h) as [s0 l0]. cbn in E, NR.
  destruct (step s0 u p) as [s1 r] eqn:S. inversion E; subst. clear E. pose proof (numbers_step _ _ _ _ _ _ NR S) as N1.
  apply in_app_iff in I as [I|[I|[]]].
  - destruct (IH _ _ eq_refl I) as (i & E & ->). exists i. split; [|reflexivity]. rewrite firsts_snoc, nth_error_app1; [exact E|].
    apply nth_error_Some. congruence.
  - inversion I; subst. apply (n_has _ _ N1). destruct o; cbn [step] in S.
    + destruct (t_tid (thr s0 t)) eqn:T; inversion S; subst; unfold number_of; cbn; rewrite ?Nat.eqb_refl, ?T; reflexivity.
    + destruct (t_cache (thr s0 t)); inversion S.
    + inversion S.
    + inversion S.
Qed.

Lemma firsts_nodup h : NoDup (firsts h).
Proof. apply (n_nodup _ _ (numbers_run (fun _ => []) h)). Qed.
Lemma firsts_in h t : In t (firsts h) <-> In (t, ONumber) h.
Proof.
  induction h as [|[u p] h IH] using rev_ind; [reflexivity|]. rewrite firsts_snoc, !in_app_iff, IH.
  destruct p; cbn [In]; try (split; [intros [H|[]]; auto|intros [H|[H|[]]]; [auto|inversion H]]).
  destruct (in_dec Nat.eq_dec u (firsts h)) as [i|n].
  - split; [intros [H|[]]; auto|]. intros [H|[H|[]]]; [auto|]. inversion H; subst. left. apply IH, i.
  - cbn. split; [intros [H|[H|[]]]; subst; auto|]. intros [H|[H|[]]]; [auto|]. inversion H; subst. auto.
Qed.

(** C64 *)
Theorem thread_numbers name0 h s l :
  run (start name0) h = (s, l) -> N.of_nat (length (firsts h)) < 2 ^ 64 ->
  (forall t o n, In (t, o, RNumber n) l -> exists i, nth_error (firsts h) i = Some t /\ n = N.of_nat i + 1) /\
  (forall t o n o' m, In (t, o, RNumber n) l -> In (t, o', RNumber m) l -> n = m) /\
  (forall t o u o' n, In (t, o, RNumber n) l -> In (u, o', RNumber n) l -> t = u).
Proof.
  intros E B.
  assert (A : forall t o n, In (t, o, RNumber n) l -> exists i, nth_error (firsts h) i = Some t /\ n = N.of_nat i + 1).
  { intros t o n I. destruct (returned _ _ _ _ _ _ _ E I) as (i & Hi & ->). exists i. split; [exact Hi|].
    assert (i < length (firsts h))%nat by (apply nth_error_Some; congruence). unfold size_t. apply N.mod_small. lia. }
  split; [exact A|]. pose proof (firsts_nodup h) as ND. split.
  - intros t o n o' m I J. destruct (A _ _ _ I) as (i & Hi & ->). destruct (A _ _ _ J) as (j & Hj & ->).
    assert (i = j); [|congruence]. apply (proj1 (NoDup_nth_error _) ND); [apply nth_error_Some; congruence|congruence].
  - intros t o u o' n I J. destruct (A _ _ _ I) as (i & Hi & E1). destruct (A _ _ _ J) as (j & Hj & E2).
    assert (i = j) by lia. congruence.
Qed.

(** getThreadNumber needs at most two steps, whatever the other threads do. *)
Theorem number_returns name0 h s l t h2 s2 l2 s3 r :
  run (start name0) h = (s, l) -> In (t, ONumber) h -> (forall o, ~ In (t, o) h2) -> run s h2 = (s2, l2) ->
  step s2 t ONumber = (s3, r) -> exists n, r = RNumber n.
Proof.
  intros E I NI E2 S. pose proof (numbers_run name0 (h ++ h2)) as NR. rewrite run_app, E, E2 in NR. cbn in NR.
  assert (J : In t (firsts (h ++ h2))) by (apply firsts_in, in_app_iff; auto).
  apply In_nth_error in J as [i J]. assert (K : number_of (thr s2 t) = Some (size_t (N.of_nat i + 1))) by (apply (n_has _ _ NR); eauto).
  unfold number_of in K. cbn [step] in S. destruct (t_tid (thr s2 t)); inversion S; subst; [discriminate| |]; eauto.
Qed.

(** ** Names *)
Lemma c_str_cut name : cut_of name (c_str (set_buff name)).
Proof.
  unfold set_buff. cbv zeta.
  assert (F : firstn (Nat.min (length name) 15) name = firstn 15 name).
  { destruct (Nat.le_ge_cases (length name) 15).
    - rewrite Nat.min_l by assumption. rewrite firstn_all, firstn_all2 by assumption. reflexivity.
    - rewrite Nat.min_r by assumption. reflexivity. }
  rewrite F. assert (L : (length (firstn 15 name) <= 15)%nat) by (rewrite firstn_length; lia).
  assert (P : (0 < 16 - Nat.min (length name) 15)%nat) by lia. revert L P. generalize (16 - Nat.min (length name) 15)%nat as k.
  unfold cut_of. clear F. generalize (firstn 15 name) as f. intros f k L P.
  assert (A : (length (c_str (f ++ repeat nul k)) <= length f)%nat /\ ~ In nul (c_str (f ++ repeat nul k)) /\
    exists rest, f = c_str (f ++ repeat nul k) ++ rest /\ (rest = [] \/ exists r, rest = nul :: r)).
  { clear L. induction f as [|b f IH]; cbn [app length c_str].
    - destruct k; [lia|]. cbn. split; [lia|]. split; [auto|]. exists []. auto.
    - destruct (Ascii.eqb_spec b nul) as [->|H].
      + cbn. split; [lia|]. split; [auto|]. eexists. split; [reflexivity|]. right. eauto.
      + destruct IH as (I1 & I2 & rest & I3 & I4). split; [apply le_n_S; exact I1|]. split; [intros [X|X]; [congruence|auto]|].
        exists rest. split; [cbn [app]; rewrite <- I3; reflexivity|exact I4]. }
  destruct A as (A1 & A2 & A3). split; [|exact A3]. split; [lia|exact A2].
Qed.

Lemma cut_one name b b' : cut_of name b -> cut_of name b' -> b = b'.
Proof.
  intros ([_ N] & r & E & D) ([_ N'] & r' & E' & D'). rewrite E in E'. clear E name.
  revert b' N N' E'. induction b as [|x b IH]; intros [|y b'] N N' E; cbn in *; try reflexivity.
  - subst r. destruct D as [D|[z D]]; [discriminate|]. inversion D; subst. exfalso. apply N'. left. reflexivity.
  - destruct D' as [D'|[z D']]; [subst; discriminate|]. subst. inversion E; subst. exfalso. apply N. left. reflexivity.
  - inversion E; subst. f_equal. apply IH; auto.
Qed.

Lemma called_one name0 t h b b' : called name0 t h b -> called name0 t h b' -> b = b'.
Proof.
  intros H. revert b'. induction H as [|h name b C|h b|h b u o C IH D]; intros b' H'.
  - inversion H' as [|h1 ? ? ? E|h1 ? E|h1 ? ? ? ? ? E]; subst; try reflexivity; destruct h1; discriminate E.
  - inversion H' as [E|h1 ? ? C' E|h1 ? E|h1 ? ? ? ? D' E]; subst; [destruct h; discriminate E| | |].
    + apply app_inj_tail in E as [-> E]. inversion E; subst. eapply cut_one; eassumption.
    + apply app_inj_tail in E as [-> E]. inversion E.
    + apply app_inj_tail in E as [-> E]. inversion E; subst. destruct D' as [D'|[D'|D']]; [congruence|discriminate|discriminate].
  - inversion H' as [E|h1 ? ? C' E|h1 ? E|h1 ? ? ? ? D' E]; subst; [destruct h; discriminate E| | |].
    + apply app_inj_tail in E as [-> E]. inversion E.
    + apply app_inj_tail in E as [-> E]. inversion E; subst. reflexivity.
    + apply app_inj_tail in E as [-> E]. inversion E; subst. destruct D' as [D'|[D'|D']]; [congruence|discriminate|discriminate].
  - inversion H' as [E|h1 ? ? C' E|h1 ? E|h1 ? ? ? ? D' E]; subst; [destruct h; discriminate E| | |].
    + apply app_inj_tail in E as [-> E]. inversion E; subst. destruct D as [D|[D|D]]; [congruence|discriminate|discriminate].
    + apply app_inj_tail in E as [-> E]. inversion E; subst. destruct D as [D|[D|D]]; [congruence|discriminate|discriminate].
    + apply app_inj_tail in E as [-> E]. apply IH. assumption.
Qed.

Lemma step_os s t o s' r u : step s t o = (s', r) ->
  t_os (thr s' u) = if Nat.eqb u t then match o with OSet name => c_str (set_buff name) | OOther b => b | _ => t_os (thr s u) end else t_os (thr s u).
Proof.
  intros E. destruct o; cbn [step] in E.
  - destruct (t_tid (thr s t)); inversion E; subst; cbn; destruct (Nat.eqb_spec u t) as [->|]; reflexivity.
  - destruct (t_cache (thr s t)); inversion E; subst; cbn; destruct (Nat.eqb_spec u t) as [->|]; reflexivity.
  - inversion E; subst; cbn. destruct (Nat.eqb_spec u t) as [->|]; reflexivity.
  - inversion E; subst; cbn. destruct (Nat.eqb_spec u t) as [->|]; reflexivity.
Qed.
Lemma step_cache s t o s' r u : step s t o = (s', r) ->
  t_cache (thr s' u) = match t_cache (thr s u) with
                       | Some b => Some b
                       | None => if Nat.eqb u t then match o with OName => Some (get_buff (t_os (thr s u))) | _ => None end else None
                       end.
Proof.
  intros E. destruct o; cbn [step] in E.
  - destruct (t_tid (thr s t)) eqn:T; inversion E; subst; cbn; destruct (Nat.eqb_spec u t) as [->|]; cbn;
      match goal with |- context [match t_cache ?x with _ => _ end] => destruct (t_cache x) end; reflexivity.
  - destruct (t_cache (thr s t)) eqn:T; inversion E; subst; cbn; destruct (Nat.eqb_spec u t) as [->|]; rewrite ?T; cbn; try reflexivity;
      match goal with |- context [match t_cache ?x with _ => _ end] => destruct (t_cache x) end; reflexivity.
  - inversion E; subst; cbn. destruct (Nat.eqb_spec u t) as [->|]; cbn;
      match goal with |- context [match t_cache ?x with _ => _ end] => destruct (t_cache x) end; reflexivity.
  - inversion E; subst; cbn. destruct (Nat.eqb_spec u t) as [->|]; cbn;
      match goal with |- context [match t_cache ?x with _ => _ end] => destruct (t_cache x) end; reflexivity.
Qed.

Lemma os_called name0 h t : called name0 t h (t_os (thr (fst (run (start name0) h)) t)).
Proof.
  induction h as [|[u o] h IH] using rev_ind; [constructor|]. rewrite run_app.
  destruct (run (start name0) h) as [s l]. cbn in *. destruct (step s u o) as [s' r] eqn:E. cbn. rewrite (step_os _ _ _ _ _ t E).
  destruct (Nat.eqb_spec t u) as [->|H].
  - destruct o; try (apply ca_other; [exact IH|auto]); [apply ca_set; apply c_str_cut|apply ca_os].
  - apply ca_other; [exact IH|auto].
Qed.
Lemma os_sane name0 h t b : (forall u, os_name (name0 u)) -> sane h -> called name0 t h b -> os_name b.
Proof.
  intros N0 S H. induction H as [|h name b C|h b|h b u o C IH D].
  - apply N0.
  - apply C.
  - eapply S. apply in_app_iff. right. left. reflexivity.
  - apply IH. intros v x I. eapply S. apply in_app_iff. left. exact I.
Qed.

Lemma cache_none name0 h t : no_name t h -> t_cache (thr (fst (run (start name0) h)) t) = None.
Proof.
  induction h as [|[u o] h IH] using rev_ind; intros N; [reflexivity|]. rewrite run_app.
  assert (Nh : no_name t h) by (intros I; apply N, in_app_iff; auto). specialize (IH Nh).
  destruct (run (start name0) h) as [s l]. cbn in *. destruct (step s u o) as [s' r] eqn:E. cbn. rewrite (step_cache _ _ _ _ _ t E), IH.
  destruct (Nat.eqb_spec t u) as [->|H]; [|reflexivity]. destruct o; try reflexivity. exfalso. apply N, in_app_iff. right. left. reflexivity.
Qed.

Lemma no_name_returns s h s' l t r : run s h = (s', l) -> no_name t h -> ~ In (t, OName, r) l.
Proof.
  intros E N I. apply N. rewrite <- (run_ops _ _ _ _ E). apply (in_map fst) in I. exact I.
Qed.

(** Once the name is cached, it is what is returned. *)
Lemma cached_returns t b : forall h s s' l, t_cache (thr s t) = Some b -> run s h = (s', l) ->
  forall r, In (t, OName, r) l -> r = RName b.
Proof.
  induction h as [|[u o] h IH]; intros s s' l C E r I; cbn in E; [inversion E; subst; destruct I|].
  destruct (step s u o) as [s1 r1] eqn:S. destruct (run s1 h) as [s2 l2] eqn:E2. inversion E; subst. clear E.
  destruct I as [I|I].
  - inversion I; subst. cbn in S. rewrite C in S. inversion S. reflexivity.
  - eapply IH; [|exact E2|exact I]. rewrite (step_cache _ _ _ _ _ t S), C. reflexivity.
Qed.

Theorem name_of_first_use name0 h0 h1 s l t :
  (forall u, os_name (name0 u)) -> sane (h0 ++ (t, OName) :: h1) -> no_name t h0 ->
  run (start name0) (h0 ++ (t, OName) :: h1) = (s, l) ->
  exists b, called name0 t h0 b /\ os_name b /\
    forall r, In (t, OName, r) l -> r = RName (b ++ repeat nul (16 - length b)).
Proof.
  intros N0 S N E. exists (t_os (thr (fst (run (start name0) h0)) t)). pose proof (os_called name0 h0 t) as C. split; [exact C|].
  split; [eapply os_sane; [exact N0| |exact C]; intros u x I; eapply S, in_app_iff; eauto|].
  pose proof (cache_none name0 h0 t N) as K. rewrite run_app in E. destruct (run (start name0) h0) as [s0 l0] eqn:E0. cbn [fst] in *.
  destruct (run s0 ((t, OName) :: h1)) as [s2 l2] eqn:E1. inversion E; subst. intros r I. apply in_app_iff in I as [I|I].
  - destruct (no_name_returns _ _ _ _ _ _ E0 N I).
  - cbn in E1. rewrite K in E1. destruct (run _ h1) as [s3 l3] eqn:E3. inversion E1; subst. destruct I as [I|I]; [inversion I; reflexivity|].
    eapply cached_returns; [|exact E3|exact I]. cbn. rewrite Nat.eqb_refl. reflexivity.
Qed.

Lemma c_str_padded b k : ~ In nul b -> c_str (b ++ repeat nul k) = b.
Proof.
  induction b as [|x b IH]; intros N; cbn [c_str app]; [destruct k; reflexivity|].
  destruct (Ascii.eqb_spec x nul) as [->|]; [exfalso; apply N; left; reflexivity|]. f_equal. apply IH. intros I. apply N. right. exact I.
Qed.
Lemma strnlen_padded b k n : ~ In nul b -> (length b <= n)%nat -> strnlen (b ++ repeat nul k) n = length b.
Proof.
  revert n. induction b as [|x b IH]; intros n N L.
  - destruct n; destruct k; reflexivity.
  - destruct n; [cbn in L; lia|]. cbn [strnlen app length]. destruct (Ascii.eqb_spec x nul) as [->|]; [exfalso; apply N; left; reflexivity|].
    f_equal. apply IH; [intros I; apply N; right; exact I|cbn in L; lia].
Qed.

(** An event of the thread, with the numbers and names above. *)
Theorem event_thread name0 h0 h1 s l t n b' :
  (forall u, os_name (name0 u)) -> sane (h0 ++ (t, OName) :: h1) -> no_name t h0 ->
  run (start name0) (h0 ++ (t, OName) :: h1) = (s, l) -> N.of_nat (length (firsts (h0 ++ (t, OName) :: h1))) < 2 ^ 64 ->
  In (t, ONumber, RNumber n) l -> In (t, OName, RName b') l ->
  exists b i, called name0 t h0 b /\ nth_error (firsts (h0 ++ (t, OName) :: h1)) i = Some t /\ name_string b' = b /\
  forall m p name lvl max now fr ft, now < 2 ^ 64 -> p + sizeof_Event < 2 ^ 64 -> N.of_nat max < 2 ^ 64 ->
  let e := view (construct m p name TI_NAME lvl max now b' n fr ft) p in
  e_thread_number e = N.of_nat i + 1 /\ e_thread_name e = b.
Proof.
  intros N0 S N E B I J. destruct (name_of_first_use _ _ _ _ _ _ N0 S N E) as (b & C & [O1 O2] & R).
  destruct (thread_numbers _ _ _ _ E B) as (A & _ & _). destruct (A _ _ _ I) as (i & Hi & Hn).
  assert (i < length (firsts (h0 ++ (t, OName) :: h1)))%nat by (apply nth_error_Some; congruence).
  apply R in J. inversion J; subst b'. exists b, i. split; [exact C|]. split; [exact Hi|]. split; [apply c_str_padded; exact O2|].
  intros m p name lvl max now fr ft H1 H2 H3 e.
  assert (L : length (b ++ repeat nul (16 - length b)) = 16%nat) by (rewrite app_length, repeat_length; lia).
  destruct (thread_view m p name TI_NAME lvl max now _ n fr ft L H1 ltac:(lia) H2 H3) as [E1 E2].
  split; [etransitivity; [exact E1|exact Hn]|]. etransitivity; [exact E2|]. cbn [thread_part snd]. rewrite strnlen_padded by (assumption || lia).
  rewrite firstn_app, Nat.sub_diag, firstn_all. cbn. apply app_nil_r.
Qed.

(** A thread that is not renamed after its first use carries its name. *)
Theorem current_name name0 h0 h1 s l t r :
  (forall u, os_name (name0 u)) -> sane (h0 ++ (t, OName) :: h1) -> no_name t h0 ->
  run (start name0) (h0 ++ (t, OName) :: h1) = (s, l) ->
  (forall o, In (t, o) h1 -> o = ONumber \/ o = OName) ->
  In (t, OName, r) l ->
  exists b, called name0 t (h0 ++ (t, OName) :: h1) b /\ r = RName (b ++ repeat nul (16 - length b)).
Proof.
  intros N0 S N E K I. destruct (name_of_first_use _ _ _ _ _ _ N0 S N E) as (b & C & _ & R). exists b. split; [|apply R; exact I].
  clear S E R I N. change ((t, OName) :: h1) with ([(t, OName)] ++ h1). rewrite app_assoc.
  assert (C1 : called name0 t (h0 ++ [(t, OName)]) b) by (apply ca_other; [exact C|auto]).
  revert C1. generalize (h0 ++ [(t, OName)]) as h. induction h1 as [|[u o] h1 IH] using rev_ind; intros h C1.
  - rewrite app_nil_r. exact C1.
  - rewrite app_assoc. apply ca_other.
    + apply IH; [|exact C1]. intros o' I. apply K, in_app_iff. auto.
    + destruct (Nat.eq_dec u t) as [->|]; [|auto]. right. apply K, in_app_iff. right. left. reflexivity.
Qed.
