(** * The properties of sinks, carried over to the sink with its circular buffer *)

From Coq Require Import List Arith NArith Bool Lia.
From Verif Require CircSpec CircModel CircProofs.
From Verif Require Import Base LevelModel SinkModel SinkSpec SinkProofs SinkLabels SinkLife SinkProps
  SinkProgress SinkReturn SinkSolo SinkZero SinkRotate SinkMore FullModel FullSpec FullProofs.
Import ListNotations.

Set Implicit Arguments.

Section Props.
Context {E : Type}.
Variable C : cfg E.
Hypothesis cap1 : 1 <= c_cap C.

Lemma full_defined op n ms : exists s ls, fexec C (finit C op n) ms = Some (s, ls) /\
  exists a ms', exec C (init C op n) ms' = (a, ls) /\ rest s = strip a /\
    length (pcs s) = length (thr a) /\
    forall t p, nth_error (pcs s) t = Some (At p) -> nth_error (thr a) t = Some p.
Proof.
  destruct (sim_exec ms (rel_init C op n cap1)) as (s & ls & a & g & ms' & F & X & R).
  exists s, ls. split; [exact F|]. exists a, ms'. split; [exact X|]. split; [exact (r_rest R)|].
  split; [exact (r_len R)|]. intros t p Hp. pose proof (thr_some _ R Hp) as N.
  destruct (nth_error (thr a) t) as [pa|] eqn:Ha; [|congruence].
  destruct (r_thr R _ Hp Ha) as (_ & _ & -> & _). reflexivity.
Qed.

(** From a reachable state to the ideal model. *)
Lemma full_abs op n s ls : freach C op n s ls -> exists a g, reach C op n a ls /\ rel C s a g.
Proof.
  intros (ms & H). destruct (sim_exec ms (rel_init C op n cap1)) as (s' & ls' & a & g & ms' & F & X & R).
  rewrite F in H. injection H as <- <-. exists a, g. split; [exists ms'; exact X|exact R].
Qed.

Lemma files_strip (a : state E) : files (strip a) = files a.
Proof. reflexivity. Qed.
Lemma disk_strip (a : state E) : disk (strip a) = disk a.
Proof. reflexivity. Qed.

Lemma at_abs s a g t p : rel C s a g -> nth_error (pcs s) t = Some (At p) -> nth_error (thr a) t = Some p.
Proof.
  intros R Hp. pose proof (thr_some _ R Hp) as N.
  destruct (nth_error (thr a) t) as [pa|] eqn:Ha; [|congruence].
  destruct (r_thr R _ Hp Ha) as (_ & _ & -> & _). reflexivity.
Qed.

Lemma full_accepted op n s ls t :
  freach C op n s ls -> nth_error (pcs s) t = Some (At Idle) ->
  accepted_by t ls = for_sink_by (c_level C) t ls.
Proof.
  intros F Hp. destruct (full_abs F) as (a & g & Ra & R).
  exact (@accepted_exactly E C op n a ls t Ra (at_abs _ R Hp)).
Qed.

Lemma full_order n s ls :
  sizes_ok C -> freach C true n s ls ->
  (exists k, written ls = map snd (firstn k (accepts ls))) /\
  forall t, t < length (pcs s) ->
    exists rest, for_sink_by (c_level C) t ls = accepted_by t ls ++ rest /\ length rest <= 1.
Proof.
  intros Z F. destruct (full_abs F) as (a & g & Ra & R). rewrite (r_len R). exact (@per_thread_order E C n a ls Z Ra).
Qed.

Lemma full_output n s ls :
  sizes_ok C -> c_kind C <> KSyslog -> freach C true n s ls ->
  (exists later, accepted ls = written ls ++ later /\ length later <= c_cap C + 1) /\
  concat (files (rest s)) = concat (map (c_render C) (written ls)).
Proof.
  intros Z K F. destruct (full_abs F) as (a & g & Ra & R). rewrite (r_rest R), files_strip.
  destruct (@output_is_accepted E C n a ls Z K Ra) as (A & B & D). eauto.
Qed.

Lemma uses_abs g t p pa : prel C g t p pa -> fuses_output p = true -> uses_output pa = true.
Proof.
  destruct p; cbn [prel fuses_output]; try discriminate.
  - intros (_ & _ & -> & _) H. exact H.
  - intros (_ & [[_ ->]|[(n & e & _ & ->)|[_ ->]]]) _; unfold after_none; try destruct (c_kind C); reflexivity.
  - intros (_ & n & e & _ & ->) _. reflexivity.
  - intros (_ & n & _ & ->) _. unfold after_sub. destruct (c_kind C); reflexivity.
Qed.

Lemma full_one_user op n s ls t u p p' :
  sizes_ok C -> has_dest C op -> freach C op n s ls ->
  nth_error (pcs s) t = Some p -> nth_error (pcs s) u = Some p' ->
  fuses_output p = true -> fuses_output p' = true -> t = u.
Proof.
  intros Z D F Hp Hu Up Uu. destruct (full_abs F) as (a & g & Ra & R).
  pose proof (thr_some _ R Hp) as N1. pose proof (thr_some _ R Hu) as N2.
  destruct (nth_error (thr a) t) as [pa|] eqn:Ha; [|congruence].
  destruct (nth_error (thr a) u) as [pb|] eqn:Hb; [|congruence].
  eapply (@one_user E C op n a ls t u pa pb Z D Ra Ha Hb).
  - eapply uses_abs; [exact (r_thr R _ Hp Ha)|exact Up].
  - eapply uses_abs; [exact (r_thr R _ Hu Hb)|exact Uu].
Qed.

Lemma full_destroyed n s ls t :
  sizes_ok C -> c_lat0 C = false -> freach C true n s ls -> In (LDestroyed t) ls ->
  written ls = accepted ls /\
  (c_kind C <> KSyslog -> concat (files (rest s)) = concat (map (c_render C) (accepted ls))) /\
  (c_kind C = KFile -> disk (rest s) = files (rest s)).
Proof.
  intros Z L F D. destruct (full_abs F) as (a & g & Ra & R). rewrite (r_rest R), files_strip, disk_strip.
  exact (@destroyed_complete E C n a ls t Z L Ra D).
Qed.

Lemma full_runs n s ls :
  sizes_ok C -> freach C true n s ls ->
  exists runs, length runs = 1 + fresh_files ls /\ concat runs = written ls /\
    files (rest s) = map (fun r => concat (map (c_render C) r)) runs.
Proof.
  intros Z F. destruct (full_abs F) as (a & g & Ra & R). rewrite (r_rest R), files_strip.
  exact (@rotation_runs E C n a ls Z Ra).
Qed.

Lemma full_crash n s ls :
  sizes_ok C -> c_kind C <> KSyslog -> freach C true n s ls ->
  is_prefix (concat (disk (rest s))) (concat (map (c_render C) (accepted ls))) /\
  exists runs last before beyond, written ls = concat (runs ++ [last]) /\
    disk (rest s) = map (fun r => concat (map (c_render C) r)) runs ++ [before] /\
    concat (map (c_render C) last) = before ++ beyond.
Proof.
  intros Z K F. destruct (full_abs F) as (a & g & Ra & R). rewrite (r_rest R), disk_strip.
  exact (@crash_prefix E C n a ls Z K Ra).
Qed.

(** ** The buffer between calls *)
Lemma contents_items (r : CircModel.state E) (g : CircSpec.sstate E) :
  CircProofs.Inv (c_cap C) r g -> (forall t, CircSpec.s_phase g t = CircSpec.PhNone) ->
  contents (c_cap C) r = map snd (CircSpec.s_items g).
Proof.
  intros I P.
  assert (Id : forall t, CircProofs.PC r t = CircModel.Idle) by (intros t; exact (idle_pc C t I (P t))).
  assert (Sz : CircModel.g_size r = length (CircSpec.s_items g)).
  { apply (CircProofs.ii_size0 (CircProofs.inv_idx I)). intros t. rewrite Id. reflexivity. }
  unfold contents. rewrite Sz.
  assert (X : forall l k0, (forall k n e, nth_error l k = Some (n, e) -> nth_error (CircSpec.s_items g) (k0 + k) = Some (n, e)) ->
    flat_map (fun k => match CircModel.n_cell (CircModel.nodes r ((CircModel.g_pop r + k) mod c_cap C)) with
                     | CircModel.Full e => [e] | _ => [] end) (seq k0 (length l)) = map snd l).
  { induction l as [|[n e] l IH]; intros k0 H; [reflexivity|]. cbn [length seq flat_map map snd].
    pose proof (H 0 n e eq_refl) as H0. rewrite Nat.add_0_r in H0.
    destruct (CircProofs.ic_win (CircProofs.inv_cell I) _ H0) as [(t & B)|W].
    - exfalso. rewrite Id in B. unfold CircProofs.builds in B. intuition discriminate.
    - unfold CircProofs.slot in W. rewrite W. cbn. f_equal. apply IH. intros k n1 e1 Hk.
      replace (S k0 + k) with (k0 + S k) by lia. exact (H (S k) n1 e1 Hk). }
  apply X. intros k n e H. exact H.
Qed.

Lemma quiet_phase s a g : rel C s a g -> fquiet s -> forall t, CircSpec.s_phase g t = CircSpec.PhNone.
Proof.
  intros R Q t. destruct (Nat.lt_ge_cases t (length (pcs s))) as [L|L]; [|exact (proj1 (r_out R L))].
  destruct (nth_error (pcs s) t) as [p|] eqn:Hp; [|apply nth_error_None in Hp; lia].
  pose proof (thr_some _ R Hp) as N. destruct (nth_error (thr a) t) as [pa|] eqn:Ha; [|congruence].
  pose proof (r_thr R _ Hp Ha) as Pr. unfold fquiet in Q. rewrite Forall_forall in Q.
  destruct (Q p (nth_error_In _ _ Hp)) as [-> | [-> | ->]]; exact (proj1 Pr).
Qed.

Lemma quiet_in_hand s a g : rel C s a g -> fquiet s -> flat_map (@in_hand E) (thr a) = [].
Proof.
  intros R Q. apply flat_map_nil. intros pa Hin. apply In_nth_error in Hin. destruct Hin as [t Ha].
  assert (L : t < length (pcs s)) by (rewrite (r_len R); exact (some_lt _ _ Ha)).
  destruct (nth_error (pcs s) t) as [p|] eqn:Hp; [|apply nth_error_None in Hp; lia].
  pose proof (r_thr R _ Hp Ha) as Pr. unfold fquiet in Q. rewrite Forall_forall in Q.
  destruct (Q p (nth_error_In _ _ Hp)) as [-> | [-> | ->]]; destruct Pr as (_ & _ & -> & _); reflexivity.
Qed.

Lemma full_quiet n s ls :
  sizes_ok C -> freach C true n s ls -> fquiet s ->
  accepted ls = written ls ++ contents (c_cap C) (ring s) /\
  CircModel.g_size (ring s) = length (contents (c_cap C) (ring s)).
Proof.
  intros Z F Q. destruct (full_abs F) as (a & g & Ra & R).
  pose proof (@syslog_in_order E C n a ls Z Ra) as A.
  rewrite (contents_items (r_inv R) (quiet_phase R Q)).
  unfold pending in A. rewrite (quiet_in_hand R Q) in A. cbn in A.
  rewrite <- (r_items R), map_map. split; [exact A|].
  rewrite map_length. pose proof (CircProofs.ii_size0 (CircProofs.inv_idx (r_inv R))) as Sz.
  rewrite Sz, <- (r_items R), map_length; [reflexivity|].
  intros t. unfold CircProofs.PC. rewrite (idle_pc C t (r_inv R) (quiet_phase R Q t)). reflexivity.
Qed.

End Props.
