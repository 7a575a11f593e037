(** * Proofs: asking for a logger, whatever has configured the system (C126) *)
From Coq Require Import Ascii String NArith ZArith List Arith Bool Lia.
From Verif Require Import Base LevelModel SysModel SysSpec YamlModel YamlSpec YamlActSpec DeployModel DeploySpec DeployProofs StackModel StackProofs
  StackFairSpec AnySpec AnyReplay AnyDoc.
From Verif Require SysBase SysProps EventModel RecordModel SinkModel FullModel PoolModel.
Import ListNotations.

(** What configures the system leaves it configured. *)
Lemma configures_configured L ord fuel dbg c busy w' r : configures L ord fuel dbg c -> c (before_configure busy) = (w', r) ->
  configured (w_sys w') = true.
Proof.
  intros C E. destruct (replayed_by L ord fuel dbg c C _ _ _ E) as (l & os & _ & R & _).
  pose proof (SysProps.run_configured ord dbg fuel (map call_of l) (w_sys (before_configure busy))) as H. rewrite R in H. cbn [fst] in H. rewrite H. reflexivity.
Qed.

Section Stack.
Variable lt : N -> RecordModel.tm.
Variable memory : EventModel.mem.
Variable address : N.
Variable fg_first : bool.
Variable ds : list sink_desc.
Variable op : nat -> bool.
Variable n : nat.
Variable ord : list nat -> list nat.
Variable dbg : bool.
Notation xexec := (xexec lt memory address fg_first ds n ord dbg).
Notation xstep := (xstep lt memory address fg_first ds n ord dbg).

Lemma xin_pool_sys s m s' ls : xin_pool lt memory address fg_first ds n s m = Some (s', ls) -> x_sys s' = x_sys s.
Proof. unfold xin_pool. destruct (spstep _ _ _ _ _) as [[p l]|]; [|discriminate]. intros H. inversion H. reflexivity. Qed.

Lemma xstep_configured x m x' l : xstep x m = Some (x', l) -> configured (x_sys x') = configured (x_sys x).
Proof.
  intros H. destruct m as [c|t y g k lv e|t i e|t k|t k| |m]; cbn [StackModel.xstep] in H.
  - destruct (_ && _); injection H as <- <-; [|reflexivity]. cbn [x_sys]. apply SysProps.step_configured.
  - destruct (warning dbg (x_sys x) y g) as [[[Lw G] text]|]; [|inversion H; reflexivity].
    destruct (l_sink Lw); [|inversion H; reflexivity]. destruct (x_up x); [|inversion H; reflexivity].
    destruct (xin_pool _ _ _ _ _ _ _ _) as [[s' ls]|]; [|discriminate]. destruct ls; injection H as <- <-; [reflexivity|].
    cbn [x_sys]. exact (SysProps.step_configured ord dbg (enough (x_sys x)) (x_sys x) (GetLogger y g k lv)).
  - destruct (nth_error (loggers (x_sys x)) i) as [Lg|]; [|inversion H; reflexivity].
    destruct (nth_error _ _); [|inversion H; reflexivity]. destruct (l_sink Lg); [|inversion H; reflexivity].
    destruct (_ && _); [|inversion H; reflexivity].
    destruct (xin_pool _ _ _ _ _ _ _ _) as [[s' ls]|] eqn:Q; [|discriminate]. apply xin_pool_sys in Q. inversion H; subst. now rewrite Q.
  - destruct (x_up x && Nat.ltb k (List.length (sinks (x_sys x)))); [|inversion H; reflexivity].
    destruct (xin_pool _ _ _ _ _ _ _ _) as [[s' ls]|] eqn:Q; [|discriminate]. apply xin_pool_sys in Q. inversion H; subst. now rewrite Q.
  - destruct (x_up x && Nat.ltb k (List.length (sinks (x_sys x)))); [|inversion H; reflexivity].
    destruct (xin_pool _ _ _ _ _ _ _ _) as [[s' ls]|] eqn:Q; [|discriminate]. apply xin_pool_sys in Q. inversion H; subst. now rewrite Q.
  - inversion H; reflexivity.
  - destruct (match m with PoolModel.XStart _ _ => false | PoolModel.XDestroy _ _ => negb (x_up x) | _ => true end); [|inversion H; reflexivity].
    destruct (xin_pool _ _ _ _ _ _ _ _) as [[s' ls]|] eqn:Q; [|discriminate]. apply xin_pool_sys in Q. inversion H; subst. now rewrite Q.
Qed.
Lemma xexec_configured ms : forall x x' tr, xexec x ms = Some (x', tr) -> configured (x_sys x') = configured (x_sys x).
Proof.
  induction ms as [|m ms IH]; intros x x' tr H; cbn [StackModel.xexec] in H; [inversion H; reflexivity|].
  destruct (xstep x m) as [[x1 l1]|] eqn:Q; [|discriminate]. destruct (xexec x1 ms) as [[x2 l2]|] eqn:Q2; [|discriminate].
  inversion H; subst. rewrite (IH _ _ _ Q2). exact (xstep_configured _ _ _ _ Q).
Qed.

(** The logger that a warned getLogger() makes. *)
Lemma fallback_logger s y g kn lv i G :
  configured s = true -> live s y = None ->
  (g = "*"%string /\ dbg = false \/ g <> "*"%string /\ find (gmap s) g = None) ->
  find (gmap s) "*"%string = Some i -> nth_error (groups s) i = Some G -> g_sink G <> None ->
  let s' := fst (get_logger dbg s y g kn lv) in
  exists Y, nth_error (loggers s') (List.length (loggers s)) = Some Y /\ live s' y = Some (List.length (loggers s)) /\
    l_name Y = y /\ l_group Y = i /\
    l_level Y = match lv with Some v => v | None => g_level G end /\
    l_sink Y = match kn with Some k => match find (smap s) k with Some id => Some id | None => g_sink G end | None => g_sink G end.
Proof.
  intros HC HL HG HI EG ES. cbv zeta. unfold get_logger. rewrite HC, HL. cbn [negb].
  destruct (g_sink G) as [gk|] eqn:EK; [|congruence]. clear ES.
  assert (CW : can_warn G = true) by (unfold can_warn; now rewrite EK).
  assert (LC : l_sink (l_construct y i G) = Some gk /\ l_level (l_construct y i G) = g_level G /\ l_name (l_construct y i G) = y /\
               l_group (l_construct y i G) = i /\ l_alive (l_construct y i G) = true).
  { unfold l_construct, l_level_from, l_sink_from. rewrite EK. cbn. auto. }
  destruct LC as (C1 & C2 & C3 & C4 & C5).
  assert (K : forall Y, l_alive Y = true ->
    let s' := with_loggers s (loggers s ++ [Y]) (assign (lmap s) y (List.length (loggers s))) in
    nth_error (loggers s') (List.length (loggers s)) = Some Y /\ live s' y = Some (List.length (loggers s))).
  { intros Y HY. cbn. unfold live. cbn [lmap loggers with_loggers]. rewrite SysBase.find_assign_same, nth_error_app2, Nat.sub_diag by auto. cbn. now rewrite HY. }
  destruct HG as [[-> ->]|[Hg HF]]; [|apply String.eqb_neq in Hg; rewrite Hg, HF]; cbn [String.eqb Ascii.eqb Bool.eqb]; rewrite HI, EG, CW; cbn [negb andb fst];
    (eexists; refine (match K _ _ with conj k1 k2 => conj k1 (conj k2 _) end));
    (destruct lv as [v|]; destruct kn as [k|]; try destruct (find (smap s) k) as [id|]; cbn [l_set_level l_set_sink l_alive l_name l_group l_level l_sink]; auto).
Qed.
Lemma warned_step x t y g kn lv e x' l : xstep x (DGet t y g kn lv e) = Some (x', l) -> l <> [] ->
  x_sys x' = fst (get_logger dbg (x_sys x) y g kn lv).
Proof.
  intros H NE. cbn [StackModel.xstep] in H.
  destruct (warning dbg (x_sys x) y g) as [[[Lw G'] text]|]; [|injection H as <- <-; congruence].
  destruct (l_sink Lw); [|injection H as <- <-; congruence]. destruct (x_up x); [|injection H as <- <-; congruence].
  destruct (xin_pool _ _ _ _ _ _ _ _) as [[s' ls]|]; [|discriminate]. destruct ls; injection H as <- <-; [congruence|]. reflexivity.
Qed.
End Stack.

(** All together. *)
Theorem final_asked lt memory address fg_first ds op n ord dbg L fuel : usual_lib L -> refuses_huge_buffers L ->
  forall busy c w' r, configures L ord fuel dbg c -> c (before_configure busy) = (w', r) -> all_sinks L w' ds ->
  forall ms x tr t y g kn lv e i G,
    xexec lt memory address fg_first ds n ord dbg (xstart lt memory address fg_first ds op n (w_sys w')) ms = Some (x, tr) ->
    x_up x = true -> (forall d, In d ds -> d_kind d <> KMulti []) -> 1 <= t <= n -> sresting (count ds) (x_pool x) t ->
    live (x_sys x) y = None ->
    (g = "*"%string /\ dbg = false \/ g <> "*"%string /\ find (gmap (x_sys x)) g = None) ->
    find (gmap (x_sys x)) "*" = Some i -> nth_error (groups (x_sys x)) i = Some G -> g_sink G <> None ->
    exists x' l Lw e' Y, xstep lt memory address fg_first ds n ord dbg x (DGet t y g kn lv e) = Some (x', l) /\
      (said_by t l = [(g_name G, Lw, e')] /\ l_name Lw = "Soralog"%string /\ l_level Lw = g_level G /\ l_sink Lw = g_sink G /\
       x_level e' = WARN /\ x_result e' = EventModel.FmtOk (bs (complaint y g (g_name G)))) /\
      nth_error (loggers (x_sys x')) (List.length (loggers (x_sys x))) = Some Y /\
      live (x_sys x') y = Some (List.length (loggers (x_sys x))) /\ l_name Y = y /\ l_group Y = i /\
      l_level Y = match lv with Some v => v | None => g_level G end /\
      l_sink Y = match kn with Some k => match find (smap (x_sys x)) k with Some id => Some id | None => g_sink G end | None => g_sink G end.
Proof.
  intros UL RH busy c w' r C E D ms x tr t y g kn lv e i G X HU HM Ht HR HL HG HI EG ES.
  assert (HC : configured (x_sys x) = true).
  { rewrite (xexec_configured _ _ _ _ _ _ _ _ _ _ _ _ X). cbn [xstart x_sys]. exact (configures_configured L ord fuel dbg c busy w' r C E). }
  destruct (final_warning lt memory address fg_first ds op n ord dbg L fuel UL RH busy c w' r C E D (w_sys w') ms x tr t y g kn lv e i G X HU HM Ht HR HC HL HG HI EG ES)
    as (x' & l & Lw & e' & S1 & S2 & S3).
  assert (NE : l <> []) by (intros ->; discriminate).
  destruct (fallback_logger dbg (x_sys x) y g kn lv i G HC HL HG HI EG ES) as (Y & Y1). rewrite <- (warned_step _ _ _ _ _ _ _ _ _ _ _ _ _ _ _ _ _ S1 NE) in Y1.
  exists x', l, Lw, e', Y. split; [exact S1|]. split; [exact (conj S2 S3)|exact Y1].
Qed.
