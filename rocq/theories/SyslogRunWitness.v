(** * Witness for C17: a flush() that never catches up *)
From Coq Require Import Ascii String NArith Arith List Bool Lia.
From Verif Require Import Base LevelModel EventModel RecordModel RecordSpec SinkConfig SinkModel SinkSpec SinkLabels SinkLife SinkProps SinkReturn
  EndModel EndSpec EndProofs SyslogModel SyslogSpec SyslogProofs SyslogRunModel SyslogRunSpec SyslogRunProofs.
Import ListNotations.

Section W.
Context {E : Type}.
Variable call : E -> logged.
Variable F : fsettings.
Hypothesis HS : settings_ok F.
Variable e : E.
Variable l : level.
Hypothesis HA : admits (f_level F) l = true.
Hypothesis HO : sendable F (call e).
Notation C := (syslog_sink call F).

Definition at_loop (s : state E) : Prop :=
  q s = [] /\ size s = 0%N /\ fip s = true /\ exists w, thr s = [w; Idle; FGet KReturn].

Definition cycle : list (move E) := MThread 1 (CPush l e) :: repeat (MThread 1 (CGo false)) 5 ++ repeat (MThread 2 (CGo false)) 2.
Definition cycle_labels : list (label E) := [LPush 1 l e; LAccept 1 e; LReturn 1; LWrite 2 e].

Lemma one_cycle s : at_loop s -> exists s', exec C s cycle = (s', cycle_labels) /\ at_loop s'.
Proof.
  intros (Q & Z & FI & w & T). destruct s as [q0 z0 fi nf nr fn op cl cu ob th ac hc hu hd]. cbn [q size fip thr] in *. subst.
  assert (CAP : Nat.ltb 0 (f_capacity F) = true) by (apply Nat.ltb_lt; destruct HS as (_ & _ & _ & _ & H); lia).
  pose proof (sink_sizes call F e) as MS. cbn [c_msize syslog_sink] in MS.
  set (z := N.of_nat (Datatypes.length (e_message (stored F (call e))))) in *.
  assert (Z1 : ((0 + z) mod M64 = z)%N) by (rewrite N.add_0_l; apply N.mod_small; exact MS).
  assert (Z2 : ((z + (M64 - z)) mod M64 = 0)%N).
  { replace (z + (M64 - z))%N with M64 by (change (z < M64)%N in MS; lia). apply N.mod_same. discriminate. }
  pose (st := fun (q0 : list (entry E)) (z0 : N) nf0 (ob0 : bytes) p1 p2 ac0 hu0 => mkSt q0 z0 true nf0 nr fn op cl cu ob0 [w; p1; p2] ac0 hc hu0 hd).
  assert (CONS : forall a m b la ms r, step C a m = (b, la) -> (exists c, exec C b ms = (c, r) /\ at_loop c) ->
    exists c, exec C a (m :: ms) = (c, la ++ r) /\ at_loop c).
  { intros a m b la ms r H1 (c & H2 & H3). exists c. cbn [exec]. rewrite H1, H2. auto. }
  set (k := Datatypes.length ac).
  unfold cycle. cbn [repeat List.app].
  change (exists s', exec C (st [] 0%N nf ob Idle (FGet KReturn) ac hu) (MThread 1 (CPush l e) :: MThread 1 (CGo false) :: MThread 1 (CGo false) :: MThread 1 (CGo false) :: MThread 1 (CGo false) :: MThread 1 (CGo false) :: [MThread 2 (CGo false); MThread 2 (CGo false)]) = (s', [LPush 1 l e] ++ [LAccept 1 e] ++ [] ++ [] ++ ([] ++ [LReturn 1] ++ [] ++ [LWrite 2 e] ++ [])) /\ at_loop s').
  apply (CONS _ _ (st [] 0%N nf ob (PPut e) (FGet KReturn) ac hu) [LPush 1 l e] _ ([LAccept 1 e] ++ [] ++ [] ++ ([] ++ [LReturn 1] ++ [] ++ [LWrite 2 e] ++ []))).
  { cbn. now rewrite HA. }
  apply (CONS _ _ (st [mkEntry k e Reserved] 0%N nf ob (PAdd k e) (FGet KReturn) (ac ++ [(1, e)]) hu) [LAccept 1 e] _ ([] ++ [] ++ ([] ++ [LReturn 1] ++ [] ++ [LWrite 2 e] ++ []))).
  { unfold st. cbn [step thr nth_error step_thread q length]. cbn [c_cap syslog_sink]. rewrite CAP. reflexivity. }
  apply (CONS _ _ (st [mkEntry k e Sized] z nf ob (PRel k e) (FGet KReturn) (ac ++ [(1, e)]) hu) [] _ ([] ++ ([] ++ [LReturn 1] ++ [] ++ [LWrite 2 e] ++ []))).
  { unfold st. cbn [step thr nth_error step_thread q]. cbn [c_msize syslog_sink size]. fold z. rewrite Z1. unfold set_stage. cbn [map q_no q_ev]. rewrite Nat.eqb_refl. reflexivity. }
  apply (CONS _ _ (st [mkEntry k e Published] z nf ob PDecide (FGet KReturn) (ac ++ [(1, e)]) hu) [] _ ([] ++ [LReturn 1] ++ [] ++ [LWrite 2 e] ++ [])).
  { unfold st. cbn [step thr nth_error step_thread q]. unfold set_stage. cbn [map q_no q_ev]. rewrite Nat.eqb_refl. reflexivity. }
  assert (TAIL : forall nf0, exists c, exec C (st [mkEntry k e Published] z nf0 ob Idle (FGet KReturn) (ac ++ [(1, e)]) hu)
     [MThread 2 (CGo false); MThread 2 (CGo false)] = (c, [] ++ [LWrite 2 e] ++ []) /\ at_loop c).
  { intros nf0. apply (CONS _ _ (st [] z nf0 ob Idle (FSub KReturn e) (ac ++ [(1, e)]) hu) [] _ ([LWrite 2 e] ++ [])); [reflexivity|].
    apply (CONS _ _ (st [] 0%N nf0 (ob ++ []) Idle (FGet KReturn) (ac ++ [(1, e)]) (hu ++ [e])) [LWrite 2 e] _ []).
    - unfold st. cbn [step thr nth_error step_thread]. cbn [c_msize c_kind c_render syslog_sink size q]. fold z. rewrite Z2. reflexivity.
    - eexists. split; [reflexivity|]. repeat split. exists w. reflexivity. }
  destruct (f_lat0 F) eqn:HL.
  - apply (CONS _ _ (st [mkEntry k e Published] z nf ob (FTas KReturn) (FGet KReturn) (ac ++ [(1, e)]) hu) [] _ ([LReturn 1] ++ [] ++ [LWrite 2 e] ++ [])).
    { unfold st. cbn [step thr nth_error step_thread]. cbn [c_lat0 syslog_sink]. rewrite HL. reflexivity. }
    apply (CONS _ _ (st [mkEntry k e Published] z nf ob Idle (FGet KReturn) (ac ++ [(1, e)]) hu) [LReturn 1] _ ([] ++ [LWrite 2 e] ++ [])); [reflexivity|].
    apply TAIL.
  - assert (D : exists nf0, step C (st [mkEntry k e Published] z nf ob PDecide (FGet KReturn) (ac ++ [(1, e)]) hu) (MThread 1 (CGo false)) =
      (st [mkEntry k e Published] z nf0 ob Idle (FGet KReturn) (ac ++ [(1, e)]) hu, [LReturn 1])).
    { unfold st. cbn [step thr nth_error step_thread]. cbn [c_lat0 syslog_sink]. rewrite HL. destruct (N.leb _ _); [exists true|exists nf]; reflexivity. }
    destruct D as (nf0 & D). apply (CONS _ _ _ [LReturn 1] _ ([] ++ [] ++ [LWrite 2 e] ++ []) D).
    apply (CONS _ _ (st [mkEntry k e Published] z nf0 ob Idle (FGet KReturn) (ac ++ [(1, e)]) hu) [] _ ([] ++ [LWrite 2 e] ++ [])); [reflexivity|].
    apply TAIL.
Qed.

Lemma cycles k : forall s, at_loop s -> exists s', exec C s (concat (repeat cycle k)) = (s', concat (repeat cycle_labels k)) /\ at_loop s'.
Proof.
  induction k as [|k IH]; intros s H; [exists s; auto|]. cbn [repeat concat]. destruct (one_cycle s H) as (s1 & E1 & H1).
  destruct (IH s1 H1) as (s2 & E2 & H2). exists s2. rewrite exec_app, E1, E2. auto.
Qed.

Definition begin_flush : list (move E) := [MThread 2 CFlush; MThread 2 (CGo false)].
Lemma begins : exists s, exec C (init C true 2) begin_flush = (s, [LLock 2]) /\ at_loop s.
Proof. eexists. split; [reflexivity|]. repeat split; eexists; reflexivity. Qed.

Theorem overrun_schedule : exists ms s ls, exec C (init C true 2) ms = (s, ls) /\
  Forall (fun x => x = e) (accepted ls) /\ received call F ls = None.
Proof.
  set (k := S (N.to_nat (buff_size F))). destruct begins as (s1 & E1 & H1). destruct (cycles k s1 H1) as (s2 & E2 & H2).
  exists (begin_flush ++ concat (repeat cycle k)), s2, ([LLock 2] ++ concat (repeat cycle_labels k)).
  assert (EX : exec C (init C true 2) (begin_flush ++ concat (repeat cycle k)) = (s2, [LLock 2] ++ concat (repeat cycle_labels k)))
    by (rewrite exec_app, E1, E2; reflexivity).
  split; [exact EX|].
  assert (AC : accepted ([LLock 2] ++ concat (repeat cycle_labels k)) = repeat e k).
  { rewrite accepted_app. change (accepted [LLock 2]) with (@nil E). cbn [List.app]. generalize k. intros j. induction j as [|j IH]; [reflexivity|].
    cbn [repeat concat]. rewrite accepted_app, IH. reflexivity. }
  assert (WR : forall j, written (concat (repeat cycle_labels j)) = repeat e j).
  { induction j as [|j IH]; [reflexivity|]. cbn [repeat concat]. rewrite written_app, IH. reflexivity. }
  split; [rewrite AC; apply Forall_forall; intros x Hx; exact (repeat_spec _ _ _ Hx)|].
  assert (NL : forall (ls part : list (label E)), Forall (fun x => is_lock x = false) ls -> cut part ls = [part ++ ls]).
  { induction ls as [|x ls IH]; intros part H; [cbn; now rewrite app_nil_r|]. inversion H as [|? ? H3 H4]; subst.
    destruct x; try discriminate H3; cbn [cut]; rewrite IH by exact H4; rewrite <- app_assoc; reflexivity. }
  assert (FL : flushes ([LLock 2] ++ concat (repeat cycle_labels k)) = [[]; repeat e k]).
  { unfold flushes. cbn [List.app cut]. rewrite NL; [cbn [map List.app]; now rewrite WR|].
    apply Forall_forall. intros x Hx. apply in_concat in Hx. destruct Hx as (y & Hy & Hx). apply repeat_spec in Hy. subst y.
    repeat (destruct Hx as [<-|Hx]; [reflexivity|]). destruct Hx. }
  unfold received. rewrite FL. rewrite (exact call F _ HS).
  - cbn [forallb]. assert (R : Nat.leb (room call F (repeat e k)) (N.to_nat (buff_size F)) = false); [|rewrite R, andb_false_r; reflexivity].
    apply Nat.leb_gt. assert (RM : forall j, j <= room call F (repeat e j)).
    { unfold room. induction j as [|j IH]; [cbn; lia|]. cbn [repeat map]. unfold list_sum in *. cbn [fold_right]. lia. }
    specialize (RM k). unfold k in *. lia.
  - cbn [concat List.app]. rewrite app_nil_r. apply Forall_forall. intros x Hx. apply repeat_spec in Hx. subst x. exact HO.
Qed.
End W.
