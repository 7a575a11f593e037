(** * Proofs for C126 *)
From Coq Require Import Ascii String NArith ZArith List Arith Bool Lia.
From Verif Require Import Base LevelModel SinkConfig SysModel SysSpec YamlModel YamlSpec YamlActSpec YamlConf YamlProps YamlActs
  DeployModel DeploySpec DeployProofs DeployEnd StackModel StackProofs StackEnd StackFin StackFairSpec StackFair StackFairFin AnySpec.
From Verif Require EventModel RecordModel RecordSpec SinkModel SinkSpec SinkProps SinkReturn SinkMore TreeSpec TreeModel
  FullModel FullProofs PoolModel PoolSpec PoolProofs PoolFair PoolEnd EndModel EndSpec EndProofs SyslogRunModel SyslogRunSpec SyslogRunProofs ConsoleSpec ConsoleRead.
Import ListNotations.

Section Run.
Variable lt : N -> RecordModel.tm.
Variable memory : EventModel.mem.
Variable address : N.
Variable fg_first : bool.
Variable ds : list sink_desc.
Variable op : nat -> bool.
Variable n : nat.
Variable ord : list nat -> list nat.
Variable dbg : bool.
Notation cfg_at := (cfg_at lt memory address fg_first ds).
Notation count := (count ds).
Notation reached_by := (reached_by lt memory address fg_first ds op n ord dbg).
Notation dexec := (dexec lt memory address fg_first ds n ord dbg).
Notation xexec := (xexec lt memory address fg_first ds n ord dbg).
Notation xstart := (xstart lt memory address fg_first ds op n).

Notation to_pool := (DeployProofs.to_pool lt memory address fg_first ds op n ord dbg).
Notation accepted_said := (DeployProofs.accepted_said lt memory address fg_first ds op n ord dbg).
Notation deployed_so_far := (DeployProofs.deployed_so_far lt memory address fg_first ds op n ord dbg).
Notation deployed_destroyed := (DeployProofs.deployed_destroyed lt memory address fg_first ds op n ord dbg).

Section Files.
Hypothesis SOK : forall d path ti z, In d ds -> d_kind d = KFile path ti z \/ d_kind d = KSyslog path ti z ->
  EndSpec.settings_ok (the_file lt memory address d ti z).

Theorem any_read_back s0 ms s tr j d path ti z u :
  reached_by s0 ms s tr ->
  nth_error ds j = Some d -> d_kind d = KFile path ti z -> z_latency z <> Some 0%N -> op (S j) = true ->
  In (SinkModel.LDestroyed u) (in_sink (S j) tr) ->  sane_call (S j) tr ->
  EndModel.f_thread (the_file lt memory address d ti z) = ti /\ EndModel.f_localtime (the_file lt memory address d ti z) = lt /\
  EndModel.f_max (the_file lt memory address d ti z) = N.to_nat (match z_message z with Some m => m | None => 1024 end) /\
  exists runs : list (list (nat * said)),
    List.length runs = 1 + SinkSpec.fresh_files (in_sink (S j) tr) /\
    map (EndSpec.read_file (the_file lt memory address d ti z)) (SinkSpec.disk (PoolModel.leaf (d_pool s) (S j))) =
      map (map (fun x => EndSpec.reads (the_file lt memory address d ti z) (logged_at (S j) (snd x)))) runs /\
    Forall (fun x => 1 <= fst x <= n) (concat runs) /\
    forall t, 1 <= t <= n -> map snd (filter (fun x => Nat.eqb (fst x) t) (concat runs)) = flat_map (brings ds (S j)) (said_by t tr).
Proof.
  intros HR Ej Ek Hz Ho Hd  SC. do 3 (split; [reflexivity|]). set (F := the_file lt memory address d ti z).
  assert (Hid : S j < count) by (unfold DeployModel.count; apply -> Nat.succ_lt_mono; apply nth_error_Some; congruence).
  pose proof (file_cfg lt memory address fg_first ds j d path ti z Ej Ek) as EC. fold F in EC.
  pose proof (SOK d path ti z (nth_error_In _ _ Ej) (or_introl Ek) ) as SO. fold F in SO.
  pose proof (PoolProofs.leaf_reach count cfg_at op n _ _ (S j) (to_pool _ _ _ _ HR) Hid) as RL. rewrite Ho in RL.
  assert (SZ : SinkSpec.sizes_ok (cfg_at (S j))).
  { rewrite EC. intros e. exact (EndProofs.file_sizes F (logged_at (S j) e)). }
  assert (LZ : SinkModel.c_lat0 (cfg_at (S j)) = false).
  { rewrite EC. unfold F, the_file, file_settings. cbn. destruct (z_latency z) as [x|]; cbn; [|reflexivity].
    apply N.eqb_neq. intros ->. now apply Hz. }
  destruct (SinkReturn.destroyed_complete (cfg_at (S j)) n _ _ u SZ LZ RL Hd) as (W & _ & DK).
  destruct (SinkMore.rotation_runs (cfg_at (S j)) n _ _ SZ RL) as (runs & R1 & R2 & R3).
  rewrite W in R2. destruct (pair_runs (SinkSpec.accepts (in_sink (S j) tr)) runs R2) as (prs & Q1 & Q2).
  exists prs. split; [rewrite <- Q1, map_length in R1; exact R1|]. split; [|split].
  - rewrite DK by (rewrite EC; reflexivity). rewrite R3, EC.
    replace (map (fun r => concat (map (SinkModel.c_render (leaf_cfg SinkModel.KFile (S j) F (SinkModel.c_render (EndModel.file_sink F)))) r)) runs)
      with (map (fun r => concat (map (SinkModel.c_render (EndModel.file_sink F)) r)) (map (map (logged_at (S j))) runs)).
    2:{ rewrite map_map. apply map_ext. intros r. rewrite map_map. reflexivity. }
    rewrite (EndProofs.runs_read F SO).
    + rewrite map_map, <- Q1, map_map. apply map_ext. intros r. rewrite !map_map. reflexivity.
    + rewrite <- concat_map, R2. apply Forall_map. apply (accepted_said s0 ms s tr (S j) _ HR Hid). exact SC.
  - rewrite Q2. apply (proj2 (deployed_so_far _ _ _ _ _ HR Hid)).
  - intros t Ht. rewrite Q2. exact (deployed_destroyed _ _ _ _ t u _ HR Hid Ht Hd).
Qed.

Theorem any_read_back_crash s0 ms s tr j d path ti z :
  reached_by s0 ms s tr ->
  nth_error ds j = Some d -> d_kind d = KFile path ti z -> op (S j) = true ->
   sane_call (S j) tr ->
  EndModel.f_thread (the_file lt memory address d ti z) = ti /\ EndModel.f_localtime (the_file lt memory address d ti z) = lt /\
  EndModel.f_max (the_file lt memory address d ti z) = N.to_nat (match z_message z with Some m => m | None => 1024 end) /\
  exists lines : list (nat * said),
    flat_map (EndSpec.read_file (the_file lt memory address d ti z)) (SinkSpec.disk (PoolModel.leaf (d_pool s) (S j))) =
      map (fun x => EndSpec.reads (the_file lt memory address d ti z) (logged_at (S j) (snd x))) lines /\
    Forall (fun x => 1 <= fst x <= n) lines /\
    forall t, 1 <= t <= n ->
      SinkSpec.is_prefix (map snd (filter (fun x => Nat.eqb (fst x) t) lines)) (flat_map (brings ds (S j)) (said_by t tr)).
Proof.
  intros HR Ej Ek Ho  SC. do 3 (split; [reflexivity|]). set (F := the_file lt memory address d ti z).
  assert (Hid : S j < count) by (unfold DeployModel.count; apply -> Nat.succ_lt_mono; apply nth_error_Some; congruence).
  pose proof (file_cfg lt memory address fg_first ds j d path ti z Ej Ek) as EC. fold F in EC.
  pose proof (SOK d path ti z (nth_error_In _ _ Ej) (or_introl Ek) ) as SO. fold F in SO.
  pose proof (PoolProofs.leaf_reach count cfg_at op n _ _ (S j) (to_pool _ _ _ _ HR) Hid) as RL. rewrite Ho in RL.
  assert (SZ : SinkSpec.sizes_ok (cfg_at (S j))).
  { rewrite EC. intros e. exact (EndProofs.file_sizes F (logged_at (S j) e)). }
  fold (in_sink (S j) tr) in RL. set (ls := in_sink (S j) tr) in *.
  destruct (SinkMore.crash_prefix (cfg_at (S j)) n _ _ SZ ltac:(rewrite EC; discriminate) RL) as (_ & runs & last & before & beyond & W & DK & B).
  destruct (SinkProps.per_thread_order (cfg_at (S j)) n _ _ SZ RL) as [(k0 & K) _].
  assert (CR : forall r, map (SinkModel.c_render (cfg_at (S j))) r = map (SinkModel.c_render (EndModel.file_sink F)) (map (logged_at (S j)) r)).
  { intros r. rewrite EC, map_map. reflexivity. }
  set (ok := fun e => EndSpec.call_ok e /\ EndSpec.legible e).
  assert (Hw : Forall ok (map (logged_at (S j)) (SinkSpec.written ls))).
  { rewrite K. pose proof (accepted_said s0 ms s tr (S j) (fun e => ok (logged_at (S j) e)) HR Hid SC) as HA. apply Forall_map.
    fold ls in HA. unfold SinkSpec.accepted in HA. rewrite Forall_forall in *. intros e He. apply HA.
    rewrite <- firstn_map in He. rewrite <- (firstn_skipn k0). apply in_or_app. now left. }
  rewrite concat_app in W. cbn [concat] in W. rewrite app_nil_r in W. rewrite W, map_app in Hw. apply Forall_app in Hw. destruct Hw as [H1 H2].
  rewrite CR in B. destruct (EndProofs.read_prefix F before beyond) as (k2 & K2). rewrite <- B, EndProofs.read_many in K2 by auto.
  exists (firstn (List.length (concat runs) + k2) (firstn k0 (SinkSpec.accepts ls))). split; [|split].
  - rewrite DK, flat_map_app. cbn [flat_map]. rewrite app_nil_r.
    replace (map (fun r => concat (map (SinkModel.c_render (cfg_at (S j))) r)) runs)
      with (map (fun r => concat (map (SinkModel.c_render (EndModel.file_sink F)) r)) (map (map (logged_at (S j))) runs)).
    2:{ rewrite map_map. apply map_ext. intros r. now rewrite CR. }
    rewrite flat_map_concat_map, (EndProofs.runs_read F SO) by (rewrite <- concat_map; exact H1).
    rewrite K2, <- concat_map, <- concat_map.
    rewrite <- (map_map snd (fun e => EndSpec.reads F (logged_at (S j) e))), <- (map_map (logged_at (S j)) (EndSpec.reads F)).
    rewrite <- firstn_map, <- K, W, firstn_app_2, !map_app, firstn_map, firstn_map. reflexivity.
  - pose proof (proj2 (deployed_so_far _ _ _ _ _ HR Hid)) as P2. fold ls in P2. rewrite firstn_firstn.
    rewrite Forall_forall in *. intros x Hx. apply P2. rewrite <- (firstn_skipn (Nat.min (List.length (concat runs) + k2) k0)). apply in_or_app. now left.
  - intros t Ht. destruct (proj1 (deployed_so_far _ _ _ _ _ HR Hid) t Ht) as [c Hc]. fold ls in Hc.
    rewrite firstn_firstn. rewrite Hc. unfold SinkSpec.accepted_by. rewrite <- (firstn_skipn (Nat.min (List.length (concat runs) + k2) k0) (SinkSpec.accepts ls)) at 2.
    rewrite filter_app, map_app, <- app_assoc. eexists. reflexivity.
Qed.

Theorem any_console_out s0 ms s tr j d st color ti z u :
  reached_by s0 ms s tr ->
  nth_error ds j = Some d -> d_kind d = KConsole st color ti z -> z_latency z <> Some 0%N -> op (S j) = true ->
  In (SinkModel.LDestroyed u) (in_sink (S j) tr) ->
  let F := console_settings lt memory address (d_level d) ti z in
  EndModel.f_thread F = ti /\ EndModel.f_localtime F = lt /\
  EndModel.f_max F = N.to_nat (match z_message z with Some m => m | None => 1024 end) /\
  exists lines : list (nat * said),
    concat (SinkSpec.files (PoolModel.leaf (d_pool s) (S j))) =
      concat (map (fun x => console_record lt fg_first color F (logged_at (S j) (snd x))) lines) /\
    Forall (fun x => 1 <= fst x <= n) lines /\
    forall t, 1 <= t <= n -> map snd (filter (fun x => Nat.eqb (fst x) t) lines) = flat_map (brings ds (S j)) (said_by t tr).
Proof.
  intros HR Ej Ek Hz Ho Hd F. do 3 (split; [reflexivity|]).
  assert (Hid : S j < count) by (unfold DeployModel.count; apply -> Nat.succ_lt_mono; apply nth_error_Some; congruence).
  assert (EC : cfg_at (S j) = leaf_cfg SinkModel.KConsole (S j) F (console_record lt fg_first color F)) by (cbn [DeployModel.cfg_at]; now rewrite Ej, Ek).
  pose proof (PoolProofs.leaf_reach count cfg_at op n _ _ (S j) (to_pool _ _ _ _ HR) Hid) as RL. rewrite Ho in RL.
  assert (SZ : SinkSpec.sizes_ok (cfg_at (S j))).
  { rewrite EC. intros e. exact (EndProofs.file_sizes F (logged_at (S j) e)). }
  assert (LZ : SinkModel.c_lat0 (cfg_at (S j)) = false).
  { rewrite EC. unfold F, console_settings. cbn. destruct (z_latency z) as [x|]; cbn; [|reflexivity]. apply N.eqb_neq. intros ->. now apply Hz. }
  destruct (SinkReturn.destroyed_complete (cfg_at (S j)) n _ _ u SZ LZ RL Hd) as (_ & W & _). specialize (W ltac:(rewrite EC; discriminate)).
  exists (SinkSpec.accepts (in_sink (S j) tr)). split; [|split].
  - rewrite W. unfold SinkSpec.accepted. rewrite map_map, EC. reflexivity.
  - apply (proj2 (deployed_so_far _ _ _ _ _ HR Hid)).
  - intros t Ht. exact (deployed_destroyed _ _ _ _ t u _ HR Hid Ht Hd).
Qed.

Theorem any_syslog_out s0 ms s tr j d ident ti z u sent :
  reached_by s0 ms s tr ->
  nth_error ds j = Some d -> d_kind d = KSyslog ident ti z -> z_latency z <> Some 0%N -> op (S j) = true ->
  In (SinkModel.LDestroyed u) (in_sink (S j) tr) -> 
  (forall t g Lg e, In (DSaid t g Lg e) tr -> EndSpec.call_ok (logged_at (S j) (named Lg e))) ->
  let F := file_settings lt memory address (d_level d) ti z in
  SyslogRunModel.received (logged_at (S j)) F (in_sink (S j) tr) = Some sent ->
  exists lines : list (nat * said),
    map fst sent = flat_map (fun x => SyslogRunSpec.urgency (logged_at (S j) (snd x))) lines /\
    Forall (fun x => 1 <= fst x <= n) lines /\
    forall t, 1 <= t <= n -> map snd (filter (fun x => Nat.eqb (fst x) t) lines) = flat_map (brings ds (S j)) (said_by t tr).
Proof.
  intros HR Ej Ek Hz Ho Hd  SC F HE.
  assert (Hid : S j < count) by (unfold DeployModel.count; apply -> Nat.succ_lt_mono; apply nth_error_Some; congruence).
  assert (EC : cfg_at (S j) = SyslogRunModel.syslog_sink (logged_at (S j)) F) by (cbn [DeployModel.cfg_at]; rewrite Ej, Ek; reflexivity).
  pose proof (SOK d ident ti z (nth_error_In _ _ Ej) (or_intror Ek) ) as SO.
  pose proof (PoolProofs.leaf_reach count cfg_at op n _ _ (S j) (to_pool _ _ _ _ HR) Hid) as RL. rewrite Ho, EC in RL.
  fold (in_sink (S j) tr) in RL.
  assert (LZ : EndModel.f_lat0 F = false).
  { unfold F, file_settings. cbn [EndModel.f_lat0]. destruct (z_latency z) as [x|]; cbn; [|reflexivity]. apply N.eqb_neq. intros ->. now apply Hz. }
  exists (SinkSpec.accepts (in_sink (S j) tr)). split; [|split].
  - rewrite (SyslogRunProofs.destroyed (logged_at (S j)) F n _ _ u sent SO LZ RL Hd); [|apply (accepted_said s0 ms s tr (S j) _ HR Hid); exact SC|exact HE].
    unfold SinkSpec.accepted. clear. induction (SinkSpec.accepts (in_sink (S j) tr)) as [|x l IH]; [reflexivity|]. cbn [map flat_map]. now rewrite IH.
  - apply (proj2 (deployed_so_far _ _ _ _ _ HR Hid)).
  - intros t Ht. exact (deployed_destroyed _ _ _ _ t u _ HR Hid Ht Hd).
Qed.

Theorem any_syslog_texts s0 ms s tr j d ident ti z u sent :
  reached_by s0 ms s tr ->
  nth_error ds j = Some d -> d_kind d = KSyslog ident ti z -> z_latency z <> Some 0%N -> op (S j) = true ->
  In (SinkModel.LDestroyed u) (in_sink (S j) tr) -> 
  let F := file_settings lt memory address (d_level d) ti z in
  (forall t g Lg e, In (DSaid t g Lg e) tr -> SyslogRunSpec.sendable F (logged_at (S j) (named Lg e))) ->
  SyslogRunModel.received (logged_at (S j)) F (in_sink (S j) tr) = Some sent ->
  exists flushed : list (list (nat * said)),
    sent = flat_map (fun xs => match xs with
                               | [] => []
                               | x :: _ => map (fun p => (p, SyslogRunSpec.tells F (logged_at (S j) (snd x))))
                                               (flat_map (fun y => SyslogRunSpec.urgency (logged_at (S j) (snd y))) xs)
                               end) flushed /\
    Forall (fun x => 1 <= fst x <= n) (concat flushed) /\
    forall t, 1 <= t <= n ->
      map snd (filter (fun x => Nat.eqb (fst x) t) (concat flushed)) = flat_map (brings ds (S j)) (said_by t tr).
Proof.
  intros HR Ej Ek Hz Ho Hd  F SC HE.
  assert (Hid : S j < count) by (unfold DeployModel.count; apply -> Nat.succ_lt_mono; apply nth_error_Some; congruence).
  assert (EC : cfg_at (S j) = SyslogRunModel.syslog_sink (logged_at (S j)) F) by (cbn [DeployModel.cfg_at]; rewrite Ej, Ek; reflexivity).
  pose proof (SOK d ident ti z (nth_error_In _ _ Ej) (or_intror Ek) ) as SO.
  pose proof (PoolProofs.leaf_reach count cfg_at op n _ _ (S j) (to_pool _ _ _ _ HR) Hid) as RL. rewrite Ho, EC in RL.
  fold (in_sink (S j) tr) in RL.
  assert (LZ : EndModel.f_lat0 F = false).
  { unfold F, file_settings. cbn [EndModel.f_lat0]. destruct (z_latency z) as [x|]; cbn; [|reflexivity]. apply N.eqb_neq. intros ->. now apply Hz. }
  pose proof (accepted_said s0 ms s tr (S j) (fun e => SyslogRunSpec.sendable F (logged_at (S j) e)) HR Hid SC) as SA.
  pose proof (SyslogRunProofs.texts (logged_at (S j)) F n _ _ sent SO RL SA HE) as TX.
  destruct (SinkReturn.destroyed_complete (SyslogRunModel.syslog_sink (logged_at (S j)) F) n _ _ u
             (SyslogRunProofs.sink_sizes (logged_at (S j)) F) LZ RL Hd) as (W & _).
  destruct (regroup (SyslogRunModel.flushes (in_sink (S j) tr)) (SinkSpec.accepts (in_sink (S j) tr))) as (gs' & G1 & G2).
  { rewrite SyslogRunProofs.flushes_concat, W. reflexivity. }
  exists gs'. rewrite G1. split; [|split].
  - rewrite TX, <- G2. clear. induction gs' as [|g l IH]; [reflexivity|]. cbn [map flat_map]. rewrite IH. f_equal.
    destruct g as [|x g]; [reflexivity|]. unfold SyslogRunProofs.first_text. cbn [map]. f_equal.
    assert (Q : forall k : list (nat * said), flat_map (fun e => SyslogRunSpec.urgency (logged_at (S j) e)) (map snd k) =
                          flat_map (fun y => SyslogRunSpec.urgency (logged_at (S j) (snd y))) k).
    { induction k as [|y k IHk]; [reflexivity|]. cbn [map flat_map]. now rewrite IHk. }
    exact (Q (x :: g)).
  - apply (proj2 (deployed_so_far _ _ _ _ _ HR Hid)).
  - intros t Ht. exact (deployed_destroyed _ _ _ _ t u _ HR Hid Ht Hd).
Qed.
End Files.

(** With the circular buffers. *)
Section Stack.
Hypothesis caps : forall id, 1 <= SinkModel.c_cap (cfg_at id).
Hypothesis SOK : forall d path ti z, In d ds -> d_kind d = KFile path ti z \/ d_kind d = KSyslog path ti z ->
  EndSpec.settings_ok (the_file lt memory address d ti z).

Lemma xdefined s0 ms : exists x tr, xexec (xstart s0) ms = Some (x, tr).
Proof using caps.
  destruct (stack lt memory address fg_first ds op n ord dbg caps s0 ms) as (x & tr & _ & _ & X & _). eauto.
Qed.
Lemma xcovered s0 ms x tr : xexec (xstart s0) ms = Some (x, tr) ->
  exists ms' s, reached_by s0 ms' s tr /\
    (forall id, FullModel.rest (sleaf (x_pool x) id) = FullModel.strip (PoolModel.leaf (d_pool s) id)).
Proof using caps.
  intros X. destruct (stack lt memory address fg_first ds op n ord dbg caps s0 ms) as (x2 & tr2 & ms' & s & X2 & H).
  rewrite X in X2. inversion X2; subst. exists ms', s. split; [exact (proj1 H)|apply H].
Qed.

Theorem xany_read_back s0 ms x tr j d path ti z u :
  xexec (xstart s0) ms = Some (x, tr) ->
  nth_error ds j = Some d -> d_kind d = KFile path ti z -> z_latency z <> Some 0%N -> op (S j) = true ->
  In (SinkModel.LDestroyed u) (in_sink (S j) tr) ->
  (forall t g Lg e, In (DSaid t g Lg e) tr ->
     EndSpec.call_ok (logged_at (S j) (named Lg e)) /\ EndSpec.legible (logged_at (S j) (named Lg e))) ->
  let F := file_settings lt memory address (d_level d) ti z in
  EndModel.f_thread F = ti /\ EndModel.f_localtime F = lt /\
  EndModel.f_max F = N.to_nat (match z_message z with Some m => m | None => 1024 end) /\
  exists runs : list (list (nat * said)),
    List.length runs = 1 + SinkSpec.fresh_files (in_sink (S j) tr) /\
    map (EndSpec.read_file F) (SinkSpec.disk (FullModel.rest (sleaf (x_pool x) (S j)))) =
      map (map (fun x => EndSpec.reads F (logged_at (S j) (snd x)))) runs /\
    Forall (fun x => 1 <= fst x <= n) (concat runs) /\
    forall t, 1 <= t <= n ->
      map snd (filter (fun x => Nat.eqb (fst x) t) (concat runs)) = flat_map (brings ds (S j)) (said_by t tr).
Proof.
  intros X Ej Ek HL HO HI SC F. destruct (xcovered _ _ _ _ X) as (ms' & s & R & Q). rewrite Q.
  exact (any_read_back SOK s0 ms' s tr j d path ti z u R Ej Ek HL HO HI SC).
Qed.

Theorem xany_read_back_crash s0 ms x tr j d path ti z :
  xexec (xstart s0) ms = Some (x, tr) ->
  nth_error ds j = Some d -> d_kind d = KFile path ti z -> op (S j) = true ->
  (forall t g Lg e, In (DSaid t g Lg e) tr ->
     EndSpec.call_ok (logged_at (S j) (named Lg e)) /\ EndSpec.legible (logged_at (S j) (named Lg e))) ->
  let F := file_settings lt memory address (d_level d) ti z in
  EndModel.f_thread F = ti /\ EndModel.f_localtime F = lt /\
  EndModel.f_max F = N.to_nat (match z_message z with Some m => m | None => 1024 end) /\
  exists lines : list (nat * said),
    flat_map (EndSpec.read_file F) (SinkSpec.disk (FullModel.rest (sleaf (x_pool x) (S j)))) =
      map (fun x => EndSpec.reads F (logged_at (S j) (snd x))) lines /\
    Forall (fun x => 1 <= fst x <= n) lines /\
    forall t, 1 <= t <= n ->
      SinkSpec.is_prefix (map snd (filter (fun x => Nat.eqb (fst x) t) lines)) (flat_map (brings ds (S j)) (said_by t tr)).
Proof.
  intros X Ej Ek HO SC F. destruct (xcovered _ _ _ _ X) as (ms' & s & R & Q). rewrite Q.
  exact (any_read_back_crash SOK s0 ms' s tr j d path ti z R Ej Ek HO SC).
Qed.

Theorem xany_console s0 ms x tr j d st color ti z u :
  xexec (xstart s0) ms = Some (x, tr) ->
  nth_error ds j = Some d -> d_kind d = KConsole st color ti z -> z_latency z <> Some 0%N -> op (S j) = true ->
  In (SinkModel.LDestroyed u) (in_sink (S j) tr) ->
  let F := console_settings lt memory address (d_level d) ti z in
  EndModel.f_thread F = ti /\ EndModel.f_localtime F = lt /\
  EndModel.f_max F = N.to_nat (match z_message z with Some m => m | None => 1024 end) /\
  exists lines : list (nat * said),
    concat (SinkSpec.files (FullModel.rest (sleaf (x_pool x) (S j)))) =
      concat (map (fun x => console_record lt fg_first color F (logged_at (S j) (snd x))) lines) /\
    Forall (fun x => 1 <= fst x <= n) lines /\
    forall t, 1 <= t <= n -> map snd (filter (fun x => Nat.eqb (fst x) t) lines) = flat_map (brings ds (S j)) (said_by t tr).
Proof.
  intros X Ej Ek HL HO HI F. destruct (xcovered _ _ _ _ X) as (ms' & s & R & Q). rewrite Q.
  exact (any_console_out s0 ms' s tr j d st color ti z u R Ej Ek HL HO HI).
Qed.

Theorem xany_syslog s0 ms x tr j d ident ti z u sent :
  xexec (xstart s0) ms = Some (x, tr) ->
  nth_error ds j = Some d -> d_kind d = KSyslog ident ti z -> z_latency z <> Some 0%N -> op (S j) = true ->
  In (SinkModel.LDestroyed u) (in_sink (S j) tr) ->
  (forall t g Lg e, In (DSaid t g Lg e) tr -> EndSpec.call_ok (logged_at (S j) (named Lg e))) ->
  let F := file_settings lt memory address (d_level d) ti z in
  SyslogRunModel.received (logged_at (S j)) F (in_sink (S j) tr) = Some sent ->
  exists lines : list (nat * said),
    map fst sent = flat_map (fun x => SyslogRunSpec.urgency (logged_at (S j) (snd x))) lines /\
    Forall (fun x => 1 <= fst x <= n) lines /\
    forall t, 1 <= t <= n -> map snd (filter (fun x => Nat.eqb (fst x) t) lines) = flat_map (brings ds (S j)) (said_by t tr).
Proof.
  intros X Ej Ek HL HO HI SC F. destruct (xcovered _ _ _ _ X) as (ms' & s & R & Q).
  exact (any_syslog_out SOK s0 ms' s tr j d ident ti z u sent R Ej Ek HL HO HI SC).
Qed.

Theorem xany_syslog_texts s0 ms x tr j d ident ti z u sent :
  xexec (xstart s0) ms = Some (x, tr) ->
  nth_error ds j = Some d -> d_kind d = KSyslog ident ti z -> z_latency z <> Some 0%N -> op (S j) = true ->
  In (SinkModel.LDestroyed u) (in_sink (S j) tr) ->
  let F := file_settings lt memory address (d_level d) ti z in
  (forall t g Lg e, In (DSaid t g Lg e) tr -> SyslogRunSpec.sendable F (logged_at (S j) (named Lg e))) ->
  SyslogRunModel.received (logged_at (S j)) F (in_sink (S j) tr) = Some sent ->
  exists flushed : list (list (nat * said)),
    sent = flat_map (fun xs => match xs with
                               | [] => []
                               | x :: _ => map (fun p => (p, SyslogRunSpec.tells F (logged_at (S j) (snd x))))
                                               (flat_map (fun y => SyslogRunSpec.urgency (logged_at (S j) (snd y))) xs)
                               end) flushed /\
    Forall (fun x => 1 <= fst x <= n) (concat flushed) /\
    forall t, 1 <= t <= n ->
      map snd (filter (fun x => Nat.eqb (fst x) t) (concat flushed)) = flat_map (brings ds (S j)) (said_by t tr).
Proof.
  intros X Ej Ek HL HO HI F SC. destruct (xcovered _ _ _ _ X) as (ms' & s & R & Q).
  exact (any_syslog_texts SOK s0 ms' s tr j d ident ti z u sent R Ej Ek HL HO HI SC).
Qed.

End Stack.
End Run.

(** ** Whatever configures the system *)
Section Configured.
Variable L : lib.
Variable ord : list nat -> list nat.
Variable fuel : nat.
Variable dbg : bool.
Local Open Scope string_scope.
Local Open Scope list_scope.

Record made (w w' : world) (l : list action) : Prop := {
  m_known : known w' "*";
  m_numbered : numbered (w_sys w');
  m_log : w_log w' = w_log w ++ l;
  m_sinks : sinks (w_sys w') = sinks (w_sys w) ++ map d_name (sinks_of l);
  m_members : forall j d ks, nth_error (sinks_of l) j = Some d -> d_kind d = KMulti ks ->
    Forall (fun k => k < length (sinks (w_sys w)) + j) ks;
  m_sizes : usual_lib L -> refuses_huge_buffers L -> Forall (fun d => forall z, sizes_of d = Some z -> sane_sizes L z) (sinks_of l)
}.

Lemma made_app w l1 w1 l2 w2 : made w w1 l1 -> made w1 w2 l2 -> made w w2 (l1 ++ l2).
Proof.
  intros A B. destruct A as [_ _ A3 A4 A5 A6], B as [B1 B2 B3 B4 B5 B6].
  assert (SA : sinks_of (l1 ++ l2) = sinks_of l1 ++ sinks_of l2) by apply flat_map_app.
  constructor; auto.
  - rewrite B3, A3, app_assoc. reflexivity.
  - rewrite B4, A4, SA, map_app, app_assoc. reflexivity.
  - intros j d ks Ej Ek. rewrite SA in Ej. destruct (Nat.lt_ge_cases j (length (sinks_of l1))) as [Lt|Ge].
    + rewrite nth_error_app1 in Ej by exact Lt. exact (A5 j d ks Ej Ek).
    + rewrite nth_error_app2 in Ej by exact Ge. specialize (B5 _ d ks Ej Ek). rewrite A4, app_length, map_length in B5.
      eapply Forall_impl; [|exact B5]. cbv beta. intros. lia.
  - intros UL RH. rewrite SA. apply Forall_app. auto.
Qed.

Lemma made_acts safe w l w' : acts L safe ord fuel dbg w l w' -> known w "*" -> numbered (w_sys w) -> made w w' l.
Proof.
  intros A K N. constructor.
  - exact (acts_known L ord fuel dbg _ _ _ _ A K).
  - exact (acts_numbered _ _ _ _ _ _ _ _ A N).
  - exact (acts_log _ _ _ _ _ _ _ _ A).
  - exact (acts_sinks _ _ _ _ _ _ _ _ A).
  - exact (acts_members _ _ _ _ _ _ _ _ A N).
  - exact (acts_sizes _ _ _ _ _ _ _ _ A).
Qed.

Lemma made_nothing w : known w "*" -> numbered (w_sys w) -> made w w [].
Proof. intros K N. apply (made_acts True w [] w); auto. apply acts_nil. Qed.

Lemma made_fallback lv color w w' r : known w "*" -> numbered (w_sys w) -> fallback L ord fuel dbg lv color w = (w', r) -> exists l, made w w' l.
Proof.
  intros K N H. unfold fallback in H. set (d := mkDesc "console" lv _) in *.
  unfold world_sink in H. destruct (build L d) as [what|]; [inversion H; subst; exists []; now apply made_nothing|].
  cbn [d_kind d andb] in H.
  cbn [step d_name] in H. cbv beta iota zeta in H.
  set (w1 := mkWorld _ _ _) in H.
  assert (M1 : made w w1 [ASink d]).
  { constructor.
    - unfold known, w1. cbn [w_sys smap]. rewrite SysBase.find_assign. cbn. exact K.
    - exact (sink_numbered w d N).
    - reflexivity.
    - reflexivity.
    - intros [|[|j]] d' ks E1 E2; cbn in E1; inversion E1; subst; discriminate.
    - intros _ _. constructor; [|constructor]. intros z E. cbn in E. inversion E; subst. unfold sane_sizes, sane_number. cbn. repeat split; discriminate. }
  destruct (world_call ord fuel dbg (MakeGroup "*" None (Some "console") (Some lv)) w1) as [w2 r2] eqn:E2.
  assert (w' = w2) by (destruct r2; inversion H; reflexivity). subst w2. clear H.
  exists ([ASink d] ++ [ACall (MakeGroup "*" None (Some "console") (Some lv))]). apply made_app with w1; [exact M1|].
  pose proof (m_known _ _ _ M1) as K1. pose proof (m_numbered _ _ _ M1) as [N1 N2].
  apply (f_equal fst) in E2. cbn [fst] in E2.
  assert (S2 : w_sys w' = fst (step ord fuel dbg (w_sys w1) (MakeGroup "*" None (Some "console") (Some lv)))) by (rewrite <- E2; apply fst_call).
  assert (L2 : w_log w' = w_log w1 ++ [ACall (MakeGroup "*" None (Some "console") (Some lv))]).
  { rewrite <- E2. unfold world_call. destruct (step ord fuel dbg (w_sys w1) _). reflexivity. }
  clear E2. clearbody w1. destruct (make_effect ord fuel dbg (w_sys w1) "*" None (Some "console") (Some lv)) as [E|(X & EX & E)]; rewrite E in S2.
  - constructor; try (unfold known; rewrite S2); auto; try (rewrite S2); [now split|cbn; now rewrite app_nil_r|intros [|j]; discriminate|constructor].
  - constructor; auto.
    + unfold known. rewrite S2. exact K1.
    + rewrite S2. unfold register. split; cbn [gmap smap groups sinks with_gmap with_groups]; [|exact N2].
      intros m i. rewrite SysBase.find_assign, app_length. cbn [length]. destruct (String.eqb m "*") eqn:Em; [intros Q; assert (i = List.length (groups (w_sys w1))) by congruence; lia|].
      destruct (find (gmap (w_sys w1)) "*"); [|rewrite SysBase.find_assign, Em]; intros Q; apply N1 in Q; lia.
    + rewrite S2. cbn. now rewrite app_nil_r.
    + intros [|j]; discriminate.
    + constructor.
Qed.

Theorem made_by c : configures L ord fuel dbg c -> forall w w' r, known w "*" -> numbered (w_sys w) -> c w = (w', r) -> exists l, made w w' l.
Proof.
  induction 1 as [lv color|src|c src C IH]; intros w w' r K N H.
  - exact (made_fallback lv color w w' r K N H).
  - destruct (yaml_acts _ _ _ _ _ _ _ _ K H) as (l & A & _). exists l. exact (made_acts _ _ _ _ A K N).
  - destruct (c w) as [w1 r1] eqn:E1. destruct (IH w w1 r1 K N E1) as (l1 & M1). destruct r1 as [r1|e|].
    + rewrite (yaml_previous L ord fuel dbg c src w w1 r1 E1) in H. destruct (yaml L ord fuel dbg None src w1) as [w2 r2] eqn:E2.
      inversion H; subst. destruct (yaml_acts _ _ _ _ _ _ _ _ (m_known _ _ _ M1) E2) as (l2 & A & _). exists (l1 ++ l2).
      apply made_app with w1; [exact M1|]. exact (made_acts _ _ _ _ A (m_known _ _ _ M1) (m_numbered _ _ _ M1)).
    + rewrite (yaml_previous_fails L ord fuel dbg c src w w1 _ E1) in H by discriminate. inversion H; subst. eauto.
    + rewrite (yaml_previous_fails L ord fuel dbg c src w w1 _ E1) in H by discriminate. inversion H; subst. eauto.
Qed.

(** From the system as it is created. *)
Theorem sinks_made c busy w' r : configures L ord fuel dbg c -> c (before_configure busy) = (w', r) ->
  sinks (w_sys w') = "*" :: map d_name (sinks_of (w_log w')) /\
  (forall j d ks, nth_error (sinks_of (w_log w')) j = Some d -> d_kind d = KMulti ks -> Forall (fun k => k < 1 + j) ks) /\
  (usual_lib L -> refuses_huge_buffers L -> Forall (fun d => forall z, sizes_of d = Some z -> sane_sizes L z) (sinks_of (w_log w'))).
Proof.
  intros C E. destruct (made_by c C (before_configure busy) w' r) as (l & M); [discriminate| |exact E|].
  - split; intros m i; [discriminate|]. cbn [before_configure w_sys with_configured smap init find sinks List.length]. destruct (String.eqb "*" m); intros Q; [assert (i = 0) by congruence; lia|discriminate].
  - pose proof (m_log _ _ _ M) as W. cbn [before_configure w_log List.app] in W. rewrite W.
    split; [exact (m_sinks _ _ _ M)|]. split; [exact (m_members _ _ _ M)|exact (m_sizes _ _ _ M)].
Qed.
End Configured.

(** ** All together *)
Section Final.
Variable lt : N -> RecordModel.tm.
Variable memory : EventModel.mem.
Variable address : N.
Variable fg_first : bool.
Variable ds : list sink_desc.
Variable op : nat -> bool.
Variable n : nat.
Variable ord : list nat -> list nat.
Variable dbg : bool.
Notation cfg_at := (cfg_at lt memory address fg_first ds).
Notation count := (count ds).
Notation xexec := (xexec lt memory address fg_first ds n ord dbg).
Notation xstart := (xstart lt memory address fg_first ds op n).
Variable L : lib.
Variable fuel : nat.
Hypothesis UL : usual_lib L.
Hypothesis RH : refuses_huge_buffers L.
Variable busy : bool.
Variable c : configurator.
Variable w' : world.
Variable r : res result.
Hypothesis HC : configures L ord fuel dbg c.
Hypothesis HE : c (before_configure busy) = (w', r).
Hypothesis HD : all_sinks L w' ds.

Lemma all_sane d z : In d ds -> sizes_of d = Some z -> sane_sizes L z.
Proof.
  intros Hd Hz. destruct (sinks_made L ord fuel dbg c busy w' r HC HE) as (_ & _ & S). specialize (S UL RH).
  rewrite Forall_forall in S. destruct HD as (later & -> & SL & _). apply in_app_or in Hd. destruct Hd as [Hd|Hd]; [exact (S d Hd z Hz)|exact (SL d z Hd Hz)].
Qed.

Lemma all_caps id : 1 <= SinkModel.c_cap (cfg_at id).
Proof.
  assert (G : forall k F r, (1 <= N.of_nat (EndModel.f_capacity F))%N -> 1 <= SinkModel.c_cap (leaf_cfg k id F r)).
  { intros k F r0 H. cbn [leaf_cfg SinkModel.c_cap EndModel.file_sink]. lia. }
  assert (G0 : forall k lv ti z r, (forall c, z_capacity z = Some c -> (4 <= c)%N) -> 1 <= SinkModel.c_cap (leaf_cfg k id (file_settings lt memory address lv ti z) r)).
  { intros k lv ti z r0 H. apply G. unfold file_settings. cbn [EndModel.f_capacity]. rewrite N2Nat.id. destruct (z_capacity z) as [c0|] eqn:Hc; cbn [or_default];
    [specialize (H c0 eq_refl); lia|unfold file_capacity_default; lia]. }
  assert (G1 : forall k lv ti z r, (forall c, z_capacity z = Some c -> (4 <= c)%N) -> 1 <= SinkModel.c_cap (leaf_cfg k id (console_settings lt memory address lv ti z) r)).
  { intros k lv ti z r0 H. apply G. unfold console_settings. cbn [EndModel.f_capacity]. rewrite N2Nat.id. destruct (z_capacity z) as [c0|] eqn:Hc; cbn [or_default];
    [specialize (H c0 eq_refl); lia|unfold console_capacity_default; lia]. }
  assert (NO : forall c : N, z_capacity (mkSizes None None None None) = Some c -> (4 <= c)%N) by discriminate.
  unfold DeployModel.cfg_at. destruct id as [|j]; [apply G0, NO|]. destruct (nth_error ds j) as [d|] eqn:Ej; [|apply G0, NO].
  assert (C : forall z, sizes_of d = Some z -> forall c, z_capacity z = Some c -> (4 <= c)%N).
  { intros z Hz c0 Hc. destruct (all_sane d z (nth_error_In _ _ Ej) Hz) as (S & _). unfold sane_number in S. apply (S c0 Hc). }
  unfold sizes_of in C. destruct (d_kind d); [apply G1|apply G0|apply G0|apply G0, NO]; exact (C _ eq_refl).
Qed.

Lemma all_sok : platform_ok L lt address -> forall d path ti z, In d ds -> d_kind d = KFile path ti z \/ d_kind d = KSyslog path ti z ->
  EndSpec.settings_ok (the_file lt memory address d ti z).
Proof.
  intros (P1 & P2 & P3) d path ti z Hd Hk.
  assert (Hz : sizes_of d = Some z) by (unfold sizes_of; destruct Hk as [-> | ->]; reflexivity).
  destruct (all_sane d z Hd Hz) as (S1 & S2 & S3 & _). unfold EndSpec.settings_ok, the_file, file_settings.
  cbn [EndModel.f_max EndModel.f_buffer EndModel.f_address EndModel.f_localtime EndModel.f_capacity]. rewrite N2Nat.id.
  assert (M : (64 <= or_default (z_message z) file_max_message_default < 2 ^ 31)%N).
  { destruct (z_message z) as [m|] eqn:Hm; cbn [or_default]; [exact (S2 m eq_refl)|unfold file_max_message_default; lia]. }
  assert (B : (416 <= or_default (z_buffer z) file_buffer_default)%N).
  { destruct (z_buffer z) as [b|] eqn:Hb; cbn [or_default]; [|unfold file_buffer_default; lia].
    specialize (S3 b eq_refl). unfold EventModel.sizeof_Event in P3. lia. }
  assert (C : (4 <= or_default (z_capacity z) file_capacity_default)%N).
  { destruct (z_capacity z) as [x|] eqn:Hx; cbn [or_default]; [exact (proj1 (S1 x eq_refl))|unfold file_capacity_default; lia]. }
  repeat split; try lia; auto; apply P1.
Qed.

Theorem final_read_back s0 ms x tr j d path ti z u :
  xexec (xstart s0) ms = Some (x, tr) ->
  nth_error ds j = Some d -> d_kind d = KFile path ti z -> z_latency z <> Some 0%N -> op (S j) = true ->
  In (SinkModel.LDestroyed u) (in_sink (S j) tr) -> platform_ok L lt address ->
  (forall t g Lg e, In (DSaid t g Lg e) tr ->
     EndSpec.call_ok (logged_at (S j) (named Lg e)) /\ EndSpec.legible (logged_at (S j) (named Lg e))) ->
  let F := file_settings lt memory address (d_level d) ti z in
  EndModel.f_thread F = ti /\ EndModel.f_localtime F = lt /\
  EndModel.f_max F = N.to_nat (match z_message z with Some m => m | None => 1024 end) /\
  exists runs : list (list (nat * said)),
    List.length runs = 1 + SinkSpec.fresh_files (in_sink (S j) tr) /\
    map (EndSpec.read_file F) (SinkSpec.disk (FullModel.rest (sleaf (x_pool x) (S j)))) =
      map (map (fun x => EndSpec.reads F (logged_at (S j) (snd x)))) runs /\
    Forall (fun x => 1 <= fst x <= n) (concat runs) /\
    forall t, 1 <= t <= n ->
      map snd (filter (fun x => Nat.eqb (fst x) t) (concat runs)) = flat_map (brings ds (S j)) (said_by t tr).
Proof. intros X Ej Ek HL HO HI PO. exact (xany_read_back lt memory address fg_first ds op n ord dbg all_caps (all_sok PO) s0 ms x tr j d path ti z u X Ej Ek HL HO HI). Qed.

Theorem final_read_back_crash s0 ms x tr j d path ti z :
  xexec (xstart s0) ms = Some (x, tr) ->
  nth_error ds j = Some d -> d_kind d = KFile path ti z -> op (S j) = true -> platform_ok L lt address ->
  (forall t g Lg e, In (DSaid t g Lg e) tr ->
     EndSpec.call_ok (logged_at (S j) (named Lg e)) /\ EndSpec.legible (logged_at (S j) (named Lg e))) ->
  let F := file_settings lt memory address (d_level d) ti z in
  EndModel.f_thread F = ti /\ EndModel.f_localtime F = lt /\
  EndModel.f_max F = N.to_nat (match z_message z with Some m => m | None => 1024 end) /\
  exists lines : list (nat * said),
    flat_map (EndSpec.read_file F) (SinkSpec.disk (FullModel.rest (sleaf (x_pool x) (S j)))) =
      map (fun x => EndSpec.reads F (logged_at (S j) (snd x))) lines /\
    Forall (fun x => 1 <= fst x <= n) lines /\
    forall t, 1 <= t <= n ->
      SinkSpec.is_prefix (map snd (filter (fun x => Nat.eqb (fst x) t) lines)) (flat_map (brings ds (S j)) (said_by t tr)).
Proof. intros X Ej Ek HO PO. exact (xany_read_back_crash lt memory address fg_first ds op n ord dbg all_caps (all_sok PO) s0 ms x tr j d path ti z X Ej Ek HO). Qed.

Theorem final_console s0 ms x tr j d st color ti z u :
  xexec (xstart s0) ms = Some (x, tr) ->
  nth_error ds j = Some d -> d_kind d = KConsole st color ti z -> z_latency z <> Some 0%N -> op (S j) = true ->
  In (SinkModel.LDestroyed u) (in_sink (S j) tr) ->
  let F := console_settings lt memory address (d_level d) ti z in
  EndModel.f_thread F = ti /\ EndModel.f_localtime F = lt /\
  EndModel.f_max F = N.to_nat (match z_message z with Some m => m | None => 1024 end) /\
  exists lines : list (nat * said),
    concat (SinkSpec.files (FullModel.rest (sleaf (x_pool x) (S j)))) =
      concat (map (fun x => console_record lt fg_first color F (logged_at (S j) (snd x))) lines) /\
    Forall (fun x => 1 <= fst x <= n) lines /\
    forall t, 1 <= t <= n -> map snd (filter (fun x => Nat.eqb (fst x) t) lines) = flat_map (brings ds (S j)) (said_by t tr).
Proof. exact (xany_console lt memory address fg_first ds op n ord dbg all_caps s0 ms x tr j d st color ti z u). Qed.

(** What of it can be read on a terminal. *)
Lemma console_sok d st color ti z : platform_ok L lt address -> In d ds -> d_kind d = KConsole st color ti z ->
  let F := console_settings lt memory address (d_level d) ti z in
  EndSpec.settings_ok F /\ (N.of_nat (EndModel.f_max F) + 161 <= N.max (EndModel.f_buffer F) (2 * N.of_nat (EndModel.f_max F)))%N.
Proof.
  intros (P1 & P2 & P3) Hd Hk F.
  assert (Hz : sizes_of d = Some z) by (unfold sizes_of; now rewrite Hk).
  destruct (all_sane d z Hd Hz) as (S1 & S2 & S3 & _). unfold EndSpec.settings_ok, F, console_settings.
  cbn [EndModel.f_max EndModel.f_buffer EndModel.f_address EndModel.f_localtime EndModel.f_capacity]. rewrite N2Nat.id.
  assert (M : (64 <= or_default (z_message z) console_max_message_default < 2 ^ 31)%N).
  { destruct (z_message z) as [m|] eqn:Hm; cbn [or_default]; [exact (S2 m eq_refl)|unfold console_max_message_default; lia]. }
  assert (B : (416 <= or_default (z_buffer z) console_buffer_default)%N).
  { destruct (z_buffer z) as [b|] eqn:Hb; cbn [or_default]; [|unfold console_buffer_default; lia].
    specialize (S3 b eq_refl). unfold EventModel.sizeof_Event in P3. lia. }
  assert (C : (4 <= or_default (z_capacity z) console_capacity_default)%N).
  { destruct (z_capacity z) as [x|] eqn:Hx; cbn [or_default]; [exact (proj1 (S1 x eq_refl))|unfold console_capacity_default; lia]. }
  repeat split; try lia; auto; apply P1.
Qed.

Theorem final_console_read s0 ms x tr j d st color ti z u :
  xexec (xstart s0) ms = Some (x, tr) ->
  nth_error ds j = Some d -> d_kind d = KConsole st color ti z -> z_latency z <> Some 0%N -> op (S j) = true ->
  In (SinkModel.LDestroyed u) (in_sink (S j) tr) -> platform_ok L lt address ->
  (forall t g Lg e, In (DSaid t g Lg e) tr ->
     EndSpec.call_ok (logged_at (S j) (named Lg e)) /\ EndSpec.legible (logged_at (S j) (named Lg e)) /\
     (color = true -> ConsoleSpec.paintable (logged_at (S j) (named Lg e)))) ->
  let F := console_settings lt memory address (d_level d) ti z in
  exists lines : list (nat * said),
    EndSpec.read_file F (ConsoleSpec.on_terminal color (concat (SinkSpec.files (FullModel.rest (sleaf (x_pool x) (S j)))))) =
      map (fun x => EndSpec.reads F (logged_at (S j) (snd x))) lines /\
    Forall (fun x => 1 <= fst x <= n) lines /\
    forall t, 1 <= t <= n -> map snd (filter (fun x => Nat.eqb (fst x) t) lines) = flat_map (brings ds (S j)) (said_by t tr).
Proof.
  intros X Ej Ek HL HO HI PO SC F.
  destruct (final_console s0 ms x tr j d st color ti z u X Ej Ek HL HO HI) as (_ & _ & _ & lines & E1 & E2 & E3).
  exists lines. split; [|split; [exact E2|exact E3]].
  destruct (console_sok d st color ti z PO (nth_error_In _ _ Ej) Ek) as [SO RM]. fold F in SO, RM, E1.
  rewrite E1, <- (map_map (fun x => logged_at (S j) (snd x)) (console_record lt fg_first color F)),
    <- (map_map (fun x => logged_at (S j) (snd x)) (EndSpec.reads F)).
  apply (ConsoleRead.console_read F fg_first SO RM color). apply Forall_map. rewrite Forall_forall in *. intros [t e] Hx.
  specialize (E2 _ Hx). cbn [fst snd] in *. specialize (E3 t E2).
  assert (Hi : In e (flat_map (brings ds (S j)) (said_by t tr))).
  { rewrite <- E3. apply in_map_iff. exists (t, e). split; [reflexivity|]. apply filter_In. split; [exact Hx|]. apply Nat.eqb_refl. }
  apply in_flat_map in Hi. destruct Hi as (y & Y1 & Y2). rewrite (DeployProofs.in_brings _ _ _ _ Y2). eapply SC. apply DeployProofs.in_said. exact Y1.
Qed.

Theorem final_syslog s0 ms x tr j d ident ti z u sent :
  xexec (xstart s0) ms = Some (x, tr) ->
  nth_error ds j = Some d -> d_kind d = KSyslog ident ti z -> z_latency z <> Some 0%N -> op (S j) = true ->
  In (SinkModel.LDestroyed u) (in_sink (S j) tr) -> platform_ok L lt address ->
  (forall t g Lg e, In (DSaid t g Lg e) tr -> EndSpec.call_ok (logged_at (S j) (named Lg e))) ->
  let F := file_settings lt memory address (d_level d) ti z in
  SyslogRunModel.received (logged_at (S j)) F (in_sink (S j) tr) = Some sent ->
  exists lines : list (nat * said),
    map fst sent = flat_map (fun x => SyslogRunSpec.urgency (logged_at (S j) (snd x))) lines /\
    Forall (fun x => 1 <= fst x <= n) lines /\
    forall t, 1 <= t <= n -> map snd (filter (fun x => Nat.eqb (fst x) t) lines) = flat_map (brings ds (S j)) (said_by t tr).
Proof. intros X Ej Ek HL HO HI PO. exact (xany_syslog lt memory address fg_first ds op n ord dbg all_caps (all_sok PO) s0 ms x tr j d ident ti z u sent X Ej Ek HL HO HI). Qed.

Theorem final_syslog_texts s0 ms x tr j d ident ti z u sent :
  xexec (xstart s0) ms = Some (x, tr) ->
  nth_error ds j = Some d -> d_kind d = KSyslog ident ti z -> z_latency z <> Some 0%N -> op (S j) = true ->
  In (SinkModel.LDestroyed u) (in_sink (S j) tr) -> platform_ok L lt address ->
  let F := file_settings lt memory address (d_level d) ti z in
  (forall t g Lg e, In (DSaid t g Lg e) tr -> SyslogRunSpec.sendable F (logged_at (S j) (named Lg e))) ->
  SyslogRunModel.received (logged_at (S j)) F (in_sink (S j) tr) = Some sent ->
  exists flushed : list (list (nat * said)),
    sent = flat_map (fun xs => match xs with
                               | [] => []
                               | x :: _ => map (fun p => (p, SyslogRunSpec.tells F (logged_at (S j) (snd x))))
                                               (flat_map (fun y => SyslogRunSpec.urgency (logged_at (S j) (snd y))) xs)
                               end) flushed /\
    Forall (fun x => 1 <= fst x <= n) (concat flushed) /\
    forall t, 1 <= t <= n ->
      map snd (filter (fun x => Nat.eqb (fst x) t) (concat flushed)) = flat_map (brings ds (S j)) (said_by t tr).
Proof. intros X Ej Ek HL HO HI PO. exact (xany_syslog_texts lt memory address fg_first ds op n ord dbg all_caps (all_sok PO) s0 ms x tr j d ident ti z u sent X Ej Ek HL HO HI). Qed.

(** With everything said so far in the files, the program can end. *)
Theorem final_ends_complete s0 ms x tr : open_ok ds op -> 1 <= n -> xexec (xstart s0) ms = Some (x, tr) ->
    platform_ok L lt address ->
    (forall t g Lg e id, In (DSaid t g Lg e) tr ->
       EndSpec.call_ok (logged_at id (named Lg e)) /\ EndSpec.legible (logged_at id (named Lg e))) ->
  exists pms x' l, Forall PoolSpec.closing pms /\ xexec x (DEnd :: map DPool pms) = Some (x', l) /\
    (forall t, said_by t l = []) /\
    forall j d path ti z, nth_error ds j = Some d -> d_kind d = KFile path ti z -> z_latency z <> Some 0%N -> op (S j) = true ->
      let F := file_settings lt memory address (d_level d) ti z in
      exists runs : list (list (nat * said)),
        map (EndSpec.read_file F) (SinkSpec.disk (FullModel.rest (sleaf (x_pool x') (S j)))) =
          map (map (fun x => EndSpec.reads F (logged_at (S j) (snd x)))) runs /\
        Forall (fun x => 1 <= fst x <= n) (concat runs) /\
        forall t, 1 <= t <= n ->
          map snd (filter (fun x => Nat.eqb (fst x) t) (concat runs)) = flat_map (brings ds (S j)) (said_by t tr).
Proof.
  intros OK Hn X PO SC.
  destruct (any_ends lt memory address fg_first ds op n ord dbg all_caps OK s0 ms x tr Hn X) as (pms & x' & l & C1 & C2 & C3 & _ & C5).
  exists pms, x', l. split; [exact C1|]. split; [exact C2|]. split; [exact C3|].
  intros j d path ti z Ej Ek Hz Ho F.
  assert (Hid : S j < count) by (unfold DeployModel.count; apply -> Nat.succ_lt_mono; apply nth_error_Some; congruence).
  destruct (C5 (S j) Hid) as (u & Hu).
  assert (X' : xexec (xstart s0) (ms ++ DEnd :: map DPool pms) = Some (x', tr ++ l))
    by (rewrite (xexec_app lt memory address fg_first ds n ord dbg ms _ _ _ _ X), C2; reflexivity).
  assert (SC' : forall t g Lg e, In (DSaid t g Lg e) (tr ++ l) -> EndSpec.call_ok (logged_at (S j) (named Lg e)) /\ EndSpec.legible (logged_at (S j) (named Lg e))).
  { intros t g Lg e He. apply in_app_or in He. destruct He as [He|He]; [apply (SC t g Lg e (S j) He)|].
    exfalso. assert (In (g, Lg, e) (said_by t l)) as Hi; [|rewrite C3 in Hi; exact Hi].
    unfold said_by. apply in_flat_map. exists (DSaid t g Lg e). split; [exact He|]. rewrite Nat.eqb_refl. now left. }
  destruct (final_read_back s0 _ x' (tr ++ l) j d path ti z u X' Ej Ek Hz Ho Hu PO SC') as (_ & _ & _ & runs & _ & R2 & R3 & R4).
  exists runs. split; [exact R2|]. split; [exact R3|]. intros t Ht. rewrite (R4 t Ht), said_app, C3, app_nil_r. reflexivity.
Qed.

Theorem final_calls_return s0 ms x tr k more x' l : open_ok ds op -> xexec (xstart s0) ms = Some (x, tr) ->
  srounds count cfg_at n k (x_pool x) more -> 40 * (senough count cfg_at n (x_pool x) + 101 * length (filter PoolSpec.weak more)) <= k ->
  xexec x (map DPool more) = Some (x', l) -> forall t, 1 <= t <= n -> sresting count (x_pool x') t.
Proof. intros OK. exact (any_calls_return lt memory address fg_first ds op n ord dbg all_caps OK s0 ms x tr k more x' l). Qed.
Theorem final_defined s0 ms : exists x tr, xexec (xstart s0) ms = Some (x, tr).
Proof. exact (xdefined lt memory address fg_first ds op n ord dbg all_caps s0 ms). Qed.

Theorem final_call_begins s0 ms x tr t i Lg e k G : xexec (xstart s0) ms = Some (x, tr) -> x_up x = true ->
  (forall d, In d ds -> d_kind d <> KMulti []) -> 1 <= t <= n -> sresting count (x_pool x) t ->
  nth_error (loggers (x_sys x)) i = Some Lg -> l_alive Lg = true -> l_sink Lg = Some k ->
  nth_error (groups (x_sys x)) (l_group Lg) = Some G ->
  exists x' l, xstep lt memory address fg_first ds n ord dbg x (DLog t i e) = Some (x', l) /\ said_by t l = [(g_name G, Lg, e)].
Proof.
  intros X HU HM Ht [R1 R2] EL EA EK EG.
  destruct (stack lt memory address fg_first ds op n ord dbg all_caps s0 ms) as (x2 & tr2 & ms' & s & X2 & D2 & _ & A & B & T & _ & F & H).
  rewrite X in X2. inversion X2; subst x2 tr2. clear X2.
  destruct (H (DLog t i e)) as [x' H']; [discriminate|]. exists x'. eexists. split; [exact H'|].
  apply (DeployProofs.call_begins lt memory address fg_first ds op n ord dbg s0 ms' s tr t i Lg e k G D2); try congruence; auto.
  assert (Z : forall id, id < count -> PoolModel.free_in (FullModel.outside (sleaf (x_pool x) id)) t = true).
  { intros id Hid. unfold PoolModel.free_in, FullModel.outside. cbn [SinkModel.thr]. rewrite nth_error_map. destruct (R2 id Hid) as [-> | ->]; reflexivity. }
  split; [rewrite <- T; exact R1|]. intros id Hid. specialize (Z id Hid). rewrite F in Z. exact Z.
Qed.

Theorem final_flush_begins s0 ms x tr t k : xexec (xstart s0) ms = Some (x, tr) -> x_up x = true ->
  1 <= t <= n -> sresting count (x_pool x) t -> k < List.length (sinks (x_sys x)) ->
  (exists x', xstep lt memory address fg_first ds n ord dbg x (DFlush t k) = Some (x', [DIn (PoolModel.PStart t (PoolModel.OFlush (tree_at ds k)))])) /\
  (exists x', xstep lt memory address fg_first ds n ord dbg x (DRotate t k) = Some (x', [DIn (PoolModel.PStart t (PoolModel.ORotate (tree_at ds k)))])).
Proof.
  intros X HU Ht [R1 R2] HK.
  destruct (stack lt memory address fg_first ds op n ord dbg all_caps s0 ms) as (x2 & tr2 & ms' & s & X2 & D2 & _ & A & B & T & _ & F & H).
  rewrite X in X2. inversion X2; subst x2 tr2. clear X2.
  assert (Z : forall id, id < count -> PoolModel.free_in (FullModel.outside (sleaf (x_pool x) id)) t = true).
  { intros id Hid. unfold PoolModel.free_in, FullModel.outside. cbn [SinkModel.thr]. rewrite nth_error_map. destruct (R2 id Hid) as [-> | ->]; reflexivity. }
  assert (RE : PoolSpec.resting count (d_pool s) t).
  { split; [rewrite <- T; exact R1|]. intros id Hid. specialize (Z id Hid). rewrite F in Z. exact Z. }
  destruct (DeployProofs.flush_begins lt memory address fg_first ds op n ord dbg s0 ms' s tr t k D2 ltac:(congruence) Ht RE ltac:(congruence)) as [E1 E2].
  split.
  - destruct (H (DFlush t k)) as [x' H']; [discriminate|]. exists x'. rewrite H', E1. reflexivity.
  - destruct (H (DRotate t k)) as [x' H']; [discriminate|]. exists x'. rewrite H', E2. reflexivity.
Qed.

Theorem final_warning s0 ms x tr t y g kn lv e i G : xexec (xstart s0) ms = Some (x, tr) -> x_up x = true ->
  (forall d, In d ds -> d_kind d <> KMulti []) -> 1 <= t <= n -> sresting count (x_pool x) t ->
  configured (x_sys x) = true -> live (x_sys x) y = None ->
  (g = "*"%string /\ dbg = false \/ g <> "*"%string /\ find (gmap (x_sys x)) g = None) ->
  find (gmap (x_sys x)) "*"%string = Some i -> nth_error (groups (x_sys x)) i = Some G -> g_sink G <> None ->
  exists x' l Lw e', xstep lt memory address fg_first ds n ord dbg x (DGet t y g kn lv e) = Some (x', l) /\
    said_by t l = [(g_name G, Lw, e')] /\ l_name Lw = "Soralog"%string /\ l_level Lw = g_level G /\ l_sink Lw = g_sink G /\
    x_level e' = WARN /\ x_result e' = EventModel.FmtOk (bs (complaint y g (g_name G))).
Proof.
  intros X HU HM Ht [R1 R2] HCf HL HG HI EGr ES.
  destruct (stack lt memory address fg_first ds op n ord dbg all_caps s0 ms) as (x2 & tr2 & ms' & s & X2 & D2 & _ & A & B & T & _ & F & H).
  rewrite X in X2. inversion X2; subst x2 tr2. clear X2.
  destruct (H (DGet t y g kn lv e)) as [x' H']; [discriminate|].
  set (Lw := l_construct "Soralog"%string i G).
  assert (EW : warning dbg (d_sys s) y g = Some (Lw, G, complaint y g (g_name G))).
  { rewrite <- A. unfold warning, complaint, DeployModel.by_fallback. rewrite HCf, HL, HI, EGr. cbn [negb]. destruct (g_sink G); [|congruence].
    destruct HG as [[-> ->]|[Hg HF]]; [reflexivity|]. apply String.eqb_neq in Hg. rewrite Hg, HF. reflexivity. }
  assert (LK : l_sink Lw = g_sink G /\ l_level Lw = g_level G /\ l_name Lw = "Soralog"%string).
  { unfold Lw, l_construct, l_level_from, l_sink_from. destruct (g_sink G) eqn:Q; cbn [l_sink l_level l_name]; auto. }
  destruct LK as (K1 & K2 & K3). destruct (g_sink G) as [k|] eqn:EK; [|congruence].
  exists x'. eexists. exists Lw, (warned e (complaint y g (g_name G))). split; [exact H'|].
  assert (RE : PoolSpec.resting count (d_pool s) t).
  { assert (Z : forall id, id < count -> PoolModel.free_in (FullModel.outside (sleaf (x_pool x) id)) t = true).
    { intros id Hid. unfold PoolModel.free_in, FullModel.outside. cbn [SinkModel.thr]. rewrite nth_error_map. destruct (R2 id Hid) as [-> | ->]; reflexivity. }
    split; [rewrite <- T; exact R1|]. intros id Hid. specialize (Z id Hid). rewrite F in Z. exact Z. }
  destruct (DeployProofs.warning_begins lt memory address fg_first ds op n ord dbg s0 ms' s tr t y g kn lv e Lw G (complaint y g (g_name G)) k D2)
    as [_ B2]; auto; [congruence|]. split; [exact B2|]. rewrite K1. auto 6.
Qed.
End Final.
