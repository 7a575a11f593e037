(** * From the document to the files, with the circular buffers (C121) *)
From Coq Require Import Ascii String NArith ZArith List Arith Bool Lia.
From Verif Require Import Base LevelModel SinkConfig SysModel SysSpec YamlModel YamlSpec YamlActSpec DeployModel DeploySpec DeployProofs DeployEnd StackModel StackProofs.
From Verif Require EventModel RecordModel SinkModel SinkSpec FullModel PoolModel PoolSpec EndModel EndSpec SyslogRunModel SyslogRunSpec.
Import ListNotations.

Section Run.
Variable lt : N -> RecordModel.tm.
Variable memory : EventModel.mem.
Variable address : N.
Variable fg_first : bool.
Variable ds : list sink_desc.
Variable op : nat -> bool.
Variable n : nat.
Variable ord : list nat -> list nat.
Variable dbg : bool.
Notation cfg_at := (cfg_at lt memory address fg_first ds).
Notation xexec := (xexec lt memory address fg_first ds n ord dbg).
Notation xstart := (xstart lt memory address fg_first ds op n).

Variable L : lib.
Variable fuel : nat.
Hypothesis UL : usual_lib L.
Hypothesis RH : refuses_huge_buffers L.
Variable busy : bool.
Variable src : source.
Variable doc : node.
Variable w1 : world.
Variable gs : list gdecl.
Hypothesis D : document src doc.
Hypothesis DR : doc_read L false (before_configure busy) doc w1 gs.
Hypothesis ND : NoDup (map e_name (all_entries None gs)).
Hypothesis HD : ds = sinks_of (w_log w1).

Let caps id : 1 <= SinkModel.c_cap (cfg_at id) := doc_caps lt memory address fg_first ds L busy doc w1 gs DR HD id.

Theorem stack_defined s0 ms : exists x tr, xexec (xstart s0) ms = Some (x, tr).
Proof.
  destruct (stack lt memory address fg_first ds op n ord dbg caps s0 ms) as (x & tr & _ & _ & X & _). eauto.
Qed.

Theorem stack_covered s0 ms x tr : xexec (xstart s0) ms = Some (x, tr) ->
  exists ms' s, dexec lt memory address fg_first ds n ord dbg (dstart lt memory address fg_first ds op n s0) ms' = (s, tr) /\
    (forall P : dmove -> Prop, Forall P ms -> Forall P ms') /\ x_sys x = d_sys s /\ x_up x = d_up s /\
    (forall t, stodo (x_pool x) t = PoolModel.todo (d_pool s) t) /\
    (forall id, FullModel.rest (sleaf (x_pool x) id) = FullModel.strip (PoolModel.leaf (d_pool s) id)) /\
    (forall id t, PoolModel.free_in (FullModel.outside (sleaf (x_pool x) id)) t = PoolModel.free_in (PoolModel.leaf (d_pool s) id) t) /\
    (forall m, (forall m', m <> DPool m') -> exists x', xstep lt memory address fg_first ds n ord dbg x m =
       Some (x', snd (dstep lt memory address fg_first ds n ord dbg s m))).
Proof.
  intros X. destruct (stack lt memory address fg_first ds op n ord dbg caps s0 ms) as (x2 & tr2 & ms' & s & X2 & H). rewrite X in X2. inversion X2; subst. exists ms', s. exact H.
Qed.

Theorem stack_any_changes s0 ms x tr t id : xexec (xstart s0) ms = Some (x, tr) ->
  id < count ds -> 1 <= t <= n -> stodo (x_pool x) t = [] ->
  (forall id, id < count ds -> PoolModel.free_in (FullModel.outside (sleaf (x_pool x) id)) t = true) ->
  SinkSpec.accepted_by t (in_sink id tr) = flat_map (brings ds id) (said_by t tr).
Proof.
  intros X Hid Ht H1 H2. destruct (stack_covered _ _ _ _ X) as (ms' & s & R & _ & _ & _ & T & _ & F & _).
  apply (deployed lt memory address fg_first ds op n ord dbg s0 ms' s tr t id R Hid Ht). split; [rewrite <- T; exact H1|]. intros i Hi. rewrite <- F. now apply H2.
Qed.

Theorem stack_read_back w' ms x tr j d path ti z u :
  fst (yaml L ord fuel dbg None src (before_configure busy)) = w' -> Forall plain ms -> xexec (xstart (w_sys w')) ms = Some (x, tr) ->
  nth_error ds j = Some d -> d_kind d = KFile path ti z -> z_latency z <> Some 0%N -> op (S j) = true ->
  In (SinkModel.LDestroyed u) (in_sink (S j) tr) -> platform_ok L lt address ->
  (forall t g Lg e, In (DSaid t g Lg e) tr ->
     EndSpec.call_ok (logged_at (S j) (named Lg e)) /\ EndSpec.legible (logged_at (S j) (named Lg e))) ->
  let F := file_settings lt memory address (d_level d) ti z in
  EndModel.f_thread F = ti /\ EndModel.f_localtime F = lt /\
  EndModel.f_max F = N.to_nat (match z_message z with Some m => m | None => 1024 end) /\
  exists runs : list (list (nat * said)),
    List.length runs = 1 + SinkSpec.fresh_files (in_sink (S j) tr) /\
    map (EndSpec.read_file F) (SinkSpec.disk (FullModel.rest (sleaf (x_pool x) (S j)))) =
      map (map (fun x => EndSpec.reads F (logged_at (S j) (snd x)))) runs /\
    Forall (fun x => 1 <= fst x <= n) (concat runs) /\
    forall t, 1 <= t <= n ->
      map snd (filter (fun x => Nat.eqb (fst x) t) (concat runs)) = flat_map (due gs ds (S j)) (said_by t tr).
Proof.
  intros EY HP X Ej Ek HL HO HI PO SC F. destruct (stack_covered _ _ _ _ X) as (ms' & s & R & P & _ & _ & _ & Q & _). rewrite Q.
  exact (read_back lt memory address fg_first ds op n ord dbg L fuel UL RH busy src doc w1 gs D DR ND HD w' ms' s tr j d path ti z u EY (P _ HP) R Ej Ek HL HO HI PO SC).
Qed.

Theorem stack_read_back_crash w' ms x tr j d path ti z :
  fst (yaml L ord fuel dbg None src (before_configure busy)) = w' -> Forall plain ms -> xexec (xstart (w_sys w')) ms = Some (x, tr) ->
  nth_error ds j = Some d -> d_kind d = KFile path ti z -> op (S j) = true -> platform_ok L lt address ->
  (forall t g Lg e, In (DSaid t g Lg e) tr ->
     EndSpec.call_ok (logged_at (S j) (named Lg e)) /\ EndSpec.legible (logged_at (S j) (named Lg e))) ->
  let F := file_settings lt memory address (d_level d) ti z in
  EndModel.f_thread F = ti /\ EndModel.f_localtime F = lt /\
  EndModel.f_max F = N.to_nat (match z_message z with Some m => m | None => 1024 end) /\
  exists lines : list (nat * said),
    flat_map (EndSpec.read_file F) (SinkSpec.disk (FullModel.rest (sleaf (x_pool x) (S j)))) =
      map (fun x => EndSpec.reads F (logged_at (S j) (snd x))) lines /\
    Forall (fun x => 1 <= fst x <= n) lines /\
    forall t, 1 <= t <= n ->
      SinkSpec.is_prefix (map snd (filter (fun x => Nat.eqb (fst x) t) lines)) (flat_map (due gs ds (S j)) (said_by t tr)).
Proof.
  intros EY HP X Ej Ek HO PO SC F. destruct (stack_covered _ _ _ _ X) as (ms' & s & R & P & _ & _ & _ & Q & _). rewrite Q.
  exact (read_back_crash lt memory address fg_first ds op n ord dbg L fuel UL RH busy src doc w1 gs D DR ND HD w' ms' s tr j d path ti z EY (P _ HP) R Ej Ek HO PO SC).
Qed.

Theorem stack_console w' ms x tr j d st color ti z u :
  fst (yaml L ord fuel dbg None src (before_configure busy)) = w' -> Forall plain ms -> xexec (xstart (w_sys w')) ms = Some (x, tr) ->
  nth_error ds j = Some d -> d_kind d = KConsole st color ti z -> z_latency z <> Some 0%N -> op (S j) = true ->
  In (SinkModel.LDestroyed u) (in_sink (S j) tr) ->
  let F := console_settings lt memory address (d_level d) ti z in
  EndModel.f_thread F = ti /\ EndModel.f_localtime F = lt /\
  EndModel.f_max F = N.to_nat (match z_message z with Some m => m | None => 1024 end) /\
  exists lines : list (nat * said),
    concat (SinkSpec.files (FullModel.rest (sleaf (x_pool x) (S j)))) =
      concat (map (fun x => console_record lt fg_first color F (logged_at (S j) (snd x))) lines) /\
    Forall (fun x => 1 <= fst x <= n) lines /\
    forall t, 1 <= t <= n -> map snd (filter (fun x => Nat.eqb (fst x) t) lines) = flat_map (due gs ds (S j)) (said_by t tr).
Proof.
  intros EY HP X Ej Ek HL HO HI F. destruct (stack_covered _ _ _ _ X) as (ms' & s & R & P & _ & _ & _ & Q & _). rewrite Q.
  exact (console_out lt memory address fg_first ds op n ord dbg L fuel UL RH busy src doc w1 gs D DR ND HD w' ms' s tr j d st color ti z u EY (P _ HP) R Ej Ek HL HO HI).
Qed.

Theorem stack_syslog w' ms x tr j d ident ti z u sent :
  fst (yaml L ord fuel dbg None src (before_configure busy)) = w' -> Forall plain ms -> xexec (xstart (w_sys w')) ms = Some (x, tr) ->
  nth_error ds j = Some d -> d_kind d = KSyslog ident ti z -> z_latency z <> Some 0%N -> op (S j) = true ->
  In (SinkModel.LDestroyed u) (in_sink (S j) tr) -> platform_ok L lt address ->
  (forall t g Lg e, In (DSaid t g Lg e) tr -> EndSpec.call_ok (logged_at (S j) (named Lg e))) ->
  let F := file_settings lt memory address (d_level d) ti z in
  SyslogRunModel.received (logged_at (S j)) F (in_sink (S j) tr) = Some sent ->
  exists lines : list (nat * said),
    map fst sent = flat_map (fun x => SyslogRunSpec.urgency (logged_at (S j) (snd x))) lines /\
    Forall (fun x => 1 <= fst x <= n) lines /\
    forall t, 1 <= t <= n -> map snd (filter (fun x => Nat.eqb (fst x) t) lines) = flat_map (due gs ds (S j)) (said_by t tr).
Proof.
  intros EY HP X Ej Ek HL HO HI PO SC F. destruct (stack_covered _ _ _ _ X) as (ms' & s & R & P & _).
  exact (syslog_out lt memory address fg_first ds op n ord dbg L fuel UL RH busy src doc w1 gs D DR ND HD w' ms' s tr j d ident ti z u sent EY (P _ HP) R Ej Ek HL HO HI PO SC).
Qed.

Theorem stack_syslog_texts w' ms x tr j d ident ti z u sent :
  fst (yaml L ord fuel dbg None src (before_configure busy)) = w' -> Forall plain ms -> xexec (xstart (w_sys w')) ms = Some (x, tr) ->
  nth_error ds j = Some d -> d_kind d = KSyslog ident ti z -> z_latency z <> Some 0%N -> op (S j) = true ->
  In (SinkModel.LDestroyed u) (in_sink (S j) tr) -> platform_ok L lt address ->
  let F := file_settings lt memory address (d_level d) ti z in
  (forall t g Lg e, In (DSaid t g Lg e) tr -> SyslogRunSpec.sendable F (logged_at (S j) (named Lg e))) ->
  SyslogRunModel.received (logged_at (S j)) F (in_sink (S j) tr) = Some sent ->
  exists flushed : list (list (nat * said)),
    sent = flat_map (fun xs => match xs with
                               | [] => []
                               | x :: _ => map (fun p => (p, SyslogRunSpec.tells F (logged_at (S j) (snd x))))
                                               (flat_map (fun y => SyslogRunSpec.urgency (logged_at (S j) (snd y))) xs)
                               end) flushed /\
    Forall (fun x => 1 <= fst x <= n) (concat flushed) /\
    forall t, 1 <= t <= n ->
      map snd (filter (fun x => Nat.eqb (fst x) t) (concat flushed)) = flat_map (due gs ds (S j)) (said_by t tr).
Proof.
  intros EY HP X Ej Ek HL HO HI PO F SC. destruct (stack_covered _ _ _ _ X) as (ms' & s & R & P & _).
  exact (syslog_texts lt memory address fg_first ds op n ord dbg L fuel UL RH busy src doc w1 gs D DR ND HD w' ms' s tr j d ident ti z u sent EY (P _ HP) R Ej Ek HL HO HI PO SC).
Qed.

Theorem stack_call_begins w' ms x tr t i Lg e :
  fst (yaml L ord fuel dbg None src (before_configure busy)) = w' -> Forall plain ms -> xexec (xstart (w_sys w')) ms = Some (x, tr) ->
  x_up x = true -> (forall d, In d ds -> d_kind d <> KMulti []) -> 1 <= t <= n ->
  stodo (x_pool x) t = [] -> (forall id, id < count ds -> PoolModel.free_in (FullModel.outside (sleaf (x_pool x) id)) t = true) ->
  nth_error (loggers (x_sys x)) i = Some Lg -> l_alive Lg = true ->
  exists x' l g, xstep lt memory address fg_first ds n ord dbg x (DLog t i e) = Some (x', l) /\
    said_by t l = [(g, Lg, e)] /\ group_settings gs g <> None.
Proof.
  intros EY HP X HU HM Ht H1 H2 EL EA. destruct (stack_covered _ _ _ _ X) as (ms' & s & R & P & A & B & T & _ & F & G).
  destruct (doc_call_begins lt memory address fg_first ds op n ord dbg L fuel UL RH busy src doc w1 gs D DR ND HD w' ms' s tr t i Lg e EY (P _ HP) R) as (g & G1 & G2).
  - congruence.
  - exact HM.
  - exact Ht.
  - split; [rewrite <- T; exact H1|]. intros id Hid. rewrite <- F. now apply H2.
  - congruence.
  - exact EA.
  - destruct (G (DLog t i e)) as [x' G3]; [discriminate|]. exists x'. eexists. exists g. split; [exact G3|]. auto.
Qed.
End Run.
