(** * Property C126: whatever configures the system, whatever is changed

    [configures]: the configurators of the library (the fallback, documents with or without
    problems, documents on top of each other).  [ds]: the sinks they made, and the ones that the
    program makes itself later ([all_sinks]).  [xexec]: executions of the whole library, circular
    buffers included (C121); the program may call every function of the system meanwhile.  [brings ds id]: what a call is to bring to
    leaf sink [id] by the level and the sink of its logger at that moment. *)

From Coq Require Import Ascii String NArith Arith List Bool Lia.
From Verif Require Import Base LevelModel SinkConfig SysModel SysSpec SysWitness YamlModel YamlSpec YamlActSpec YamlWitness
  DeployModel DeploySpec DeployWitness StackModel StackFairSpec AnySpec AnyReplay AnyDoc ConsoleSpec.
From Verif Require EventModel RecordModel RecordSpec SinkModel SinkSpec FullModel PoolModel PoolSpec EndModel EndSpec SyslogRunModel SyslogRunSpec AnyWarn AnyLater.
Import ListNotations.

(** The sinks have the numbers in the system that they have in [ds], from 1; number 0 is the null
    sink; the members of a composite were made before it. *)
Theorem C126_sinks :
  forall L ord fuel dbg c busy w' r, configures L ord fuel dbg c -> c (before_configure busy) = (w', r) ->
    sinks (w_sys w') = "*"%string :: map d_name (sinks_of (w_log w')) /\
    forall j d ks, nth_error (sinks_of (w_log w')) j = Some d -> d_kind d = KMulti ks -> Forall (fun k => k < 1 + j) ks.
Proof. intros L ord fuel dbg c busy w' r C E. destruct (sinks_made L ord fuel dbg c busy w' r C E) as (A & B & _). exact (conj A B). Qed.
Print Assumptions C126_sinks.

(** And it stays so: at every moment the sinks of the system are the first of [ds], all of the
    configuration among them, and the next one can be made. *)
Theorem C126_sinks_made :
  forall lt memory address fg_first ds op n ord dbg L fuel busy c w' r,
  configures L ord fuel dbg c -> c (before_configure busy) = (w', r) -> all_sinks L w' ds ->
  forall ms x tr,
    xexec lt memory address fg_first ds n ord dbg (xstart lt memory address fg_first ds op n (w_sys w')) ms = Some (x, tr) ->
    sinks (x_sys x) = firstn (List.length (sinks (x_sys x))) ("*"%string :: map d_name ds) /\
    List.length (sinks_of (w_log w')) < List.length (sinks (x_sys x)) /\
    forall d, x_up x = true -> nth_error ds (List.length (sinks (x_sys x)) - 1) = Some d ->
      exists x', xstep lt memory address fg_first ds n ord dbg x (DSys (MakeSink (d_name d))) = Some (x', []) /\
        sinks (x_sys x') = (sinks (x_sys x) ++ [d_name d])%list /\ sink_named (x_sys x') (d_name d) (List.length (sinks (x_sys x))).
Proof. exact AnyLater.final_sinks. Qed.
Print Assumptions C126_sinks_made.

(** [w_sys w'] is the system that configure() leaves; it returns unless a call on the system does not. *)
Theorem C126_configure :
  forall L ord fuel dbg c busy w' r, configures L ord fuel dbg c -> c (before_configure busy) = (w', r) ->
    exists result o, configure ord fuel dbg init (script_of c busy init) = (w_sys w', (result, o)) /\ (r <> Stuck -> o <> RHang).
Proof. exact configure_leaves. Qed.
Print Assumptions C126_configure.

(** Every program has a defined outcome. *)
Theorem C126_defined :
  forall lt memory address fg_first ds op n ord dbg L fuel, usual_lib L -> refuses_huge_buffers L ->
  forall busy c w' r, configures L ord fuel dbg c -> c (before_configure busy) = (w', r) -> all_sinks L w' ds ->
  forall ms, exists x tr, xexec lt memory address fg_first ds n ord dbg (xstart lt memory address fg_first ds op n (w_sys w')) ms = Some (x, tr).
Proof. intros lt memory address fg_first ds op n ord dbg L fuel UL RH busy c w' r C E D. exact (final_defined lt memory address fg_first ds op n ord dbg L fuel UL RH busy c w' r C E D (w_sys w')). Qed.
Print Assumptions C126_defined.

(** After the destruction of a file sink (with a worker), its files hold exactly what the calls
    were to bring there, thread by thread in the order of the calls. *)
Theorem C126_read_back :
  forall lt memory address fg_first ds op n ord dbg L fuel, usual_lib L -> refuses_huge_buffers L ->
  forall busy c w' r, configures L ord fuel dbg c -> c (before_configure busy) = (w', r) -> all_sinks L w' ds ->
  forall ms x tr j d path ti z u,
    xexec lt memory address fg_first ds n ord dbg (xstart lt memory address fg_first ds op n (w_sys w')) ms = Some (x, tr) ->
    nth_error ds j = Some d -> d_kind d = KFile path ti z -> z_latency z <> Some 0%N -> op (S j) = true ->
    In (SinkModel.LDestroyed u) (in_sink (S j) tr) -> platform_ok L lt address ->
    (forall t g Lg e, In (DSaid t g Lg e) tr ->
       EndSpec.call_ok (taken_down (S j) (named Lg e)) /\ EndSpec.legible (taken_down (S j) (named Lg e))) ->
    let F := file_settings lt memory address (d_level d) ti z in
    EndModel.f_thread F = ti /\ EndModel.f_localtime F = lt /\
    EndModel.f_max F = N.to_nat (match z_message z with Some m => m | None => 1024 end) /\
    exists runs : list (list (nat * said)),
      List.length runs = 1 + SinkSpec.fresh_files (in_sink (S j) tr) /\
      map (EndSpec.read_file F) (SinkSpec.disk (FullModel.rest (sleaf (x_pool x) (S j)))) =
        map (map (fun x => EndSpec.reads F (taken_down (S j) (snd x)))) runs /\
      Forall (fun x => 1 <= fst x <= n) (concat runs) /\
      forall t, 1 <= t <= n ->
        map snd (filter (fun x => Nat.eqb (fst x) t) (concat runs)) = flat_map (brings ds (S j)) (said_by t tr).
Proof. intros lt memory address fg_first ds op n ord dbg L fuel UL RH busy c w' r C E D. exact (final_read_back lt memory address fg_first ds op n ord dbg L fuel UL RH busy c w' r C E D (w_sys w')). Qed.
Print Assumptions C126_read_back.

(** If the program dies at any moment: the first of these. *)
Theorem C126_read_back_after_crash :
  forall lt memory address fg_first ds op n ord dbg L fuel, usual_lib L -> refuses_huge_buffers L ->
  forall busy c w' r, configures L ord fuel dbg c -> c (before_configure busy) = (w', r) -> all_sinks L w' ds ->
  forall ms x tr j d path ti z,
    xexec lt memory address fg_first ds n ord dbg (xstart lt memory address fg_first ds op n (w_sys w')) ms = Some (x, tr) ->
    nth_error ds j = Some d -> d_kind d = KFile path ti z -> op (S j) = true -> platform_ok L lt address ->
    (forall t g Lg e, In (DSaid t g Lg e) tr ->
       EndSpec.call_ok (taken_down (S j) (named Lg e)) /\ EndSpec.legible (taken_down (S j) (named Lg e))) ->
    let F := file_settings lt memory address (d_level d) ti z in
    EndModel.f_thread F = ti /\ EndModel.f_localtime F = lt /\
    EndModel.f_max F = N.to_nat (match z_message z with Some m => m | None => 1024 end) /\
    exists lines : list (nat * said),
      flat_map (EndSpec.read_file F) (SinkSpec.disk (FullModel.rest (sleaf (x_pool x) (S j)))) =
        map (fun x => EndSpec.reads F (taken_down (S j) (snd x))) lines /\
      Forall (fun x => 1 <= fst x <= n) lines /\
      forall t, 1 <= t <= n ->
        SinkSpec.is_prefix (map snd (filter (fun x => Nat.eqb (fst x) t) lines)) (flat_map (brings ds (S j)) (said_by t tr)).
Proof. intros lt memory address fg_first ds op n ord dbg L fuel UL RH busy c w' r C E D. exact (final_read_back_crash lt memory address fg_first ds op n ord dbg L fuel UL RH busy c w' r C E D (w_sys w')). Qed.
Print Assumptions C126_read_back_after_crash.

(** A console sink. *)
Theorem C126_console :
  forall lt memory address fg_first ds op n ord dbg L fuel, usual_lib L -> refuses_huge_buffers L ->
  forall busy c w' r, configures L ord fuel dbg c -> c (before_configure busy) = (w', r) -> all_sinks L w' ds ->
  forall ms x tr j d st color ti z u,
    xexec lt memory address fg_first ds n ord dbg (xstart lt memory address fg_first ds op n (w_sys w')) ms = Some (x, tr) ->
    nth_error ds j = Some d -> d_kind d = KConsole st color ti z -> z_latency z <> Some 0%N -> op (S j) = true ->
    In (SinkModel.LDestroyed u) (in_sink (S j) tr) ->
    let F := console_settings lt memory address (d_level d) ti z in
    EndModel.f_thread F = ti /\ EndModel.f_localtime F = lt /\
    EndModel.f_max F = N.to_nat (match z_message z with Some m => m | None => 1024 end) /\
    exists lines : list (nat * said),
      concat (SinkSpec.files (FullModel.rest (sleaf (x_pool x) (S j)))) =
        concat (map (fun x => console_record lt fg_first color F (taken_down (S j) (snd x))) lines) /\
      Forall (fun x => 1 <= fst x <= n) lines /\
      forall t, 1 <= t <= n -> map snd (filter (fun x => Nat.eqb (fst x) t) lines) = flat_map (brings ds (S j)) (said_by t tr).
Proof. intros lt memory address fg_first ds op n ord dbg L fuel UL RH busy c w' r C E D. exact (final_console lt memory address fg_first ds op n ord dbg L fuel UL RH busy c w' r C E D (w_sys w')). Qed.
Print Assumptions C126_console.

(** Read on a terminal (which takes the sequences for colours and styles away), it shows exactly
    those calls: time, thread, level, name and text of each. *)
Theorem C126_console_read :
  forall lt memory address fg_first ds op n ord dbg L fuel, usual_lib L -> refuses_huge_buffers L ->
  forall busy c w' r, configures L ord fuel dbg c -> c (before_configure busy) = (w', r) -> all_sinks L w' ds ->
  forall ms x tr j d st color ti z u,
    xexec lt memory address fg_first ds n ord dbg (xstart lt memory address fg_first ds op n (w_sys w')) ms = Some (x, tr) ->
    nth_error ds j = Some d -> d_kind d = KConsole st color ti z -> z_latency z <> Some 0%N -> op (S j) = true ->
    In (SinkModel.LDestroyed u) (in_sink (S j) tr) -> platform_ok L lt address ->
    (forall t g Lg e, In (DSaid t g Lg e) tr ->
       EndSpec.call_ok (taken_down (S j) (named Lg e)) /\ EndSpec.legible (taken_down (S j) (named Lg e)) /\
       (color = true -> ConsoleSpec.paintable (taken_down (S j) (named Lg e)))) ->
    let F := console_settings lt memory address (d_level d) ti z in
    exists lines : list (nat * said),
      EndSpec.read_file F (ConsoleSpec.on_terminal color (concat (SinkSpec.files (FullModel.rest (sleaf (x_pool x) (S j)))))) =
        map (fun x => EndSpec.reads F (taken_down (S j) (snd x))) lines /\
      Forall (fun x => 1 <= fst x <= n) lines /\
      forall t, 1 <= t <= n -> map snd (filter (fun x => Nat.eqb (fst x) t) lines) = flat_map (brings ds (S j)) (said_by t tr).
Proof. intros lt memory address fg_first ds op n ord dbg L fuel UL RH busy c w' r C E D. exact (final_console_read lt memory address fg_first ds op n ord dbg L fuel UL RH busy c w' r C E D (w_sys w')). Qed.
Print Assumptions C126_console_read.

(** A syslog sink, unless a flush() overruns its buffer (C17): the priorities, *)
Theorem C126_syslog :
  forall lt memory address fg_first ds op n ord dbg L fuel, usual_lib L -> refuses_huge_buffers L ->
  forall busy c w' r, configures L ord fuel dbg c -> c (before_configure busy) = (w', r) -> all_sinks L w' ds ->
  forall ms x tr j d ident ti z u sent,
    xexec lt memory address fg_first ds n ord dbg (xstart lt memory address fg_first ds op n (w_sys w')) ms = Some (x, tr) ->
    nth_error ds j = Some d -> d_kind d = KSyslog ident ti z -> z_latency z <> Some 0%N -> op (S j) = true ->
    In (SinkModel.LDestroyed u) (in_sink (S j) tr) -> platform_ok L lt address ->
    (forall t g Lg e, In (DSaid t g Lg e) tr -> EndSpec.call_ok (taken_down (S j) (named Lg e))) ->
    let F := file_settings lt memory address (d_level d) ti z in
    SyslogRunModel.received (taken_down (S j)) F (in_sink (S j) tr) = Some sent ->
    exists lines : list (nat * said),
      map fst sent = flat_map (fun x => SyslogRunSpec.urgency (taken_down (S j) (snd x))) lines /\
      Forall (fun x => 1 <= fst x <= n) lines /\
      forall t, 1 <= t <= n -> map snd (filter (fun x => Nat.eqb (fst x) t) lines) = flat_map (brings ds (S j)) (said_by t tr).
Proof. intros lt memory address fg_first ds op n ord dbg L fuel UL RH busy c w' r C E D. exact (final_syslog lt memory address fg_first ds op n ord dbg L fuel UL RH busy c w' r C E D (w_sys w')). Qed.
Print Assumptions C126_syslog.

(** and the texts, one for each flush(). *)
Theorem C126_syslog_texts :
  forall lt memory address fg_first ds op n ord dbg L fuel, usual_lib L -> refuses_huge_buffers L ->
  forall busy c w' r, configures L ord fuel dbg c -> c (before_configure busy) = (w', r) -> all_sinks L w' ds ->
  forall ms x tr j d ident ti z u sent,
    xexec lt memory address fg_first ds n ord dbg (xstart lt memory address fg_first ds op n (w_sys w')) ms = Some (x, tr) ->
    nth_error ds j = Some d -> d_kind d = KSyslog ident ti z -> z_latency z <> Some 0%N -> op (S j) = true ->
    In (SinkModel.LDestroyed u) (in_sink (S j) tr) -> platform_ok L lt address ->
    let F := file_settings lt memory address (d_level d) ti z in
    (forall t g Lg e, In (DSaid t g Lg e) tr -> SyslogRunSpec.sendable F (taken_down (S j) (named Lg e))) ->
    SyslogRunModel.received (taken_down (S j)) F (in_sink (S j) tr) = Some sent ->
    exists flushed : list (list (nat * said)),
      sent = flat_map (fun xs => match xs with
                                 | [] => []
                                 | x :: _ => map (fun p => (p, SyslogRunSpec.tells F (taken_down (S j) (snd x))))
                                                 (flat_map (fun y => SyslogRunSpec.urgency (taken_down (S j) (snd y))) xs)
                                 end) flushed /\
      Forall (fun x => 1 <= fst x <= n) (concat flushed) /\
      forall t, 1 <= t <= n ->
        map snd (filter (fun x => Nat.eqb (fst x) t) (concat flushed)) = flat_map (brings ds (S j)) (said_by t tr).
Proof. intros lt memory address fg_first ds op n ord dbg L fuel UL RH busy c w' r C E D. exact (final_syslog_texts lt memory address fg_first ds op n ord dbg L fuel UL RH busy c w' r C E D (w_sys w')). Qed.
Print Assumptions C126_syslog_texts.

(** A logger that is alive and has a sink can be used by any thread that is between two calls. *)
Theorem C126_calls_begin :
  forall lt memory address fg_first ds op n ord dbg L fuel, usual_lib L -> refuses_huge_buffers L ->
  forall busy c w' r, configures L ord fuel dbg c -> c (before_configure busy) = (w', r) -> all_sinks L w' ds ->
  forall ms x tr t i Lg e k G,
    xexec lt memory address fg_first ds n ord dbg (xstart lt memory address fg_first ds op n (w_sys w')) ms = Some (x, tr) ->
    x_up x = true -> (forall d, In d ds -> d_kind d <> KMulti []) -> 1 <= t <= n -> sresting (count ds) (x_pool x) t ->
    nth_error (loggers (x_sys x)) i = Some Lg -> l_alive Lg = true -> l_sink Lg = Some k ->
    nth_error (groups (x_sys x)) (l_group Lg) = Some G ->
    exists x' l, xstep lt memory address fg_first ds n ord dbg x (DLog t i e) = Some (x', l) /\ said_by t l = [(g_name G, Lg, e)].
Proof. intros lt memory address fg_first ds op n ord dbg L fuel UL RH busy c w' r C E D. exact (final_call_begins lt memory address fg_first ds op n ord dbg L fuel UL RH busy c w' r C E D (w_sys w')). Qed.
Print Assumptions C126_calls_begin.

(** So do flush() and rotate() of any sink that was made, by any thread between two calls; by
    C126_calls_return they also return. *)
Theorem C126_flush_begins :
  forall lt memory address fg_first ds op n ord dbg L fuel, usual_lib L -> refuses_huge_buffers L ->
  forall busy c w' r, configures L ord fuel dbg c -> c (before_configure busy) = (w', r) -> all_sinks L w' ds ->
  forall ms x tr t k,
    xexec lt memory address fg_first ds n ord dbg (xstart lt memory address fg_first ds op n (w_sys w')) ms = Some (x, tr) ->
    x_up x = true -> 1 <= t <= n -> sresting (count ds) (x_pool x) t -> k < List.length (sinks (x_sys x)) ->
    (exists x', xstep lt memory address fg_first ds n ord dbg x (DFlush t k) =
       Some (x', [DIn (PoolModel.PStart t (PoolModel.OFlush (tree_at ds k)))])) /\
    (exists x', xstep lt memory address fg_first ds n ord dbg x (DRotate t k) =
       Some (x', [DIn (PoolModel.PStart t (PoolModel.ORotate (tree_at ds k)))])).
Proof. intros lt memory address fg_first ds op n ord dbg L fuel UL RH busy c w' r C E D. exact (final_flush_begins lt memory address fg_first ds op n ord dbg L fuel UL RH busy c w' r C E D (w_sys w')). Qed.
Print Assumptions C126_flush_begins.

(** getLogger() for a group that is not there (or "*") warns, in the name of the calling thread, with
    a logger "Soralog" of the fallback group: the warning is one of the things said; and a logger of
    that name is there afterwards, in the fallback group, with its level and sink unless others
    were asked for. *)
Theorem C126_warning :
  forall lt memory address fg_first ds op n ord dbg L fuel, usual_lib L -> refuses_huge_buffers L ->
  forall busy c w' r, configures L ord fuel dbg c -> c (before_configure busy) = (w', r) -> all_sinks L w' ds ->
  forall ms x tr t y g kn lv e i G,
    xexec lt memory address fg_first ds n ord dbg (xstart lt memory address fg_first ds op n (w_sys w')) ms = Some (x, tr) ->
    x_up x = true -> (forall d, In d ds -> d_kind d <> KMulti []) -> 1 <= t <= n -> sresting (count ds) (x_pool x) t ->
    live (x_sys x) y = None ->
    (g = "*"%string /\ dbg = false \/ g <> "*"%string /\ find (gmap (x_sys x)) g = None) ->
    find (gmap (x_sys x)) "*" = Some i -> nth_error (groups (x_sys x)) i = Some G -> g_sink G <> None ->
    exists x' l Lw e' Y, xstep lt memory address fg_first ds n ord dbg x (DGet t y g kn lv e) = Some (x', l) /\
      (said_by t l = [(g_name G, Lw, e')] /\ l_name Lw = "Soralog"%string /\ l_level Lw = g_level G /\ l_sink Lw = g_sink G /\
       x_level e' = WARN /\ x_result e' = EventModel.FmtOk (bs (complaint y g (g_name G)))) /\
      nth_error (loggers (x_sys x')) (List.length (loggers (x_sys x))) = Some Y /\
      live (x_sys x') y = Some (List.length (loggers (x_sys x))) /\ l_name Y = y /\ l_group Y = i /\
      l_level Y = match lv with Some v => v | None => g_level G end /\
      l_sink Y = match kn with Some k => match find (smap (x_sys x)) k with Some id => Some id | None => g_sink G end | None => g_sink G end.
Proof. exact AnyWarn.final_asked. Qed.
Print Assumptions C126_warning.

(** With fair spin locks every call returns (C124). *)
Theorem C126_calls_return :
  forall lt memory address fg_first ds op n ord dbg L fuel, usual_lib L -> refuses_huge_buffers L ->
  forall busy c w' r, configures L ord fuel dbg c -> c (before_configure busy) = (w', r) -> all_sinks L w' ds ->
  forall ms x tr k more x' l,
    (forall j d, nth_error ds j = Some d -> op (S j) = false -> exists path ti z, d_kind d = KFile path ti z) -> xexec lt memory address fg_first ds n ord dbg (xstart lt memory address fg_first ds op n (w_sys w')) ms = Some (x, tr) ->
    srounds (count ds) (cfg_at lt memory address fg_first ds) n k (x_pool x) more -> 40 * (senough (count ds) (cfg_at lt memory address fg_first ds) n (x_pool x) + 101 * length (filter PoolSpec.weak more)) <= k ->
    xexec lt memory address fg_first ds n ord dbg x (map DPool more) = Some (x', l) -> forall t, 1 <= t <= n -> sresting (count ds) (x_pool x') t.
Proof. intros lt memory address fg_first ds op n ord dbg L fuel UL RH busy c w' r C E D. exact (final_calls_return lt memory address fg_first ds op n ord dbg L fuel UL RH busy c w' r C E D (w_sys w')). Qed.
Print Assumptions C126_calls_return.

(** And the program can end from everywhere, with everything said so far in the files. *)
Theorem C126_ends_complete :
  forall lt memory address fg_first ds op n ord dbg L fuel, usual_lib L -> refuses_huge_buffers L ->
  forall busy c w' r, configures L ord fuel dbg c -> c (before_configure busy) = (w', r) -> all_sinks L w' ds ->
  forall ms x tr,
    (forall j d, nth_error ds j = Some d -> op (S j) = false -> exists path ti z, d_kind d = KFile path ti z) -> 1 <= n -> xexec lt memory address fg_first ds n ord dbg (xstart lt memory address fg_first ds op n (w_sys w')) ms = Some (x, tr) ->
      platform_ok L lt address ->
      (forall t g Lg e id, In (DSaid t g Lg e) tr ->
         EndSpec.call_ok (taken_down id (named Lg e)) /\ EndSpec.legible (taken_down id (named Lg e))) ->
    exists pms x' l, Forall PoolSpec.closing pms /\ xexec lt memory address fg_first ds n ord dbg x (DEnd :: map DPool pms) = Some (x', l) /\
      (forall t, said_by t l = []) /\
      forall j d path ti z, nth_error ds j = Some d -> d_kind d = KFile path ti z -> z_latency z <> Some 0%N -> op (S j) = true ->
        let F := file_settings lt memory address (d_level d) ti z in
        exists runs : list (list (nat * said)),
          map (EndSpec.read_file F) (SinkSpec.disk (FullModel.rest (sleaf (x_pool x') (S j)))) =
            map (map (fun x => EndSpec.reads F (taken_down (S j) (snd x)))) runs /\
          Forall (fun x => 1 <= fst x <= n) (concat runs) /\
          forall t, 1 <= t <= n ->
            map snd (filter (fun x => Nat.eqb (fst x) t) (concat runs)) = flat_map (brings ds (S j)) (said_by t tr).
Proof. intros lt memory address fg_first ds op n ord dbg L fuel UL RH busy c w' r C E D. exact (final_ends_complete lt memory address fg_first ds op n ord dbg L fuel UL RH busy c w' r C E D (w_sys w')). Qed.
Print Assumptions C126_ends_complete.

(** A document on top of another one: the second has problems, and gives
    group "a" another sink and another level. *)
Local Open Scope string_scope.
Local Open Scope list_scope.
Definition doc126a : node := doc
  [M_ [("name", S_ "f"); ("type", S_ "file"); ("path", S_ "/tmp/f"); ("thread", S_ "name")]] [root "a" "info" [("sink", S_ "f")]].
Definition doc126b : node := doc
  [S_ "nothing"; M_ [("name", S_ "g"); ("type", S_ "file"); ("path", S_ "/tmp/g"); ("colour", S_ "red")]]
  [root "a" "debug" [("sink", S_ "g"); ("wheels", S_ "4")]].
Definition conf126 : configurator :=
  yaml ex_lib idord 100 true (Some (yaml ex_lib idord 100 true None (FromContent (inl doc126a)))) (FromContent (inl doc126b)).
Definition ds126 := [mkDesc "f" TRACE (KFile "/tmp/f" EventModel.TI_NAME no_sizes); mkDesc "g" TRACE (KFile "/tmp/g" EventModel.TI_NONE no_sizes)].
Definition w126 : world := fst (conf126 (before_configure false)).
Definition run126 (ms : list dmove) := xexec dep_lt dep_mem 4096 true ds126 2 idord true
  (xstart dep_lt dep_mem 4096 true ds126 (fun _ => true) 2 (w_sys w126)) ms.
(** The sink of the group is changed between two calls. *)
Definition moves126 : list dmove :=
  [DSys (GetLogger "x" "a" None None); DLog 1 0 dep_e4] ++ onward 1 200 ++
  [DSys (SetSinkOfGroup "a" "f"); DLog 2 0 dep_e3; DSys (SetLevelOfGroup "a" ERROR)] ++ onward 2 200 ++ [DLog 1 0 dep_e1] ++ onward 1 200 ++
  [DEnd; DPool (PoolModel.XDestroy 1 1)] ++ onward 1 3 ++ worker 1 200 ++ onward 1 3 ++
  [DPool (PoolModel.XDestroy 2 1)] ++ onward 1 3 ++ worker 2 200 ++ onward 1 3.
Example C126_hypotheses_met :
  usual_lib ex_lib /\ refuses_huge_buffers ex_lib /\ configures ex_lib idord 100 true conf126 /\
  ds126 = sinks_of (w_log w126) /\ all_sinks ex_lib w126 ds126 /\
  match snd (conf126 (before_configure false)) with Val r => (has_error r, has_warning r) | _ => (true, true) end = (false, true).
Proof.
  split; [exact ex_usual_lib|]. split; [exact ex_refuses|]. split; [apply on_top, by_document|].
  split; [vm_compute; reflexivity|]. split; [|vm_compute; reflexivity].
  exists []. split; [vm_compute; reflexivity|]. split; [intros d z []|].
  split; [split; [constructor|intros d []]|intros [|j] d ks; discriminate].
Qed.
Example C126_configure_nonvacuous :
  snd (conf126 (before_configure false)) <> Stuck /\
  snd (snd (configure idord 100 true init (script_of conf126 false init))) = RUnit.
Proof. split; [vm_compute; discriminate|vm_compute; reflexivity]. Qed.
Example C126_nonvacuous :
  match run126 moves126 with
  | Some (x, tr) =>
      existsb (fun l => match l with SinkModel.LDestroyed 1 => true | _ => false end) (in_sink 1 tr) = true /\
      existsb (fun l => match l with SinkModel.LDestroyed 1 => true | _ => false end) (in_sink 2 tr) = true /\
      List.length (said_by 1 tr) = 2 /\ List.length (said_by 2 tr) = 1 /\
      SinkSpec.disk (FullModel.rest (sleaf (x_pool x) 1)) =
        [bs "24.02.29 12:17:35.000001  side             Debug     x  three" ++ [newline]] /\
      SinkSpec.disk (FullModel.rest (sleaf (x_pool x) 2)) = [bs "24.02.29 12:17:35.000002  Debug     x  four" ++ [newline]]
  | None => False
  end.
Proof. vm_compute. repeat split. Qed.
(** A program that makes a sink while it runs, gets a logger for it, and logs there. *)
Definition later126 : list sink_desc := [mkDesc "late" INFO (KFile "/tmp/late" EventModel.TI_NONE no_sizes); mkDesc "both" TRACE (KMulti [3; 1])].
Definition dsl126 := ds126 ++ later126.
Definition runl126 (ms : list dmove) := xexec dep_lt dep_mem 4096 true dsl126 2 idord true
  (xstart dep_lt dep_mem 4096 true dsl126 (fun _ => true) 2 (w_sys w126)) ms.
Definition onward3 (t k : nat) : list dmove :=
  concat (repeat (DPool (PoolModel.XNext t) :: map (fun id => DPool (PoolModel.XLeaf id (SinkModel.MThread t (SinkModel.CGo false)))) [1; 2; 3]) k).
Definition movesl126 : list dmove :=
  [DSys (GetLogger "x" "a" None None); DLog 1 0 dep_e4] ++ onward3 1 60 ++ [DSys (MakeSink "late")] ++ onward3 1 140 ++
  [DSys (MakeSink "both"); DSys (GetLogger "y" "a" (Some "both") None); DLog 2 1 dep_e2; DLog 1 1 dep_e4] ++ onward3 2 400 ++ onward3 1 400 ++
  [DEnd] ++ [DPool (PoolModel.XDestroy 1 1)] ++ onward3 1 3 ++ worker 1 200 ++ onward3 1 3 ++
  [DPool (PoolModel.XDestroy 3 1)] ++ onward3 1 3 ++ worker 3 200 ++ onward3 1 3.
Example C126_later_nonvacuous :
  all_sinks ex_lib w126 dsl126 /\
  match runl126 movesl126 with
  | Some (x, tr) =>
      existsb (fun l => match l with SinkModel.LDestroyed 1 => true | _ => false end) (in_sink 1 tr) = true /\
      existsb (fun l => match l with SinkModel.LDestroyed 1 => true | _ => false end) (in_sink 3 tr) = true /\
      sinks (x_sys x) = ["*"; "f"; "g"; "late"; "both"] /\
      List.length (said_by 1 tr) = 2 /\ List.length (said_by 2 tr) = 1 /\
      SinkSpec.disk (FullModel.rest (sleaf (x_pool x) 3)) = [bs "24.02.29 12:17:35.000003  Warning   y  two" ++ [newline]]
  | None => False
  end.
Proof.
  split.
  - exists later126. split; [vm_compute; reflexivity|]. split; [|split].
    + intros d z [<-|[<-|[]]] Hz; cbn in Hz; inversion Hz; subst. unfold sane_sizes, sane_number. cbn. repeat split; discriminate.
    + split; [repeat constructor; cbn; intros H; repeat (destruct H as [H|H]; [discriminate|]); exact H|].
      assert (L : map d_name (sinks_of (w_log w126)) = ["f"; "g"]) by (vm_compute; reflexivity). rewrite L.
      intros d [<-|[<-|[]]]; cbn; intros H; repeat (destruct H as [H|H]; [discriminate|]); exact H.
    + intros [|[|j]] d ks Ej Ek; cbn in Ej; inversion Ej; subst; cbn in Ek; inversion Ek; subst.
      * assert (L : List.length (sinks_of (w_log w126)) = 2) by (vm_compute; reflexivity). rewrite L. repeat constructor.
      * destruct j; discriminate.
  - vm_compute. repeat split.
Qed.
(** After the first call and the change of the sink: both threads are between two calls. *)
Example C126_calls_begin_nonvacuous :
  match run126 ([DSys (GetLogger "x" "a" None None); DLog 1 0 dep_e4] ++ onward 1 200 ++ [DSys (SetSinkOfGroup "a" "f")]) with
  | Some (x, tr) =>
      x_up x = true /\ List.length (sinks (x_sys x)) = count ds126 /\ nth_error (loggers (x_sys x)) 0 = Some (mkLogger "x" 0 (Some 1) false DEBUG false true) /\
      option_map g_name (nth_error (groups (x_sys x)) 0) = Some "a" /\
      forallb (fun d => match d_kind d with KMulti [] => false | _ => true end) ds126 = true /\
      forallb (fun t => PoolModel.is_nil (stodo (x_pool x) t) &&
        forallb (fun id => match nth_error (FullModel.pcs (sleaf (x_pool x) id)) t with
                           | Some (FullModel.At SinkModel.Idle) | Some (FullModel.At SinkModel.Dead) => true | _ => false end)
          (seq 0 (count ds126))) [1; 2] = true
  | None => False
  end.
Proof. vm_compute. repeat split. Qed.
(** The fallback configurator, with colours. *)
Definition wcol : world := fst (fallback ex_lib idord 100 true TRACE true (before_configure false)).
Definition dscol := [mkDesc "console" TRACE (KConsole STDOUT true EventModel.TI_NONE no_sizes)].
Definition movescol : list dmove :=
  [DGet 1 "x" "all" None None dep_e1] ++ onward 1 200 ++ [DLog 1 0 dep_e4] ++ onward 1 200 ++ [DLog 2 0 dep_e2] ++ onward 2 200 ++
  [DEnd; DPool (PoolModel.XDestroy 1 1)] ++ onward 1 3 ++ worker 1 200 ++ onward 1 3.
Example C126_warning_nonvacuous :
  match xexec dep_lt dep_mem 4096 true dscol 2 idord true
          (xstart dep_lt dep_mem 4096 true dscol (fun _ => true) 2 (w_sys wcol)) (firstn 601 movescol) with
  | Some (x, tr) =>
      x_up x = true /\ List.length (said_by 1 tr) = 1 /\ PoolModel.is_nil (stodo (x_pool x) 1) = true /\
      forallb (fun id => match nth_error (FullModel.pcs (sleaf (x_pool x) id)) 1 with
                         | Some (FullModel.At SinkModel.Idle) | Some (FullModel.At SinkModel.Dead) => true | _ => false end) (seq 0 2) = true /\
      live (x_sys x) "y" = None /\ find (gmap (x_sys x)) "nobody" = None /\
      find (gmap (x_sys x)) "*" = Some 0 /\ nth_error (groups (x_sys x)) 0 = Some (mkGroup "*" None (Some 1) false TRACE false)
  | None => False
  end.
Proof. vm_compute. repeat split. Qed.
Example C126_console_read_nonvacuous :
  dscol = sinks_of (w_log wcol) /\
  (forall e, In e [dep_e4; dep_e2; warned dep_e1 (missing_text "x" "all" (mkGroup "*" None (Some 1) false TRACE false))] ->
     ConsoleSpec.paintable (taken_down 1 (named (mkLogger "x" 0 (Some 1) false TRACE false true) e))) /\
  match xexec dep_lt dep_mem 4096 true dscol 2 idord true
          (xstart dep_lt dep_mem 4096 true dscol (fun _ => true) 2 (w_sys wcol)) movescol with
  | Some (x, tr) =>
      let F := console_settings dep_lt dep_mem 4096 TRACE EventModel.TI_NONE no_sizes in
      let out := concat (SinkSpec.files (FullModel.rest (sleaf (x_pool x) 1))) in
      existsb (fun l => match l with SinkModel.LDestroyed 1 => true | _ => false end) (in_sink 1 tr) = true /\
      existsb (Ascii.eqb esc) out = true /\ List.length (said_by 1 tr) = 2 /\ List.length (said_by 2 tr) = 1 /\
      List.length (EndSpec.read_file F (ConsoleSpec.on_terminal true out)) = 3
  | None => False
  end.
Proof.
  split; [reflexivity|]. split; [|vm_compute; repeat split].
  assert (NB : forall l, existsb (Ascii.eqb esc) l = false -> RecordSpec.no_byte esc l).
  { intros l H Hi. assert (E : existsb (Ascii.eqb esc) l = true); [|congruence].
    apply existsb_exists. exists esc. split; [exact Hi|apply Ascii.eqb_refl]. }
  intros e [<-|[<-|[<-|[]]]]; (split; [apply NB; reflexivity|]); (split; [apply NB; reflexivity|]); (split; [apply NB; reflexivity|discriminate]).
Qed.
(** The rest of the hypotheses, about the platform and the calls: C117_hypotheses_met,
    C117_calls_met, C117_sendable_met; for the rounds: C124. *)
