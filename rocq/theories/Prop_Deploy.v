(** * Property C117: from the document to the files

    [dep_run]-like executions: a system configured by a document ([dstart]), then any sequence of
    moves of [n] threads, the workers and the environment ([dexec]).  [plain]: the program only
    gets and drops loggers (without settings of their own), logs, flushes and rotates. *)

From Coq Require Import Ascii String NArith Arith List Bool Lia.
From Verif Require Import Base LevelModel SinkConfig SysModel SysSpec SysWitness YamlModel YamlSpec YamlActSpec YamlDoc YamlWitness
  DeployModel DeploySpec DeployProofs DeployWitness.
From Verif Require EventModel RecordModel RecordSpec SinkModel SinkSpec PoolModel PoolSpec EndModel EndSpec SyslogRunModel SyslogRunSpec ConsoleSpec ConsoleDoc.
Import ListNotations.

(** After the destruction of a file sink of the document (with a worker), the lines of its files
    are exactly the calls due there by the document: those whose level passes the level in force
    for the group of the logger and all levels on the way from the sink in force to this one;
    thread by thread in the order of the calls, with the name of the logger. *)
Theorem C117_read_back :
  forall lt memory address fg_first ds op n ord dbg L fuel, usual_lib L -> refuses_huge_buffers L ->
  forall busy src doc w1 gs, document src doc -> doc_read L false (before_configure busy) doc w1 gs ->
    NoDup (map e_name (all_entries None gs)) -> ds = sinks_of (w_log w1) ->
  forall w' ms s tr j d path ti z u,
    fst (yaml L ord fuel dbg None src (before_configure busy)) = w' -> Forall plain ms ->
    dexec lt memory address fg_first ds n ord dbg (dstart lt memory address fg_first ds op n (w_sys w')) ms = (s, tr) ->
    nth_error ds j = Some d -> d_kind d = KFile path ti z -> z_latency z <> Some 0%N -> op (S j) = true ->
    In (SinkModel.LDestroyed u) (in_sink (S j) tr) -> platform_ok L lt address ->
    (forall t g Lg e, In (DSaid t g Lg e) tr ->
       EndSpec.call_ok (taken_down (S j) (named Lg e)) /\ EndSpec.legible (taken_down (S j) (named Lg e))) ->
    let F := file_settings lt memory address (d_level d) ti z in
    EndModel.f_thread F = ti /\ EndModel.f_localtime F = lt /\
    EndModel.f_max F = N.to_nat (match z_message z with Some m => m | None => 1024 end) /\
    exists runs : list (list (nat * said)),
      List.length runs = 1 + SinkSpec.fresh_files (in_sink (S j) tr) /\
      map (EndSpec.read_file F) (SinkSpec.disk (PoolModel.leaf (d_pool s) (S j))) =
        map (map (fun x => EndSpec.reads F (taken_down (S j) (snd x)))) runs /\
      Forall (fun x => 1 <= fst x <= n) (concat runs) /\
      forall t, 1 <= t <= n ->
        map snd (filter (fun x => Nat.eqb (fst x) t) (concat runs)) = flat_map (due gs ds (S j)) (said_by t tr).
Proof. exact read_back. Qed.
Print Assumptions C117_read_back.

(** If the program dies at any moment: the complete lines are, thread by thread, the first of
    those calls. *)
Theorem C117_read_back_after_crash :
  forall lt memory address fg_first ds op n ord dbg L fuel, usual_lib L -> refuses_huge_buffers L ->
  forall busy src doc w1 gs, document src doc -> doc_read L false (before_configure busy) doc w1 gs ->
    NoDup (map e_name (all_entries None gs)) -> ds = sinks_of (w_log w1) ->
  forall w' ms s tr j d path ti z,
    fst (yaml L ord fuel dbg None src (before_configure busy)) = w' -> Forall plain ms ->
    dexec lt memory address fg_first ds n ord dbg (dstart lt memory address fg_first ds op n (w_sys w')) ms = (s, tr) ->
    nth_error ds j = Some d -> d_kind d = KFile path ti z -> op (S j) = true -> platform_ok L lt address ->
    (forall t g Lg e, In (DSaid t g Lg e) tr ->
       EndSpec.call_ok (taken_down (S j) (named Lg e)) /\ EndSpec.legible (taken_down (S j) (named Lg e))) ->
    let F := file_settings lt memory address (d_level d) ti z in
    EndModel.f_thread F = ti /\ EndModel.f_localtime F = lt /\
    EndModel.f_max F = N.to_nat (match z_message z with Some m => m | None => 1024 end) /\
    exists lines : list (nat * said),
      flat_map (EndSpec.read_file F) (SinkSpec.disk (PoolModel.leaf (d_pool s) (S j))) =
        map (fun x => EndSpec.reads F (taken_down (S j) (snd x))) lines /\
      Forall (fun x => 1 <= fst x <= n) lines /\
      forall t, 1 <= t <= n ->
        SinkSpec.is_prefix (map snd (filter (fun x => Nat.eqb (fst x) t) lines)) (flat_map (due gs ds (S j)) (said_by t tr)).
Proof. exact read_back_crash. Qed.
Print Assumptions C117_read_back_after_crash.

(** A console sink: its output is the records of exactly those calls. *)
Theorem C117_console :
  forall lt memory address fg_first ds op n ord dbg L fuel, usual_lib L -> refuses_huge_buffers L ->
  forall busy src doc w1 gs, document src doc -> doc_read L false (before_configure busy) doc w1 gs ->
    NoDup (map e_name (all_entries None gs)) -> ds = sinks_of (w_log w1) ->
  forall w' ms s tr j d st color ti z u,
    fst (yaml L ord fuel dbg None src (before_configure busy)) = w' -> Forall plain ms ->
    dexec lt memory address fg_first ds n ord dbg (dstart lt memory address fg_first ds op n (w_sys w')) ms = (s, tr) ->
    nth_error ds j = Some d -> d_kind d = KConsole st color ti z -> z_latency z <> Some 0%N -> op (S j) = true ->
    In (SinkModel.LDestroyed u) (in_sink (S j) tr) ->
    let F := console_settings lt memory address (d_level d) ti z in
    EndModel.f_thread F = ti /\ EndModel.f_localtime F = lt /\
    EndModel.f_max F = N.to_nat (match z_message z with Some m => m | None => 1024 end) /\
    exists lines : list (nat * said),
      concat (SinkSpec.files (PoolModel.leaf (d_pool s) (S j))) =
        concat (map (fun x => console_record lt fg_first color F (taken_down (S j) (snd x))) lines) /\
      Forall (fun x => 1 <= fst x <= n) lines /\
      forall t, 1 <= t <= n -> map snd (filter (fun x => Nat.eqb (fst x) t) lines) = flat_map (due gs ds (S j)) (said_by t tr).
Proof. exact console_out. Qed.
Print Assumptions C117_console.


(** Read on a terminal (which takes the sequences for colours and styles away), it shows exactly
    those calls: time, thread, level, name and text of each. *)
Theorem C117_console_read :
  forall lt memory address fg_first ds op n ord dbg L fuel, usual_lib L -> refuses_huge_buffers L ->
  forall busy src doc w1 gs, document src doc -> doc_read L false (before_configure busy) doc w1 gs ->
    NoDup (map e_name (all_entries None gs)) -> ds = sinks_of (w_log w1) ->
  forall w' ms s tr j d st color ti z u,
    fst (yaml L ord fuel dbg None src (before_configure busy)) = w' -> Forall plain ms ->
    dexec lt memory address fg_first ds n ord dbg (dstart lt memory address fg_first ds op n (w_sys w')) ms = (s, tr) ->
    nth_error ds j = Some d -> d_kind d = KConsole st color ti z -> z_latency z <> Some 0%N -> op (S j) = true ->
    In (SinkModel.LDestroyed u) (in_sink (S j) tr) -> platform_ok L lt address ->
    (forall t g Lg e, In (DSaid t g Lg e) tr ->
       EndSpec.call_ok (taken_down (S j) (named Lg e)) /\ EndSpec.legible (taken_down (S j) (named Lg e)) /\
       (color = true -> ConsoleSpec.paintable (taken_down (S j) (named Lg e)))) ->
    let F := console_settings lt memory address (d_level d) ti z in
    exists lines : list (nat * said),
      EndSpec.read_file F (ConsoleSpec.on_terminal color (concat (SinkSpec.files (PoolModel.leaf (d_pool s) (S j))))) =
        map (fun x => EndSpec.reads F (taken_down (S j) (snd x))) lines /\
      Forall (fun x => 1 <= fst x <= n) lines /\
      forall t, 1 <= t <= n -> map snd (filter (fun x => Nat.eqb (fst x) t) lines) = flat_map (due gs ds (S j)) (said_by t tr).
Proof. exact ConsoleDoc.console_read_doc. Qed.
Print Assumptions C117_console_read.

(** A syslog sink: the priorities of its messages are those of exactly those calls, as long as no
    flush() overruns its buffer (C17, C118). *)
Theorem C117_syslog :
  forall lt memory address fg_first ds op n ord dbg L fuel, usual_lib L -> refuses_huge_buffers L ->
  forall busy src doc w1 gs, document src doc -> doc_read L false (before_configure busy) doc w1 gs ->
    NoDup (map e_name (all_entries None gs)) -> ds = sinks_of (w_log w1) ->
  forall w' ms s tr j d ident ti z u sent,
    fst (yaml L ord fuel dbg None src (before_configure busy)) = w' -> Forall plain ms ->
    dexec lt memory address fg_first ds n ord dbg (dstart lt memory address fg_first ds op n (w_sys w')) ms = (s, tr) ->
    nth_error ds j = Some d -> d_kind d = KSyslog ident ti z -> z_latency z <> Some 0%N -> op (S j) = true ->
    In (SinkModel.LDestroyed u) (in_sink (S j) tr) -> platform_ok L lt address ->
    (forall t g Lg e, In (DSaid t g Lg e) tr -> EndSpec.call_ok (taken_down (S j) (named Lg e))) ->
    let F := file_settings lt memory address (d_level d) ti z in
    SyslogRunModel.received (taken_down (S j)) F (in_sink (S j) tr) = Some sent ->
    exists lines : list (nat * said),
      map fst sent = flat_map (fun x => SyslogRunSpec.urgency (taken_down (S j) (snd x))) lines /\
      Forall (fun x => 1 <= fst x <= n) lines /\
      forall t, 1 <= t <= n ->
        map snd (filter (fun x => Nat.eqb (fst x) t) lines) = flat_map (due gs ds (S j)) (said_by t tr).
Proof. exact syslog_out. Qed.
Print Assumptions C117_syslog.

(** The texts (of calls without a NUL byte in them): the calls come in portions, one portion for
    each flush(), and all messages of a portion carry the text of its first call (C17). *)
Theorem C117_syslog_texts :
  forall lt memory address fg_first ds op n ord dbg L fuel, usual_lib L -> refuses_huge_buffers L ->
  forall busy src doc w1 gs, document src doc -> doc_read L false (before_configure busy) doc w1 gs ->
    NoDup (map e_name (all_entries None gs)) -> ds = sinks_of (w_log w1) ->
  forall w' ms s tr j d ident ti z u sent,
    fst (yaml L ord fuel dbg None src (before_configure busy)) = w' -> Forall plain ms ->
    dexec lt memory address fg_first ds n ord dbg (dstart lt memory address fg_first ds op n (w_sys w')) ms = (s, tr) ->
    nth_error ds j = Some d -> d_kind d = KSyslog ident ti z -> z_latency z <> Some 0%N -> op (S j) = true ->
    In (SinkModel.LDestroyed u) (in_sink (S j) tr) -> platform_ok L lt address ->
    let F := file_settings lt memory address (d_level d) ti z in
    (forall t g Lg e, In (DSaid t g Lg e) tr -> SyslogRunSpec.sendable F (taken_down (S j) (named Lg e))) ->
    SyslogRunModel.received (taken_down (S j)) F (in_sink (S j) tr) = Some sent ->
    exists flushed : list (list (nat * said)),
      sent = flat_map (fun xs => match xs with
                                 | [] => []
                                 | x :: _ => map (fun p => (p, SyslogRunSpec.tells F (taken_down (S j) (snd x))))
                                                 (flat_map (fun y => SyslogRunSpec.urgency (taken_down (S j) (snd y))) xs)
                                 end) flushed /\
      Forall (fun x => 1 <= fst x <= n) (concat flushed) /\
      forall t, 1 <= t <= n ->
        map snd (filter (fun x => Nat.eqb (fst x) t) (concat flushed)) = flat_map (due gs ds (S j)) (said_by t tr).
Proof. exact syslog_texts. Qed.
Print Assumptions C117_syslog_texts.

(** And no call is turned away: until the system is let go, a thread between two calls can log
    with any logger there is (composites of the document having members). *)
Theorem C117_calls_begin :
  forall lt memory address fg_first ds op n ord dbg L fuel, usual_lib L -> refuses_huge_buffers L ->
  forall busy src doc w1 gs, document src doc -> doc_read L false (before_configure busy) doc w1 gs ->
    NoDup (map e_name (all_entries None gs)) -> ds = sinks_of (w_log w1) ->
  forall w' ms s tr t i Lg e,
    fst (yaml L ord fuel dbg None src (before_configure busy)) = w' -> Forall plain ms ->
    dexec lt memory address fg_first ds n ord dbg (dstart lt memory address fg_first ds op n (w_sys w')) ms = (s, tr) ->
    d_up s = true -> (forall d, In d ds -> d_kind d <> KMulti []) -> 1 <= t <= n -> PoolSpec.resting (count ds) (d_pool s) t ->
    nth_error (loggers (d_sys s)) i = Some Lg -> l_alive Lg = true ->
    exists g, said_by t (snd (dstep lt memory address fg_first ds n ord dbg s (DLog t i e))) = [(g, Lg, e)] /\
              group_settings gs g <> None.
Proof. exact doc_call_begins. Qed.
Print Assumptions C117_calls_begin.

(** Whatever is changed while the threads log (levels, sinks, groups): when a thread is between
    two calls, every leaf sink has accepted from it what its calls were to bring there by the level
    and the sink of the logger at the moment of the call. *)
Theorem C117_any_changes :
  forall lt memory address fg_first ds op n ord dbg s0 ms s tr t id,
    dexec lt memory address fg_first ds n ord dbg (dstart lt memory address fg_first ds op n s0) ms = (s, tr) ->
    id < count ds -> 1 <= t <= n -> PoolSpec.resting (count ds) (d_pool s) t ->
    SinkSpec.accepted_by t (in_sink id tr) = flat_map (brings ds id) (said_by t tr).
Proof. exact deployed. Qed.
Print Assumptions C117_any_changes.

(** Two threads, three sinks, three groups; in the document and in the files. *)
Local Open Scope string_scope.
Local Open Scope list_scope.
Example C117_hypotheses_met :
  usual_lib ex_lib /\ refuses_huge_buffers ex_lib /\ document (FromContent (inl dep_doc)) dep_doc /\
  doc_read ex_lib false (before_configure false) dep_doc dep_w1 dep_gs /\ NoDup (map e_name (all_entries None dep_gs)) /\
  dep_ds = sinks_of (w_log dep_w1) /\ Forall plain dep_end /\ platform_ok ex_lib dep_lt 4096 /\
  group_settings dep_gs "b" = Some (DEBUG, "f") /\ group_settings dep_gs "c" = Some (INFO, "m") /\
  sink_number dep_ds "f" = 1 /\ sink_number dep_ds "m" = 3 /\ ways dep_ds 1 INFO 3 = 1 /\ ways dep_ds 2 INFO 3 = 0.
Proof.
  split; [exact ex_usual_lib|]. split; [exact ex_refuses|]. split; [left; reflexivity|]. split; [exact dep_read|].
  split; [cbn; repeat constructor; cbn; intros H; repeat (destruct H as [H|H]; [discriminate|]); exact H|].
  split; [reflexivity|]. split; [|split].
  - apply Forall_forall. intros m H. unfold dep_end, dep_calls, onward, worker in H.
    repeat match goal with
    | H : In _ (_ ++ _) |- _ => apply in_app_or in H; destruct H as [H|H]
    | H : In _ (concat (repeat _ _)) |- _ => apply in_concat in H; destruct H as (x & H1 & H); apply repeat_spec in H1; subst x
    | H : In _ (_ :: _) |- _ => destruct H as [<-|H]; [exact I|]
    | H : In _ [] |- _ => destruct H
    end.
  - split; [|split; [reflexivity|cbv; discriminate]]. intros s. unfold RecordSpec.tm_ok, dep_lt.
    cbn [RecordModel.tm_yy RecordModel.tm_mm RecordModel.tm_dd RecordModel.tm_h RecordModel.tm_m RecordModel.tm_s].
    assert (forall x, x mod 60 < 100)%N by (intros x; apply N.lt_trans with 60%N; [apply N.mod_lt; discriminate|reflexivity]).
    repeat split; try reflexivity; auto.
  - repeat split; vm_compute; reflexivity.
Qed.

Definition in_short (x : string * logger * said) : string * string * level * string :=
  let '(g, L, e) := x in
  (g, l_name L, x_level e, match x_result e with EventModel.FmtOk t => string_of_list_ascii t | _ => "" end).
Example C117_nonvacuous :
  let '(s, tr) := dep_run dep_end in
  existsb (fun l => match l with SinkModel.LDestroyed 1 => true | _ => false end) (in_sink 1 tr) = true /\
  map in_short (said_by 1 tr) = [("c", "y", INFO, "one"); ("c", "y", DEBUG, "four")] /\
  map in_short (said_by 2 tr) = [("c", "y", WARN, "two"); ("b", "x", DEBUG, "three")] /\
  SinkSpec.disk (PoolModel.leaf (d_pool s) 1) =
    [bs "24.02.29 12:17:35.000001  main             Info      y  one" ++ [newline] ++
     bs "24.02.29 12:17:35.000001  side             Warning   y  two" ++ [newline] ++
     bs "24.02.29 12:17:35.000001  side             Debug     x  three" ++ [newline]] /\
  SinkSpec.disk (PoolModel.leaf (d_pool s) 2) = [bs "24.02.29 12:17:35.000002  Warning   y  two" ++ [newline]].
Proof. vm_compute. repeat split. Qed.

Example C117_console_read_nonvacuous :
  let '(s, tr) := dep_run dep_end in
  let F := console_settings dep_lt dep_mem 4096 WARN EventModel.TI_NONE no_sizes in
  existsb (fun l => match l with SinkModel.LDestroyed _ => true | _ => false end) (in_sink 2 tr) = true /\
  EndSpec.read_file F (ConsoleSpec.on_terminal false (concat (SinkSpec.files (PoolModel.leaf (d_pool s) 2)))) =
    [EndSpec.reads F (taken_down 2 (named (mkLogger "y" 2 (Some 3) false INFO false true) dep_e2))].
Proof. vm_compute. repeat split. Qed.

Example C117_syslog_nonvacuous :
  doc_read ex_lib false (before_configure false) dep_doc2 dep_w2 dep_gs2 /\ [dep_l] = sinks_of (w_log dep_w2) /\
  let '(s, tr) := dep_run2 dep_end2 in
  existsb (fun l => match l with SinkModel.LDestroyed 1 => true | _ => false end) (in_sink 1 tr) = true /\
  map in_short (said_by 1 tr) = [("a", "x", INFO, "one"); ("a", "x", DEBUG, "four")] /\
  map in_short (said_by 2 tr) = [("a", "x", WARN, "two"); ("a", "x", WARN, "two")] /\
  SyslogRunModel.received (taken_down 1) (file_settings dep_lt dep_mem 4096 TRACE EventModel.TI_NAME no_sizes) (in_sink 1 tr) =
    Some [(5%N, bs "24.02.29 12:17:35.000001  main  Info  x  one"); (4%N, bs "24.02.29 12:17:35.000001  main  Info  x  one");
          (4%N, bs "24.02.29 12:17:35.000001  side  Warning  x  two")].
Proof. split; [exact dep_read2|]. split; [reflexivity|]. vm_compute. repeat split. Qed.

(** In the middle both threads are in calls; after [dep_calls] they are between calls and the
    system is up. *)
Example C117_calls_begin_nonvacuous :
  let '(s, tr) := dep_run dep_calls in
  d_up s = true /\ PoolSpec.resting (count dep_ds) (d_pool s) 1 /\
  nth_error (loggers (d_sys s)) 0 = Some (mkLogger "x" 1 (Some 1) false DEBUG false true) /\
  forallb (fun d => match d_kind d with KMulti [] => false | _ => true end) dep_ds = true.
Proof.
  assert (H : forall id, id < 4 -> PoolModel.free_in (PoolModel.leaf (d_pool (fst (dep_run dep_calls))) id) 1 = true)
    by (intros [|[|[|[|id]]]] H; [vm_compute; reflexivity..|exfalso; lia]).
  rewrite (surjective_pairing (dep_run dep_calls)).
  split; [vm_compute; reflexivity|]. split; [split; [vm_compute; reflexivity|exact H]|]. split; vm_compute; reflexivity.
Qed.

Example C117_calls_met :
  Forall (fun p : string * said => let e := taken_down 1 (named (mkLogger (fst p) 1 (Some 1) false DEBUG false true) (snd p)) in
    EndSpec.call_ok e /\ EndSpec.legible e) [("y", dep_e1); ("y", dep_e2); ("x", dep_e3); ("y", dep_e4)].
Proof.
  assert (NB : forall l, existsb (Ascii.eqb newline) l = false -> RecordSpec.no_byte newline l).
  { intros l H Hi. assert (E : existsb (Ascii.eqb newline) l = true); [|congruence].
    apply existsb_exists. exists newline. split; [exact Hi|apply Ascii.eqb_refl]. }
  assert (RN : forall l, count_occ Ascii.ascii_dec l space = 0 -> RecordSpec.readable_name l).
  { intros l H. split.
    - intros a b ->. rewrite !count_occ_app in H. change (count_occ ascii_dec [space; space] space) with 2 in H. lia.
    - intros a ->. rewrite count_occ_app in H. change (count_occ ascii_dec [space] space) with 1 in H. lia. }
  repeat (apply Forall_cons; [split; [vm_compute; repeat split; discriminate|]|]); [| | | |apply Forall_nil];
    (split; [apply NB; reflexivity|]); (split; [apply NB; reflexivity|]); (split; [apply NB; reflexivity|apply RN; reflexivity]).
Qed.

Example C117_sendable_met :
  let F := file_settings dep_lt dep_mem 4096 TRACE EventModel.TI_NAME no_sizes in
  Forall (fun e => SyslogRunSpec.sendable F (taken_down 1 (named (mkLogger "x" 1 (Some 1) false DEBUG false true) e)))
    [dep_e1; dep_e2; dep_e4].
Proof.
  assert (NB : forall l, existsb (Ascii.eqb nul) l = false -> RecordSpec.no_byte nul l).
  { intros l H Hi. assert (E : existsb (Ascii.eqb nul) l = true); [|congruence].
    apply existsb_exists. exists nul. split; [exact Hi|apply Ascii.eqb_refl]. }
  cbv zeta. repeat (apply Forall_cons; [split; [vm_compute; repeat split; discriminate|apply NB; vm_compute; reflexivity]|]). apply Forall_nil.
Qed.
