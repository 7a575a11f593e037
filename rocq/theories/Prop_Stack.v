(** * Property C121: from the document to the files, down to the circular buffers

    The system of C117 over the sinks of C114: put(), get() and size() of the buffers are their
    single atomic operations (circular_buffer.hpp:106-206), and any operation of any thread may
    come between any two of another. *)

From Coq Require Import Ascii String NArith Arith List Bool Lia.
From Verif Require Import Base LevelModel SinkConfig SysModel SysSpec SysWitness YamlModel YamlSpec YamlActSpec YamlDoc YamlWitness
  DeployModel DeploySpec DeployProofs DeployWitness StackModel StackProofs StackDoc.
From Verif Require EventModel RecordModel RecordSpec SinkModel SinkSpec FullModel PoolModel PoolSpec EndModel EndSpec SyslogRunModel SyslogRunSpec ConsoleSpec ConsoleDoc.
From Verif Require Prop_Deploy.
Import ListNotations.

(** Every program of threads that log, flush, rotate, reconfigure and destroy, in any
    interleaving of the atomic operations, has a defined outcome: nothing uninitialised is read,
    no slot of a buffer is touched by two at once, nothing is popped from an empty buffer. *)
Theorem C121_defined :
  forall lt memory address fg_first ds op n ord dbg L busy doc w1 gs,
    doc_read L false (before_configure busy) doc w1 gs -> ds = sinks_of (w_log w1) ->
  forall s0 ms, exists x tr, xexec lt memory address fg_first ds n ord dbg (xstart lt memory address fg_first ds op n s0) ms = Some (x, tr).
Proof. exact stack_defined. Qed.
Print Assumptions C121_defined.

(** Whatever is changed while the threads log: when a thread is between two calls, every leaf
    sink has accepted from it what its calls were to bring there. *)
Theorem C121_any_changes :
  forall lt memory address fg_first ds op n ord dbg L busy doc w1 gs,
    doc_read L false (before_configure busy) doc w1 gs -> ds = sinks_of (w_log w1) ->
  forall s0 ms x tr t id,
    xexec lt memory address fg_first ds n ord dbg (xstart lt memory address fg_first ds op n s0) ms = Some (x, tr) ->
    id < count ds -> 1 <= t <= n -> stodo (x_pool x) t = [] ->
    (forall id, id < count ds -> PoolModel.free_in (FullModel.outside (sleaf (x_pool x) id)) t = true) ->
    SinkSpec.accepted_by t (in_sink id tr) = flat_map (brings ds id) (said_by t tr).
Proof. exact stack_any_changes. Qed.
Print Assumptions C121_any_changes.

(** The files after the destruction of their sink hold exactly the calls due there by the
    document, thread by thread in the order of the calls. *)
Theorem C121_read_back :
  forall lt memory address fg_first ds op n ord dbg L fuel, usual_lib L -> refuses_huge_buffers L ->
  forall busy src doc w1 gs, document src doc -> doc_read L false (before_configure busy) doc w1 gs ->
    NoDup (map e_name (all_entries None gs)) -> ds = sinks_of (w_log w1) ->
  forall w' ms x tr j d path ti z u,
    fst (yaml L ord fuel dbg None src (before_configure busy)) = w' -> Forall plain ms ->
    xexec lt memory address fg_first ds n ord dbg (xstart lt memory address fg_first ds op n (w_sys w')) ms = Some (x, tr) ->
    nth_error ds j = Some d -> d_kind d = KFile path ti z -> z_latency z <> Some 0%N -> op (S j) = true ->
    In (SinkModel.LDestroyed u) (in_sink (S j) tr) -> platform_ok L lt address ->
    (forall t g Lg e, In (DSaid t g Lg e) tr ->
       EndSpec.call_ok (taken_down (S j) (named Lg e)) /\ EndSpec.legible (taken_down (S j) (named Lg e))) ->
    let F := file_settings lt memory address (d_level d) ti z in
    EndModel.f_thread F = ti /\ EndModel.f_localtime F = lt /\
    EndModel.f_max F = N.to_nat (match z_message z with Some m => m | None => 1024 end) /\
    exists runs : list (list (nat * said)),
      List.length runs = 1 + SinkSpec.fresh_files (in_sink (S j) tr) /\
      map (EndSpec.read_file F) (SinkSpec.disk (FullModel.rest (sleaf (x_pool x) (S j)))) =
        map (map (fun x => EndSpec.reads F (taken_down (S j) (snd x)))) runs /\
      Forall (fun x => 1 <= fst x <= n) (concat runs) /\
      forall t, 1 <= t <= n ->
        map snd (filter (fun x => Nat.eqb (fst x) t) (concat runs)) = flat_map (due gs ds (S j)) (said_by t tr).
Proof. exact stack_read_back. Qed.
Print Assumptions C121_read_back.

(** If the program dies between any two atomic operations: thread by thread the first of them. *)
Theorem C121_read_back_after_crash :
  forall lt memory address fg_first ds op n ord dbg L fuel, usual_lib L -> refuses_huge_buffers L ->
  forall busy src doc w1 gs, document src doc -> doc_read L false (before_configure busy) doc w1 gs ->
    NoDup (map e_name (all_entries None gs)) -> ds = sinks_of (w_log w1) ->
  forall w' ms x tr j d path ti z,
    fst (yaml L ord fuel dbg None src (before_configure busy)) = w' -> Forall plain ms ->
    xexec lt memory address fg_first ds n ord dbg (xstart lt memory address fg_first ds op n (w_sys w')) ms = Some (x, tr) ->
    nth_error ds j = Some d -> d_kind d = KFile path ti z -> op (S j) = true -> platform_ok L lt address ->
    (forall t g Lg e, In (DSaid t g Lg e) tr ->
       EndSpec.call_ok (taken_down (S j) (named Lg e)) /\ EndSpec.legible (taken_down (S j) (named Lg e))) ->
    let F := file_settings lt memory address (d_level d) ti z in
    EndModel.f_thread F = ti /\ EndModel.f_localtime F = lt /\
    EndModel.f_max F = N.to_nat (match z_message z with Some m => m | None => 1024 end) /\
    exists lines : list (nat * said),
      flat_map (EndSpec.read_file F) (SinkSpec.disk (FullModel.rest (sleaf (x_pool x) (S j)))) =
        map (fun x => EndSpec.reads F (taken_down (S j) (snd x))) lines /\
      Forall (fun x => 1 <= fst x <= n) lines /\
      forall t, 1 <= t <= n ->
        SinkSpec.is_prefix (map snd (filter (fun x => Nat.eqb (fst x) t) lines)) (flat_map (due gs ds (S j)) (said_by t tr)).
Proof. exact stack_read_back_crash. Qed.
Print Assumptions C121_read_back_after_crash.

(** The console. *)
Theorem C121_console :
  forall lt memory address fg_first ds op n ord dbg L fuel, usual_lib L -> refuses_huge_buffers L ->
  forall busy src doc w1 gs, document src doc -> doc_read L false (before_configure busy) doc w1 gs ->
    NoDup (map e_name (all_entries None gs)) -> ds = sinks_of (w_log w1) ->
  forall w' ms x tr j d st color ti z u,
    fst (yaml L ord fuel dbg None src (before_configure busy)) = w' -> Forall plain ms ->
    xexec lt memory address fg_first ds n ord dbg (xstart lt memory address fg_first ds op n (w_sys w')) ms = Some (x, tr) ->
    nth_error ds j = Some d -> d_kind d = KConsole st color ti z -> z_latency z <> Some 0%N -> op (S j) = true ->
    In (SinkModel.LDestroyed u) (in_sink (S j) tr) ->
    let F := console_settings lt memory address (d_level d) ti z in
    EndModel.f_thread F = ti /\ EndModel.f_localtime F = lt /\
    EndModel.f_max F = N.to_nat (match z_message z with Some m => m | None => 1024 end) /\
    exists lines : list (nat * said),
      concat (SinkSpec.files (FullModel.rest (sleaf (x_pool x) (S j)))) =
        concat (map (fun x => console_record lt fg_first color F (taken_down (S j) (snd x))) lines) /\
      Forall (fun x => 1 <= fst x <= n) lines /\
      forall t, 1 <= t <= n -> map snd (filter (fun x => Nat.eqb (fst x) t) lines) = flat_map (due gs ds (S j)) (said_by t tr).
Proof. exact stack_console. Qed.
Print Assumptions C121_console.


(** Read on a terminal. *)
Theorem C121_console_read :
  forall lt memory address fg_first ds op n ord dbg L fuel, usual_lib L -> refuses_huge_buffers L ->
  forall busy src doc w1 gs, document src doc -> doc_read L false (before_configure busy) doc w1 gs ->
    NoDup (map e_name (all_entries None gs)) -> ds = sinks_of (w_log w1) ->
  forall w' ms x tr j d st color ti z u,
    fst (yaml L ord fuel dbg None src (before_configure busy)) = w' -> Forall plain ms ->
    xexec lt memory address fg_first ds n ord dbg (xstart lt memory address fg_first ds op n (w_sys w')) ms = Some (x, tr) ->
    nth_error ds j = Some d -> d_kind d = KConsole st color ti z -> z_latency z <> Some 0%N -> op (S j) = true ->
    In (SinkModel.LDestroyed u) (in_sink (S j) tr) -> platform_ok L lt address ->
    (forall t g Lg e, In (DSaid t g Lg e) tr ->
       EndSpec.call_ok (taken_down (S j) (named Lg e)) /\ EndSpec.legible (taken_down (S j) (named Lg e)) /\
       (color = true -> ConsoleSpec.paintable (taken_down (S j) (named Lg e)))) ->
    let F := console_settings lt memory address (d_level d) ti z in
    exists lines : list (nat * said),
      EndSpec.read_file F (ConsoleSpec.on_terminal color (concat (SinkSpec.files (FullModel.rest (sleaf (x_pool x) (S j)))))) =
        map (fun x => EndSpec.reads F (taken_down (S j) (snd x))) lines /\
      Forall (fun x => 1 <= fst x <= n) lines /\
      forall t, 1 <= t <= n -> map snd (filter (fun x => Nat.eqb (fst x) t) lines) = flat_map (due gs ds (S j)) (said_by t tr).
Proof. exact ConsoleDoc.console_read_stack. Qed.
Print Assumptions C121_console_read.

(** The syslog. *)
Theorem C121_syslog :
  forall lt memory address fg_first ds op n ord dbg L fuel, usual_lib L -> refuses_huge_buffers L ->
  forall busy src doc w1 gs, document src doc -> doc_read L false (before_configure busy) doc w1 gs ->
    NoDup (map e_name (all_entries None gs)) -> ds = sinks_of (w_log w1) ->
  forall w' ms x tr j d ident ti z u sent,
    fst (yaml L ord fuel dbg None src (before_configure busy)) = w' -> Forall plain ms ->
    xexec lt memory address fg_first ds n ord dbg (xstart lt memory address fg_first ds op n (w_sys w')) ms = Some (x, tr) ->
    nth_error ds j = Some d -> d_kind d = KSyslog ident ti z -> z_latency z <> Some 0%N -> op (S j) = true ->
    In (SinkModel.LDestroyed u) (in_sink (S j) tr) -> platform_ok L lt address ->
    (forall t g Lg e, In (DSaid t g Lg e) tr -> EndSpec.call_ok (taken_down (S j) (named Lg e))) ->
    let F := file_settings lt memory address (d_level d) ti z in
    SyslogRunModel.received (taken_down (S j)) F (in_sink (S j) tr) = Some sent ->
    exists lines : list (nat * said),
      map fst sent = flat_map (fun x => SyslogRunSpec.urgency (taken_down (S j) (snd x))) lines /\
      Forall (fun x => 1 <= fst x <= n) lines /\
      forall t, 1 <= t <= n ->
        map snd (filter (fun x => Nat.eqb (fst x) t) lines) = flat_map (due gs ds (S j)) (said_by t tr).
Proof. exact stack_syslog. Qed.
Print Assumptions C121_syslog.

(** The texts (of calls without a NUL byte in them): the calls come in portions, one portion for
    each flush(), and all messages of a portion carry the text of its first call (C17). *)
Theorem C121_syslog_texts :
  forall lt memory address fg_first ds op n ord dbg L fuel, usual_lib L -> refuses_huge_buffers L ->
  forall busy src doc w1 gs, document src doc -> doc_read L false (before_configure busy) doc w1 gs ->
    NoDup (map e_name (all_entries None gs)) -> ds = sinks_of (w_log w1) ->
  forall w' ms x tr j d ident ti z u sent,
    fst (yaml L ord fuel dbg None src (before_configure busy)) = w' -> Forall plain ms ->
    xexec lt memory address fg_first ds n ord dbg (xstart lt memory address fg_first ds op n (w_sys w')) ms = Some (x, tr) ->
    nth_error ds j = Some d -> d_kind d = KSyslog ident ti z -> z_latency z <> Some 0%N -> op (S j) = true ->
    In (SinkModel.LDestroyed u) (in_sink (S j) tr) -> platform_ok L lt address ->
    let F := file_settings lt memory address (d_level d) ti z in
    (forall t g Lg e, In (DSaid t g Lg e) tr -> SyslogRunSpec.sendable F (taken_down (S j) (named Lg e))) ->
    SyslogRunModel.received (taken_down (S j)) F (in_sink (S j) tr) = Some sent ->
    exists flushed : list (list (nat * said)),
      sent = flat_map (fun xs => match xs with
                                 | [] => []
                                 | x :: _ => map (fun p => (p, SyslogRunSpec.tells F (taken_down (S j) (snd x))))
                                                 (flat_map (fun y => SyslogRunSpec.urgency (taken_down (S j) (snd y))) xs)
                                 end) flushed /\
      Forall (fun x => 1 <= fst x <= n) (concat flushed) /\
      forall t, 1 <= t <= n ->
        map snd (filter (fun x => Nat.eqb (fst x) t) (concat flushed)) = flat_map (due gs ds (S j)) (said_by t tr).
Proof. exact stack_syslog_texts. Qed.
Print Assumptions C121_syslog_texts.

(** No call is turned away, and it begins at once. *)
Theorem C121_calls_begin :
  forall lt memory address fg_first ds op n ord dbg L fuel, usual_lib L -> refuses_huge_buffers L ->
  forall busy src doc w1 gs, document src doc -> doc_read L false (before_configure busy) doc w1 gs ->
    NoDup (map e_name (all_entries None gs)) -> ds = sinks_of (w_log w1) ->
  forall w' ms x tr t i Lg e,
    fst (yaml L ord fuel dbg None src (before_configure busy)) = w' -> Forall plain ms ->
    xexec lt memory address fg_first ds n ord dbg (xstart lt memory address fg_first ds op n (w_sys w')) ms = Some (x, tr) ->
    x_up x = true -> (forall d, In d ds -> d_kind d <> KMulti []) -> 1 <= t <= n ->
    stodo (x_pool x) t = [] -> (forall id, id < count ds -> PoolModel.free_in (FullModel.outside (sleaf (x_pool x) id)) t = true) ->
    nth_error (loggers (x_sys x)) i = Some Lg -> l_alive Lg = true ->
    exists x' l g, xstep lt memory address fg_first ds n ord dbg x (DLog t i e) = Some (x', l) /\
      said_by t l = [(g, Lg, e)] /\ group_settings gs g <> None.
Proof. exact stack_call_begins. Qed.
Print Assumptions C121_calls_begin.

(** The document of C117; the two threads stand inside put() of the same buffer at the same time. *)
Local Open Scope string_scope.
Local Open Scope list_scope.
Definition stk_run (ms : list dmove) := xexec dep_lt dep_mem 4096 true dep_ds 2 idord true
  (xstart dep_lt dep_mem 4096 true dep_ds (fun _ => true) 2 (w_sys dep_w')) ms.
Definition stk_calls : list dmove :=
  [DSys (GetLogger "x" "b" None None); DSys (GetLogger "y" "c" None None);
   DLog 1 1 dep_e1; DLog 2 1 dep_e2] ++ onward 1 4 ++ onward 2 200 ++ onward 1 200 ++ onward 2 200 ++
  [DLog 1 1 dep_e4; DLog 2 0 dep_e3] ++ onward 1 200 ++ onward 2 200.
Definition stk_end : list dmove :=
  stk_calls ++ [DEnd; DPool (PoolModel.XDestroy 1 1)] ++ onward 1 3 ++ worker 1 200 ++ onward 1 3 ++
  [DPool (PoolModel.XDestroy 2 1)] ++ onward 1 3 ++ worker 2 200 ++ onward 1 3.
Example C121_nonvacuous :
  match stk_run stk_end with
  | Some (x, tr) =>
      existsb (fun l => match l with SinkModel.LDestroyed 1 => true | _ => false end) (in_sink 1 tr) = true /\
      map Prop_Deploy.in_short (said_by 1 tr) = [("c", "y", INFO, "one"); ("c", "y", DEBUG, "four")] /\
      map Prop_Deploy.in_short (said_by 2 tr) = [("c", "y", WARN, "two"); ("b", "x", DEBUG, "three")] /\
      SinkSpec.disk (FullModel.rest (sleaf (x_pool x) 1)) =
        [bs "24.02.29 12:17:35.000001  main             Info      y  one" ++ [newline] ++
         bs "24.02.29 12:17:35.000001  side             Warning   y  two" ++ [newline] ++
         bs "24.02.29 12:17:35.000001  side             Debug     x  three" ++ [newline]] /\
      EndSpec.read_file (console_settings dep_lt dep_mem 4096 WARN EventModel.TI_NONE no_sizes)
        (ConsoleSpec.on_terminal false (concat (SinkSpec.files (FullModel.rest (sleaf (x_pool x) 2))))) =
        [EndSpec.reads (console_settings dep_lt dep_mem 4096 WARN EventModel.TI_NONE no_sizes)
           (taken_down 2 (named (mkLogger "y" 2 (Some 3) false INFO false true) dep_e2))] /\
      SinkSpec.disk (FullModel.rest (sleaf (x_pool x) 2)) = [bs "24.02.29 12:17:35.000002  Warning   y  two" ++ [newline]]
  | None => False
  end.
Proof. vm_compute. repeat split. Qed.

(** In its middle: both threads inside put() of the buffer of sink 1. *)
Example C121_both_inside :
  match stk_run ([DSys (GetLogger "x" "b" None None); DSys (GetLogger "y" "c" None None); DLog 1 1 dep_e1; DLog 2 1 dep_e2] ++
                 onward 1 6 ++ onward 2 16) with
  | Some (x, _) => map (fun p => match p with FullModel.InPut _ => true | _ => false end) (FullModel.pcs (sleaf (x_pool x) 1)) = [false; true; true]
  | None => False
  end.
Proof. vm_compute. reflexivity. Qed.

Example C121_calls_begin_nonvacuous :
  match stk_run stk_calls with
  | Some (x, tr) =>
      x_up x = true /\ stodo (x_pool x) 1 = [] /\
      forallb (fun id => PoolModel.free_in (FullModel.outside (sleaf (x_pool x) id)) 1) (seq 0 (count dep_ds)) = true /\
      nth_error (loggers (x_sys x)) 0 = Some (mkLogger "x" 1 (Some 1) false DEBUG false true) /\
      forallb (fun d => match d_kind d with KMulti [] => false | _ => true end) dep_ds = true
  | None => False
  end.
Proof. vm_compute. repeat split. Qed.

(** The rest of the hypotheses: C117_hypotheses_met, C117_calls_met. *)
Example C121_plain : Forall plain stk_end.
Proof.
  apply Forall_forall. intros m H. unfold stk_end, stk_calls, onward, worker in H.
  repeat match goal with
  | H : In _ (_ ++ _) |- _ => apply in_app_or in H; destruct H as [H|H]
  | H : In _ (concat (repeat _ _)) |- _ => apply in_concat in H; destruct H as (x & H1 & H); apply repeat_spec in H1; subst x
  | H : In _ (_ :: _) |- _ => destruct H as [<-|H]; [exact I|]
  | H : In _ [] |- _ => destruct H
  end.
Qed.
