(** * Property C108: records on the console are whole, whoever else writes there

    [creach cf n w tr]: sinks 0, 1, ... with configurations [cf] write to the same standard
    stream, to which the program writes too; [n i] threads use sink [i]. [the_console w] is
    everything the stream was given so far, [tr] what was observed. *)

From Coq Require Import Ascii String NArith Arith List Bool.
From Verif Require Import Base LevelModel SinkModel SinkSpec SinkProps SinkWitness ConsModel ConsSpec ConsProofs ConsShown.
Import ListNotations.
Open Scope string_scope.
Open Scope list_scope.

(** The stream was given a sequence of pieces, each a whole record of some sink or one whole
    output of the program: exactly the program's outputs in their order, and for each sink the
    first of its accepted events in their order; all of them once the sink is destroyed. *)
Theorem C108_whole :
  forall (E : Type) (cf : nat -> cfg E) n, console_sinks cf -> forall w tr,
    (forall i, sizes_ok (cf i)) -> creach cf n w tr ->
    exists ps, the_console w = concat (map (piece_text cf) ps) /\ program ps = printed tr /\
      forall i, (exists r, accepted (in_sink i tr) = records i ps ++ r) /\
        (forall t, c_lat0 (cf i) = false -> In (SawSink i (LDestroyed t)) tr ->
           accepted (in_sink i tr) = records i ps).
Proof. exact @console_whole. Qed.
Print Assumptions C108_whole.

(** Each of the sinks goes through an execution of that sink alone, so that what holds of a sink
    (C18, C20, C22, C24, C30 ...) holds of each of them. *)
Theorem C108_each_sink :
  forall (E : Type) (cf : nat -> cfg E) n w tr, creach cf n w tr ->
  forall i, reach (cf i) true (n i) (member w i) (in_sink i tr).
Proof. exact @member_reach. Qed.
Print Assumptions C108_each_sink.

(** Whatever the threads of a sink do alone they can do here, whatever the others have done, and
    without them. *)
Theorem C108_every_execution :
  forall (E : Type) (cf : nat -> cfg E) i (ms : list (nat * choice E)) w s ls,
  exec (cf i) (member w i) (map (fun m => MThread (fst m) (snd m)) ms) = (s, ls) ->
  exists w' tr, cexec cf w (map (fun m => CSink i (fst m) (snd m)) ms) = (w', tr) /\
    member w' i = s /\ in_sink i tr = ls /\ forall j, j <> i -> member w' j = member w j /\ in_sink j tr = [].
Proof. exact @console_execution. Qed.
Print Assumptions C108_every_execution.

(** A flush of the stream by one sink passes on what all have written: visible is at least, of
    every sink, what it would have made visible if it had the stream for itself ([disk]); whatever
    a theorem about one sink says is visible (C29, C77) is visible here. *)
Theorem C108_visible :
  forall (E : Type) (cf : nat -> cfg E) n, console_sinks cf -> forall w tr,
    (forall i, sizes_ok (cf i)) -> creach cf n w tr ->
    exists ps1 ps2 rest,
      the_console w = concat (map (piece_text cf) (ps1 ++ ps2)) /\ program (ps1 ++ ps2) = printed tr /\
      (forall i, records i (ps1 ++ ps2) = written (in_sink i tr)) /\
      shown w = concat (map (piece_text cf) ps1) ++ rest /\
      forall i, exists r, concat (map (c_render (cf i)) (records i ps1)) = concat (disk (member w i)) ++ r.
Proof. exact @console_visible. Qed.
Print Assumptions C108_visible.

(** ** A case: two sinks and the program, the stream passing on half a record in between. *)
Definition both_c : nat -> cfg string := fun _ => wcfg KConsole false.
Definition in_c (i : nat) (ms : list (move string)) : list (cmove string) :=
  flat_map (fun m => match m with MThread t c => [CSink i t c] | _ => [] end) ms.
Definition log_c (e : string) : list (move string) :=
  push 1 INFO e ++ go 1 6 ++ [MThread 0 (CWake true)] ++ go 0 12.
Definition end_c : list (move string) :=
  [MThread 1 CDestroy] ++ go 1 2 ++ [MThread 0 (CWake false)] ++ go 0 12 ++ go 1 4.
Definition three : list (cmove string) :=
  in_c 0 (log_c "one") ++ [CSpill 2] ++ [CProgram (bs "?")] ++ in_c 1 (log_c "two" ++ end_c) ++ in_c 0 end_c.

Example C108_nonvacuous :
  console_sinks both_c /\ (forall i, sizes_ok (both_c i)) /\
  exists w tr, cexec both_c (cinit both_c (fun _ => 1)) three = (w, tr) /\
    shown w = bs "on" /\
    the_console w = bs "one" ++ [newline] ++ bs "?" ++ bs "two" ++ [newline] /\
    In (SawSink 0 (LDestroyed 1)) tr /\ In (SawSink 1 (LDestroyed 1)) tr.
Proof.
  split; [intros i; reflexivity|]. split; [intros i; apply wsizes|].
  destruct (cexec both_c (cinit both_c (fun _ => 1)) three) as [w tr] eqn:E. exists w, tr. split; [reflexivity|].
  vm_compute in E. injection E as <- <-. split; [reflexivity|]. split; [reflexivity|]. split; vm_compute; tauto.
Qed.

(** Sink 0 is asked to flush, sink 1 is not; what sink 1 wrote before is passed on with it. *)
Definition asked_c (e : string) : list (move string) :=
  push 1 INFO e ++ go 1 6 ++ [MThread 1 CAsync] ++ go 1 2 ++ [MThread 0 (CWake false)] ++ go 0 12.
Definition flushed_c := cexec both_c (cinit both_c (fun _ => 1)) (in_c 1 (log_c "zero") ++ in_c 0 (asked_c "one") ++ in_c 1 (log_c "two")).
Example C108_visible_nonvacuous :
  concat (disk (member (fst flushed_c) 0)) = bs "one" ++ [newline] /\
  disk (member (fst flushed_c) 1) = [[]] /\ obuf (member (fst flushed_c) 1) = bs "zero" ++ [newline] ++ bs "two" ++ [newline] /\
  shown (fst flushed_c) = bs "zero" ++ [newline] ++ bs "one" ++ [newline] /\
  kept (fst flushed_c) = bs "two" ++ [newline].
Proof. vm_compute. repeat split. Qed.
