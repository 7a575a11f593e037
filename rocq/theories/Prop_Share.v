(** * Property C107: several sinks that write to the same file

    [sreach cf n w tr]: sinks 0, 1, ... with configurations [cf] have opened the same empty file;
    sink [i] is used by [n i] threads; [w] is a state reached, [tr] what was observed, each
    observation with the number of its sink. [the_file w] is the file as the operating system
    has it; [chunks w] the same with the sink each piece came from. *)

From Coq Require Import Ascii String NArith Arith List Bool.
From Verif Require Import Base LevelModel SinkModel SinkSpec SinkProps SinkWitness ShareModel ShareSpec ShareProofs.
Import ListNotations.
Open Scope string_scope.
Open Scope list_scope.

(** No byte is lost or overwritten: the bytes of each sink are in the file, in order, and
    nothing but the buffer of its stream is missing; after its destruction all are there. *)
Theorem C107_nothing_lost :
  forall (E : Type) (cf : nat -> cfg E) n, file_sinks cf -> forall w tr,
    (forall i, sizes_ok (cf i)) -> sreach cf n w tr -> forall i,
    (exists r, concat (map (c_render (cf i)) (written (of_sink i tr))) = concat (of_sink i (chunks w)) ++ r) /\
    (forall t, c_lat0 (cf i) = false -> In (i, LDestroyed t) tr ->
       concat (of_sink i (chunks w)) = concat (map (c_render (cf i)) (accepted (of_sink i tr)))).
Proof. exact @own_output. Qed.
Print Assumptions C107_nothing_lost.

(** Whatever a sink does alone (except opening the file for the first time) it can do here too,
    whatever the others have done, and without them. *)
Theorem C107_every_execution :
  forall (E : Type) (cf : nat -> cfg E) i ms, (forall m t, In m ms -> m <> MThread t (COpen ROFresh)) -> forall w s ls,
  exec (cf i) (one w i) ms = (s, ls) -> exists w' tr, sexec cf w (map (SMove i) ms) = (w', tr) /\
    one w' i = s /\ of_sink i tr = ls /\ forall j, j <> i -> one w' j = one w j /\ of_sink j tr = [].
Proof. exact @shared_execution. Qed.
Print Assumptions C107_every_execution.

(** What is true of the claim: if no stream passes on its contents of its own accord (full
    buffer), the file is a sequence of whole records in which those of each sink are in its
    order. Missing: streams whose buffer fills up. *)
Theorem C113_whole_records_partial :
  forall (E : Type) (cf : nat -> cfg E) n, file_sinks cf -> forall ms w tr,
    sexec cf (sinit cf n) ms = (w, tr) -> Forall (fun x => spills x = false) ms ->
    exists rs, the_file w = text cf rs /\ forall i, exists r, written (of_sink i tr) = of_sink i rs ++ r.
Proof. exact @whole_records. Qed.
Print Assumptions C113_whole_records_partial.

(** ** Cases *)
Definition both : nat -> cfg string := fun _ => wcfg KFile false.
Definition at_sink (i : nat) (ms : list (move string)) : list (smove string) := map (SMove i) ms.


(** An event is logged; the worker writes it into the stream. *)
Definition log_one (e : string) : list (move string) :=
  push 1 INFO e ++ go 1 6 ++ [MThread 0 (CWake true)] ++ go 0 12.
(** Destruction: the worker ends, the stream is closed. *)
Definition end_it : list (move string) :=
  [MThread 1 CDestroy] ++ go 1 2 ++ [MThread 0 (CWake false)] ++ go 0 12 ++ go 1 4.
(** Sink 0 logs "one" and its stream does [m]; sink 1 logs "two" and is destroyed; then sink 0 is. *)
Definition apart (m : list (move string)) : list (smove string) :=
  at_sink 0 (log_one "one" ++ m) ++ at_sink 1 (log_one "two" ++ end_it) ++ at_sink 0 end_it.

Definition got (w : shared string) (tr : list (nat * label string)) :=
  (accepted (of_sink 0 tr), accepted (of_sink 1 tr), the_file w).

Example C107_nonvacuous :
  file_sinks both /\ (forall i, sizes_ok (both i)) /\
  Forall (fun x => spills x = false) (apart []) /\
  exists w tr, sexec both (sinit both (fun _ => 1)) (apart []) = (w, tr) /\
    got w tr = (["one"], ["two"], text both [(1, "two"); (0, "one")]) /\
    In (0, LDestroyed 1) tr /\ In (1, LDestroyed 1) tr.
Proof.
  split; [intros i; reflexivity|]. split; [intros i; apply wsizes|]. split; [repeat constructor|].
  destruct (sexec both (sinit both (fun _ => 1)) (apart [])) as [w tr] eqn:E. exists w, tr. split; [reflexivity|].
  vm_compute in E. injection E as <- <-. split; [reflexivity|]. split; vm_compute; tauto.
Qed.

(** The claim is false: the stream of sink 0 passes on two bytes of its record before sink 1
    writes. Both sinks are destroyed, nothing is lost, but the file is not a sequence of the
    records logged, in any order and number. *)
Theorem C113_whole_records_refuted :
  exists (cf : nat -> cfg string) n w tr, file_sinks cf /\ sreach cf n w tr /\
    (forall i, sizes_ok (cf i)) /\ (forall i, c_lat0 (cf i) = false) /\
    In (0, LDestroyed 1) tr /\ In (1, LDestroyed 1) tr /\
    got w tr = (["one"], ["two"], bs "ontwo" ++ [newline] ++ bs "e" ++ [newline]) /\
    forall rs, (forall r, In r rs -> snd r = "one" \/ snd r = "two") -> the_file w <> text cf rs.
Proof.
  destruct (sexec both (sinit both (fun _ => 1)) (apart [MDrain 2])) as [w tr] eqn:E. exists both, (fun _ => 1), w, tr.
  split; [intros i; reflexivity|]. split; [eexists; exact E|]. split; [intros i; apply wsizes|]. split; [intros i; reflexivity|].
  vm_compute in E. injection E as <- <-.
  split; [vm_compute; tauto|]. split; [vm_compute; tauto|]. split; [reflexivity|].
  intros rs H T. destruct rs as [|[i e] rs]; [discriminate T|].
  destruct (H (i, e) (or_introl eq_refl)) as [X|X]; cbn [snd] in X; subst e; vm_compute in T; discriminate T.
Qed.
Print Assumptions C113_whole_records_refuted.
