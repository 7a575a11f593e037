(** * Properties C29 and C77: what async_flush() achieves, in every schedule

    [files s]: what the program has written to the destination; [disk s]: what the operating
    system has of it; [fip s = false]: nobody is inside flush(). *)
From Coq Require Import Ascii String NArith Arith List Bool.
From Verif Require Import Base LevelModel SinkModel SinkSpec SinkAsyncSpec SinkAsync SinkWitness.
Import ListNotations.
Open Scope string_scope.
Open Scope list_scope.

(** ** C77 *)
(** Whatever was written when async_flush() returned has reached the operating system once a
    flush() that wrote an event has ended; that event has as well, if nobody was flushing
    when the call returned.
    Missing: without a further event nothing happens; with spurious failures neither. *)
Theorem C77_async_schedules_partial :
  forall (E : Type) (C : cfg E), c_lat0 C = false -> sizes_ok C -> c_kind C <> KSyslog ->
  forall n t s ls s2 l2 ms s3 l3, reach C true n s ls -> calls_async C t s s2 l2 ->
  steady_moves ms -> exec C s2 ms = (s3, l3) -> write_ended l3 \/ (written l3 <> [] /\ fip s3 = false) ->
  is_prefix (concat (files s2)) (concat (disk s3)) /\
  (fip s2 = false -> exists e w, written l3 = e :: w /\ is_prefix (concat (files s2) ++ c_render C e) (concat (disk s3))).
Proof. exact @async_effective. Qed.
Print Assumptions C77_async_schedules_partial.

(** ** C29 *)
(** critical() is push() and flush().  If async_flush() was called before it and nothing was
    queued then, the event is in the hands of the operating system, with all before it, as
    soon as it has been written, by whichever thread, and nobody is flushing any more.
    Missing: without that call it is not. *)
Theorem C29_asked_partial :
  forall (E : Type) (C : cfg E), c_lat0 C = false -> sizes_ok C -> c_kind C <> KSyslog ->
  forall n t s ls s2 l2 ms s3 l3 e rest, reach C true n s ls -> calls_async C t s s2 l2 ->
  pending s2 = [] -> fip s2 = false ->
  steady_moves ms -> exec C s2 ms = (s3, l3) -> accepted l3 = e :: rest -> In e (written l3) -> fip s3 = false ->
  is_prefix (concat (map (c_render C) (accepted (ls ++ l2) ++ [e]))) (concat (disk s3)).
Proof. exact @critical_asked. Qed.
Print Assumptions C29_asked_partial.

(** An event is written; async_flush(); critical(). *)
Definition asyncA := run (wcfg KFile false) 1 (push 1 INFO "abc" ++ go 1 4 ++ [MThread 1 CFlush] ++ go 1 8).
Definition asyncB := exec (wcfg KFile false) (fst asyncA) (MThread 1 CAsync :: go 1 1).
Definition asyncC := exec (wcfg KFile false) (fst asyncB) (push 1 CRITICAL "de" ++ go 1 4 ++ [MThread 1 CFlush] ++ go 1 8).
Example C29_asked_nonvacuous :
  calls_async (wcfg KFile false) 1 (fst asyncA) (fst asyncB) (snd asyncB) /\ disk (fst asyncB) = [[]] /\
  files (fst asyncB) = [bs "abc" ++ [newline]] /\ pending (fst asyncB) = [] /\ fip (fst asyncB) = false /\
  accepted (snd asyncC) = ["de"] /\ In "de" (written (snd asyncC)) /\ fip (fst asyncC) = false /\ write_ended (snd asyncC) /\
  disk (fst asyncC) = [bs "abc" ++ [newline] ++ bs "de" ++ [newline]].
Proof.
  split.
  { split; [discriminate|]. split; [vm_compute; reflexivity|]. split; [vm_compute; reflexivity|].
    exists [], (MThread 1 (CGo false)). do 3 eexists. split; [vm_compute; reflexivity|].
    split; [vm_compute; intros []|]. split; [vm_compute; reflexivity|]. split; [vm_compute; auto|vm_compute; reflexivity]. }
  split; [vm_compute; reflexivity|]. split; [vm_compute; reflexivity|]. split; [vm_compute; reflexivity|]. split; [vm_compute; reflexivity|].
  split; [vm_compute; reflexivity|]. split; [vm_compute; auto|]. split; [vm_compute; reflexivity|]. split; [|vm_compute; reflexivity].
  exists 1, "de". let v := eval vm_compute in (snd asyncC) in change (snd asyncC) with v.
  match goal with |- exists a b, ?l = _ /\ _ => exists (firstn 4 l), (skipn 5 l) end. split; [reflexivity|]. cbn. auto 10.
Qed.

(** A spurious failure: the event is written and stays in the stream. *)
Definition asyncD := exec (wcfg KFile false) (fst asyncB)
  (push 1 CRITICAL "de" ++ go 1 4 ++ [MThread 1 CFlush] ++ go 1 4 ++ [MThread 1 (CGo true)] ++ go 1 3).
Example C29_asked_spurious : written (snd asyncD) = ["de"] /\ fip (fst asyncD) = false /\ disk (fst asyncD) = [[]].
Proof. vm_compute. auto. Qed.
