(** * Property C98: with a worker, logging does not wait for the destination

    [t] is a client thread between calls; [own_moves t ms] of the moves [ms] are its own, the
    others are those of any other threads, in any order.  [labels_of t ls] is everything thread
    [t] was seen to do: no [LLock] (beginning of the work of flush()), no [LWrite], no
    [LReopen]. *)

From Coq Require Import Ascii String NArith Arith List Bool Lia.
From Verif Require Import Base LevelModel SinkModel SinkSpec SinkProps SinkWaitFree SinkWitness.
Import ListNotations.
Open Scope string_scope.
Open Scope list_scope.

(** push() that finds room in the queue: four steps of its own, whatever the others do, and it
    returns; the writing is left to others. *)
Theorem C98_push_with_room :
  forall (E : Type) (C : cfg E), c_lat0 C = false ->
  forall t, t <> 0 ->
  forall s l e ms1 s1 a c ms2 s2 b,
    nth_error (thr s) t = Some Idle -> alive s = true -> for_sink (c_level C) l = true ->
    exec C s (MThread t (CPush l e) :: ms1) = (s1, a) -> away t ms1 ->
    length (q s1) < c_cap C ->
    exec C s1 (MThread t c :: ms2) = (s2, b) -> own_moves t ms2 = 3 ->
    labels_of t (a ++ b) = [LPush t l e; LAccept t e; LReturn t] /\ nth_error (thr s2) t = Some Idle.
Proof. exact @push_returns. Qed.
Print Assumptions C98_push_with_room.

(** In its last step push() looks at the counter (C24): four fifths of the buffer or more take a
    waiting worker out of its wait; otherwise nothing is requested. *)
Theorem C24_push_requests_flush :
  forall (E : Type) (C : cfg E), c_lat0 C = false ->
  forall t, t <> 0 ->
  forall s l e ms1 s1 a c ms2 s2 b c' s3 b',
    nth_error (thr s) t = Some Idle -> alive s = true -> for_sink (c_level C) l = true ->
    exec C s (MThread t (CPush l e) :: ms1) = (s1, a) -> away t ms1 ->
    length (q s1) < c_cap C ->
    exec C s1 (MThread t c :: ms2) = (s2, b) -> own_moves t ms2 = 2 ->
    step C s2 (MThread t c') = (s3, b') ->
    b' = [LReturn t] /\
    ((c_threshold C <= size s2)%N -> nth_error (thr s3) 0 = Some WWait ->
     nth_error (thr (fst (step C s3 (MThread 0 (CWake false))))) 0 = Some (FTas KWorker)) /\
    ((size s2 < c_threshold C)%N -> ntf s3 = ntf s2).
Proof. exact @push_requests. Qed.
Print Assumptions C24_push_requests_flush.

Definition tight24 : cfg string :=
  mkCfg KFile 4 false 3 INFO (fun e => N.of_nat (Nat.min 100 (String.length e))) (fun e => bs e ++ [newline]).
Example C24_requests_nonvacuous :
  ntf (fst (run tight24 1 (push 1 INFO "ab" ++ go 1 4))) = false /\
  ntf (fst (run tight24 1 (push 1 INFO "ab" ++ go 1 4 ++ push 1 INFO "c" ++ go 1 4))) = true.
Proof. vm_compute. auto. Qed.

(** The asynchronous flush. *)
Theorem C98_async_flush :
  forall (E : Type) (C : cfg E), c_lat0 C = false ->
  forall t, t <> 0 ->
  forall s ms s' ls,
    nth_error (thr s) t = Some Idle -> alive s = true -> own_moves t ms = 1 ->
    exec C s (MThread t CAsync :: ms) = (s', ls) ->
    labels_of t ls = [LReturn t] /\ nth_error (thr s') t = Some Idle.
Proof. exact @async_returns. Qed.
Print Assumptions C98_async_flush.

(** rotate() of a file sink. *)
Theorem C98_rotate :
  forall (E : Type) (C : cfg E), c_lat0 C = false ->
  forall t, t <> 0 ->
  forall s ms s' ls,
    nth_error (thr s) t = Some Idle -> alive s = true -> c_kind C = KFile -> own_moves t ms = 2 ->
    exec C s (MThread t CRotate :: ms) = (s', ls) ->
    labels_of t ls = [LRotate t; LReturn t] /\ nth_error (thr s') t = Some Idle.
Proof. exact @rotate_returns. Qed.
Print Assumptions C98_rotate.

(** The asynchronous flush is not forgotten: if the worker is waiting when the call returns, it
    can leave its wait before the period is over. *)
Theorem C98_async_wakes_the_worker :
  forall (E : Type) (C : cfg E), c_lat0 C = false ->
  forall t, t <> 0 ->
  forall s ms c s' ls,
    nth_error (thr s) t = Some Idle -> alive s = true -> away t ms ->
    exec C s (MThread t CAsync :: ms ++ [MThread t c]) = (s', ls) ->
    labels_of t ls = [LReturn t] /\
    (nth_error (thr s') 0 = Some WWait ->
     nth_error (thr (fst (step C s' (MThread 0 (CWake false))))) 0 = Some (FTas KWorker)).
Proof. exact @async_wakes. Qed.
Print Assumptions C98_async_wakes_the_worker.

(** A push, an asynchronous flush and a rotation of thread 1 while thread 2 is in the middle of
    a flush (it has taken "a" out of the queue and not yet written it). *)
Definition busy98 (k : sink_kind) :=
  fst (run (wcfg k false) 2 (push 2 INFO "a" ++ go 2 4 ++ [MThread 2 CFlush] ++ go 2 2)).
Example C98_nonvacuous : forall k,
  fip (busy98 k) = true /\ nth_error (thr (busy98 k)) 1 = Some Idle /\ alive (busy98 k) = true /\
  nth_error (thr (busy98 k)) 0 = Some WWait /\ length (q (busy98 k)) < c_cap (wcfg k false) /\
  snd (exec (wcfg k false) (busy98 k) (push 1 INFO "b" ++ go 1 2 ++ go 2 1 ++ go 1 2)) =
    match k with
    | KSyslog => [LPush 1 INFO "b"; LAccept 1 "b"; LWrite 2 "a"; LReturn 1]
    | _ => [LPush 1 INFO "b"; LAccept 1 "b"; LReturn 1]
    end /\
  snd (exec (wcfg k false) (busy98 k) (MThread 1 CAsync :: go 1 1)) = [LReturn 1] /\
  snd (exec (wcfg KFile false) (busy98 KFile) (MThread 1 CRotate :: go 1 2)) = [LRotate 1; LReturn 1].
Proof. intros k. destruct k; vm_compute; repeat (split; [reflexivity|]); auto. Qed.

(** Without room the pushing thread takes part in the writing, and with latency zero every
    push does: both hypotheses are needed. *)
Definition full98 (k : sink_kind) :=
  fst (run (wcfg k false) 1 (flat_map (fun e => push 1 INFO e ++ go 1 4) ["a"; "b"; "c"; "d"])).
Example C98_full_needed : forall k,
  length (q (full98 k)) = c_cap (wcfg k false) /\
  In (LLock 1) (snd (exec (wcfg k false) (full98 k) (push 1 INFO "e" ++ go 1 4))).
Proof. intros k. destruct k; vm_compute; auto. Qed.
Example C98_latency_needed : forall k,
  In (LLock 1) (snd (run (wcfg k true) 1 (push 1 INFO "e" ++ go 1 5))).
Proof. intros k. destruct k; vm_compute; auto. Qed.
