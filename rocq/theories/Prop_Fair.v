(** * C100: threads using a sink never block one another for ever *)
From Coq Require Import Ascii String NArith Arith List Bool Lia.
From Verif Require Import Base LevelModel SinkModel SinkSpec SinkFairSpec SinkProofs SinkLife SinkFair SinkWitness.
Import ListNotations.
Open Scope string_scope.
Open Scope list_scope.

(** Any number of threads are in the middle of push(), flush(), async_flush() or rotate(), in any
    reachable state, whatever the worker does.  If the scheduler does not forget any thread, every
    one of these calls returns, after a number of rounds that depends only on how many threads and
    queued events there are: no deadlock, no livelock, nobody is overtaken for ever. *)
Theorem C100_all_calls_return :
  forall (E : Type) (C : cfg E), 1 <= c_cap C -> sizes_ok C ->
  forall op n s ls k ms s' l,
    has_dest C op -> reach C op n s ls -> alive s = true ->
    rounds C k s ms ->
    (200 + 100 * length (thr s)) * (1 + 2 * length (thr s) + length (q s)) <= k ->
    exec C s ms = (s', l) -> clients_idle s' = true.
Proof. intros E C H1 H2 op n s ls k ms s' l. exact (fair_finish C H1 H2 op n s ls k ms s' l). Qed.
Print Assumptions C100_all_calls_return.

(** Fair executions of any length exist from every state. *)
Theorem C100_rounds_exist :
  forall (E : Type) (C : cfg E) k s, exists ms, rounds C k s ms.
Proof. exact @rounds_exist. Qed.
Print Assumptions C100_rounds_exist.

(** In particular no reachable state is a dead end: all calls can still be completed. *)
Theorem C100_no_dead_end :
  forall (E : Type) (C : cfg E), 1 <= c_cap C -> sizes_ok C ->
  forall op n s ls, has_dest C op -> reach C op n s ls -> alive s = true ->
    exists ms s' l, no_calls ms /\ exec C s ms = (s', l) /\ clients_idle s' = true.
Proof. intros E C H1 H2 op n s ls. exact (completable C H1 H2 op n s ls). Qed.
Print Assumptions C100_no_dead_end.

(** A state in which everybody waits for one thread: the queue is full, thread 1 holds its oldest
    place and is formatting, thread 2 is flushing and spins on that place, thread 3 finds the
    flush running and comes back to put() again and again. *)
Definition small100 (k : sink_kind) (cap : nat) : cfg string :=
  mkCfg k cap false 1000 INFO (fun e => 1%N) (fun e => bs e ++ [newline]).
Definition moves100 : list (move string) :=
  push 1 INFO "a" ++ go 1 1 ++ push 2 INFO "b" ++ go 2 2 ++ push 3 INFO "c" ++ go 3 3.
Definition trace100 : list (label string) :=
  [LPush 1 INFO "a"; LAccept 1 "a"; LPush 2 INFO "b"; LLock 2; LPush 3 INFO "c"].
Definition state100 : state string :=
  mkSt [mkEntry 0 "a" Reserved] 0%N true false false false true [] [] []
       [WWait; PAdd 0 "a"; FGet (KRetry "b"); FTas (KRetry "c")] [(1, "a")] [] [] [].
Example C100_nonvacuous : forall k,
  sizes_ok (small100 k 1) /\ reach (small100 k 1) true 3 state100 trace100 /\ alive state100 = true /\
  (* thread 2 spins; thread 3 can run on its own for ever without getting anywhere *)
  ~ can_move (small100 k 1) 2 state100 /\
  fst (exec (small100 k 1) state100 (go 3 2)) = state100 /\
  (* ... which is no fair round, thread 1 being forgotten *)
  ~ fair_round (small100 k 1) state100 (go 3 2).
Proof.
  intros k. split; [intros e; reflexivity|].
  split; [exists moves100; destruct k; vm_compute; reflexivity|].
  split; [reflexivity|]. split; [intros (c & Hc); apply Hc; reflexivity|].
  split; [destruct k; vm_compute; reflexivity|].
  assert (M : forall s, nth_error (thr s) 1 = Some (PAdd 0 "a") -> nth_error (thr s) 1 = Some Idle \/ ~ can_move (small100 k 1) 1 s -> False).
  { intros s Hs [G|G]; [congruence|]. apply G. exists (CGo false). cbn [step]. rewrite Hs. cbn [step_thread fst s_thr s_q thr].
    destruct (thr s) as [|a [|b r]]; try discriminate Hs. cbn in *. congruence. }
  intros [_ H]. specialize (H 1 ltac:(cbn; lia)). cbn [go repeat] in H.
  inversion H as [? ? G|? ? ? G|? ? ? G]; subst.
  - eapply M; [|exact G]. reflexivity.
  - apply G. reflexivity.
  - change (fst (step (small100 k 1) state100 (MThread 3 (CGo false)))) with (s_thr state100 3 (PPut "c")) in G.
    inversion G as [? ? G1|? ? ? G1|? ? ? G1]; subst.
    + eapply M; [|exact G1]. reflexivity.
    + apply G1. reflexivity.
    + change (fst (step (small100 k 1) (s_thr state100 3 (PPut "c")) (MThread 3 (CGo false)))) with state100 in G1.
      inversion G1 as [? ? G2|? ? ? G2|? ? ? G2]; subst. eapply M; [|exact G2]. reflexivity.
Qed.

(** The capacity has to be positive: with capacity zero a push goes round for ever, however fair
    the scheduler is. *)
Definition zero100 : cfg string := mkCfg KFile 0 true 1000 INFO (fun e => 1%N) (fun e => bs e ++ [newline]).
Definition pushing100 := run zero100 1 (push 1 INFO "a").
Example C100_capacity_needed :
  sizes_ok zero100 /\ reach zero100 true 1 (fst pushing100) (snd pushing100) /\ alive (fst pushing100) = true /\
  forall k, exists ms, rounds zero100 k (fst pushing100) ms /\
    fst (exec zero100 (fst pushing100) ms) = fst pushing100 /\ clients_idle (fst pushing100) = false.
Proof.
  split; [intros e; reflexivity|]. split; [exists (push 1 INFO "a"); reflexivity|]. split; [reflexivity|].
  induction k as [|k (ms & H1 & H2 & H3)]; [exists []; split; [constructor|split; reflexivity]|].
  exists (go 1 6 ++ ms). assert (G : fst (exec zero100 (fst pushing100) (go 1 6)) = fst pushing100) by reflexivity. split.
  - apply rounds_S; [|rewrite G; exact H1]. split; [repeat constructor|]. intros [|[|t]] Ht.
    + apply ht_now. right. intros (c & Hc). apply Hc. vm_compute. reflexivity.
    + apply ht_move. discriminate.
    + vm_compute in Ht. lia.
  - split; [|exact H3]. rewrite SinkLabels.exec_app. destruct (exec zero100 (fst pushing100) (go 1 6)) as [s1 l1].
    cbn [fst] in G. subst s1. destruct (exec zero100 (fst pushing100) ms) as [s2 l2]. exact H2.
Qed.
