(** * C101, C102: many threads logging through composite sinks *)
From Coq Require Import Ascii String NArith Arith List Bool Lia.
From Verif Require Import Base LevelModel SinkModel SinkSpec TreeSpec SinkProps SinkReturn PoolModel PoolSpec PoolProofs PoolFair.
From Verif Require TreeModel.
Import ListNotations.
Open Scope string_scope.
Open Scope list_scope.

(** ** C101 *)
(** Whatever trees of composites the threads log through: what happens in a leaf sink is an
    execution of that sink alone, so all that is proved about leaf sinks (C18-C31) holds for it. *)
Theorem C101_leaf :
  forall (E : Type) K (cf : nat -> cfg E) op n s tr id,
    preach K cf op n s tr -> id < K -> reach (cf id) (op id) n (leaf s id) (leaf_trace id tr).
Proof. exact @leaf_reach. Qed.
Print Assumptions C101_leaf.

(** Whenever a thread is between two calls, every leaf sink has accepted from it exactly what its
    calls were to bring there: each event once for each way on which all levels let it pass, in
    the order of the calls. *)
Theorem C101_delivered :
  forall (E : Type) K (cf : nat -> cfg E) op n s tr t id,
    preach K cf op n s tr -> id < K -> 1 <= t <= n -> resting K s t ->
    accepted_by t (leaf_trace id tr) = flat_map (copies id) (started t tr).
Proof. exact @delivered. Qed.
Print Assumptions C101_delivered.

(** In between it is the beginning of that, and nobody else puts anything there. *)
Theorem C101_never_more :
  forall (E : Type) K (cf : nat -> cfg E) op n s tr id,
    preach K cf op n s tr -> id < K ->
    (forall t, 1 <= t <= n -> is_prefix (accepted_by t (leaf_trace id tr)) (flat_map (copies id) (started t tr))) /\
    Forall (fun x => 1 <= fst x <= n) (accepts (leaf_trace id tr)).
Proof.
  intros E K cf op n s tr id H Hid. split; [intros t Ht; exact (never_more K cf op n s tr t id H Hid Ht)|exact (only_threads K cf op n s tr id H Hid)].
Qed.
Print Assumptions C101_never_more.

(** After the destruction of a file or console sink with a worker: the destination contains the
    records of the accepted events in the order of acceptance, and these are, thread by thread,
    all that the calls of the thread were to bring to this sink. *)
Theorem C101_destroyed :
  forall (E : Type) K (cf : nat -> cfg E) op n s tr id u,
    preach K cf op n s tr -> id < K -> In (LDestroyed u) (leaf_trace id tr) ->
    sizes_ok (cf id) -> c_lat0 (cf id) = false -> op id = true -> c_kind (cf id) <> KSyslog ->
    concat (files (leaf s id)) = concat (map (c_render (cf id)) (accepted (leaf_trace id tr))) /\
    (c_kind (cf id) = KFile -> disk (leaf s id) = files (leaf s id)) /\
    (forall t, 1 <= t <= n -> accepted_by t (leaf_trace id tr) = flat_map (copies id) (started t tr)).
Proof.
  intros E K cf op n s tr id u H Hid Hd Hs Hl Ho Hk. pose proof (leaf_reach K cf op n s tr id H Hid) as HL. rewrite Ho in HL.
  destruct (destroyed_complete (cf id) n (leaf s id) (leaf_trace id tr) u Hs Hl HL Hd) as (_ & H2 & H3).
  split; [exact (H2 Hk)|]. split; [exact H3|]. intros t Ht. exact (all_destroyed K cf op n s tr u t id H Hid Hd Ht).
Qed.
Print Assumptions C101_destroyed.

(** Two threads, a file sink with worker (0) that occurs twice, a console sink without (1), a
    null sink (5). *)
Definition cf101 (id : nat) : cfg string :=
  match id with
  | 0 => mkCfg KFile 2 false 1000 INFO (fun e => 1%N) (fun e => bs e)
  | _ => mkCfg KConsole 1 true 1000 TRACE (fun e => 1%N) (fun e => bs e)
  end.
Definition tree101 : TreeModel.tree :=
  TreeModel.Multi DEBUG [TreeModel.Leaf 0 INFO; TreeModel.Multi WARN [TreeModel.Leaf 1 TRACE; TreeModel.Leaf 0 INFO]; TreeModel.Nowhere 2].
Definition drive (t k : nat) : list (pmove string) :=
  concat (repeat [XNext t; XLeaf 0 (MThread t (CGo false)); XLeaf 1 (MThread t (CGo false))] k).
Definition work (id k : nat) : list (pmove string) :=
  concat (repeat [XLeaf id (MThread 0 (CWake true)); XLeaf id (MThread 0 (CGo false))] k).
Definition moves101 : list (pmove string) :=
  [XStart 1 (OLog INFO tree101 WARN "a"); XStart 2 (OLog TRACE tree101 INFO "b")] ++ drive 1 3 ++ drive 2 4 ++ drive 1 5 ++
  drive 2 50 ++ [XStart 2 (OLog TRACE tree101 TRACE "c")] ++ drive 1 100 ++ drive 2 40 ++ [XStart 2 (OLog TRACE (TreeModel.Leaf 1 TRACE) TRACE "d")] ++ drive 2 40.
Definition end101 := pexec 2 cf101 2 (pinit cf101 (fun _ => true) 2) moves101.
Definition moves101' : list (pmove string) := moves101 ++ [XDestroy 0 1] ++ drive 1 3 ++ work 0 30 ++ drive 1 3.
Definition gone101 := pexec 2 cf101 2 (pinit cf101 (fun _ => true) 2) moves101'.
Example C101_nonvacuous :
  preach 2 cf101 (fun _ => true) 2 (fst end101) (snd end101) /\
  resting 2 (fst end101) 1 /\ resting 2 (fst end101) 2 /\
  started 1 (snd end101) = [OLog INFO tree101 WARN "a"] /\
  started 2 (snd end101) = [OLog TRACE tree101 INFO "b"; OLog TRACE tree101 TRACE "c"; OLog TRACE (TreeModel.Leaf 1 TRACE) TRACE "d"] /\
  accepts (leaf_trace 0 (snd end101)) = [(1, "a"); (2, "b"); (1, "a")] /\
  accepts (leaf_trace 1 (snd end101)) = [(1, "a"); (2, "d")] /\
  (* in the middle of the call, sink 1 has not got its copy yet *)
  accepts (leaf_trace 1 (snd (pexec 2 cf101 2 (pinit cf101 (fun _ => true) 2) (firstn 20 moves101)))) = [].
Proof.
  split; [exists moves101; vm_compute; reflexivity|].
  split; [split; [vm_compute; reflexivity|intros [|[|id]] H; [vm_compute; reflexivity..|exfalso; lia]]|].
  split; [split; [vm_compute; reflexivity|intros [|[|id]] H; [vm_compute; reflexivity..|exfalso; lia]]|].
  repeat split; vm_compute; reflexivity.
Qed.

Example C101_destroyed_nonvacuous :
  preach 2 cf101 (fun _ => true) 2 (fst gone101) (snd gone101) /\
  In (LDestroyed 1) (leaf_trace 0 (snd gone101)) /\ sizes_ok (cf101 0) /\ c_kind (cf101 0) = KFile /\
  disk (leaf (fst gone101) 0) = [bs "aba"].
Proof.
  split; [exists moves101'; vm_compute; reflexivity|]. split; [vm_compute; tauto|]. split; [intros e; reflexivity|].
  split; [reflexivity|]. vm_compute. reflexivity.
Qed.

(** ** C102 *)
(** Any number of threads are in the middle of logging through, flushing or rotating trees of
    composites, sharing leaf sinks, while no sink is being destroyed.  If the scheduler forgets
    no thread and no worker, every one of these calls returns: threads never block one another
    for ever, in whatever order the composites name their members. *)
Theorem C102_all_calls_return :
  forall (E : Type) K (cf : nat -> cfg E) op n,
    (forall id, id < K -> 1 <= c_cap (cf id)) -> (forall id, id < K -> sizes_ok (cf id)) ->
    (forall id, id < K -> has_dest (cf id) (op id)) ->
  forall s tr k ms s' l,
    preach K cf op n s tr -> settled K s -> prounds K cf n k s ms -> enough K cf n s <= k ->
    pexec K cf n s ms = (s', l) -> forall t, 1 <= t <= n -> resting K s' t.
Proof. intros E K cf op n H1 H2 H3 s tr k ms s' l. exact (fair_calls_return K cf op n H1 H2 H3 s tr k ms s' l). Qed.
Print Assumptions C102_all_calls_return.

(** Fair executions of any length exist from every reachable state, *)
Theorem C102_rounds_exist :
  forall (E : Type) K (cf : nat -> cfg E) op n k s tr, preach K cf op n s tr -> exists ms, prounds K cf n k s ms.
Proof. exact @fair_exists. Qed.
Print Assumptions C102_rounds_exist.

(** so no reachable state is a dead end. *)
Theorem C102_no_dead_end :
  forall (E : Type) K (cf : nat -> cfg E) op n,
    (forall id, id < K -> 1 <= c_cap (cf id)) -> (forall id, id < K -> sizes_ok (cf id)) ->
    (forall id, id < K -> has_dest (cf id) (op id)) ->
  forall s tr, preach K cf op n s tr -> settled K s ->
    exists ms s' l, Forall goes_on ms /\ pexec K cf n s ms = (s', l) /\ forall t, 1 <= t <= n -> resting K s' t.
Proof. intros E K cf op n H1 H2 H3 s tr. exact (pool_completable K cf op n H1 H2 H3 s tr). Qed.
Print Assumptions C102_no_dead_end.

(** Two threads name the same two sinks in opposite order, each sink having one place: thread 1
    holds the place in sink 0 and thread 2 that in sink 1, and each goes on to the other sink
    only when it has released it. *)
Definition cf102 (id : nat) : cfg string :=
  mkCfg (match id with 0 => KFile | _ => KConsole end) 1 false 1000 INFO (fun e => 1%N) (fun e => bs e).
Definition ab : TreeModel.tree := TreeModel.Multi INFO [TreeModel.Leaf 0 INFO; TreeModel.Leaf 1 INFO].
Definition ba : TreeModel.tree := TreeModel.Multi INFO [TreeModel.Leaf 1 INFO; TreeModel.Leaf 0 INFO].
Definition moves102 : list (pmove string) :=
  [XStart 1 (OLog INFO ab WARN "x"); XNext 1; XLeaf 0 (MThread 1 (CGo false));
   XStart 2 (OLog INFO ba WARN "y"); XNext 2; XLeaf 1 (MThread 2 (CGo false)); XNext 1; XNext 2].
Definition state102 := fst (pexec 2 cf102 2 (pinit cf102 (fun _ => true) 2) moves102).
Example C102_nonvacuous :
  preach 2 cf102 (fun _ => true) 2 state102 (snd (pexec 2 cf102 2 (pinit cf102 (fun _ => true) 2) moves102)) /\
  settled 2 state102 /\ (forall id, id < 2 -> 1 <= c_cap (cf102 id) /\ sizes_ok (cf102 id)) /\
  nth_error (thr (leaf state102 0)) 1 = Some (PAdd 0 "x") /\ nth_error (thr (leaf state102 1)) 2 = Some (PAdd 0 "y") /\
  hd_error (todo state102 1) = Some (TreeModel.Put 1 WARN "x") /\ hd_error (todo state102 2) = Some (TreeModel.Put 0 WARN "y").
Proof.
  split; [exists moves102; vm_compute; reflexivity|].
  split; [intros [|[|id]] H; [left; vm_compute; reflexivity..|exfalso; lia]|].
  split; [intros id _; split; [cbn; lia|intros e; reflexivity]|]. repeat split; vm_compute; reflexivity.
Qed.
