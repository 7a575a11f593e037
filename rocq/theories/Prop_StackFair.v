(** * Property C124: with fair spin locks every call returns, the buffers included *)
From Coq Require Import Ascii String NArith ZArith List Arith Bool Lia.
From Verif Require Import Base LevelModel SinkModel SinkSpec FullModel FullSpec PoolModel PoolSpec StackModel StackFairSpec StackFair StackFairFin.
From Verif Require CircModel TreeModel RecordModel EventModel SinkConfig SysModel SysWitness YamlModel YamlSpec YamlActSpec YamlWitness DeployModel DeploySpec DeployWitness Prop_Pool Prop_Stack Prop_StackEnd.
Import ListNotations.
Local Open Scope string_scope.
Local Open Scope list_scope.

(** A round gives every thread and every worker an operation that moves it.  One who is outside
    the buffers may be passed over if nothing can move it (and one with no call left is never
    waited for); one who is inside a buffer must be let on: that is fairness of its spin lock,
    without which the claim is false (C123).  Whatever the interleaving of the operations of
    put(), get() and size() of the buffers with those of the sinks, after so many rounds all calls
    have returned. *)
Theorem C124_all_calls_return :
  forall (E : Type) K (cf : nat -> cfg E) op n,
    (forall id, 1 <= c_cap (cf id)) -> (forall id, id < K -> sizes_ok (cf id)) ->
    (forall id, id < K -> has_dest (cf id) (op id)) ->
  forall s tr, spreach K cf op n s tr ->
  forall k ms s' l, srounds K cf n k s ms -> 40 * (senough K cf n s + 101 * length (filter weak ms)) <= k ->
    spexec K cf n s ms = Some (s', l) -> forall t, 1 <= t <= n -> sresting K s' t.
Proof. intros E K cf op n H1 H2 H3 s tr Hr k ms s' l. exact (calls_return K cf op n H1 H2 H3 s tr k ms s' l Hr). Qed.
Print Assumptions C124_all_calls_return.

(** There are such executions, of any length and without spurious outcomes, from every state. *)
Theorem C124_rounds_exist :
  forall (E : Type) K (cf : nat -> cfg E) op n, (forall id, 1 <= c_cap (cf id)) ->
  forall k s tr, spreach K cf op n s tr ->
    exists ms s' l, srounds K cf n k s ms /\ filter weak ms = [] /\ spexec K cf n s ms = Some (s', l).
Proof. intros E K cf op n H1 k s tr. exact (rounds_exist K cf op n H1 k s tr). Qed.
Print Assumptions C124_rounds_exist.

(** The program configured by a document, while and after its system exists. *)
Theorem C124_program_calls_return :
  forall lt memory address fg_first ds op n ord dbg L busy doc w1 gs,
    YamlSpec.doc_read L false (DeploySpec.before_configure busy) doc w1 gs -> ds = YamlActSpec.sinks_of (YamlModel.w_log w1) ->
    (forall j d, nth_error ds j = Some d -> op (S j) = false -> exists path ti z, YamlModel.d_kind d = YamlModel.KFile path ti z) ->
  forall s0 ms x tr k more x' l,
    xexec lt memory address fg_first ds n ord dbg (xstart lt memory address fg_first ds op n s0) ms = Some (x, tr) ->
    srounds (DeployModel.count ds) (DeployModel.cfg_at lt memory address fg_first ds) n k (x_pool x) more ->
    40 * (senough (DeployModel.count ds) (DeployModel.cfg_at lt memory address fg_first ds) n (x_pool x) + 101 * length (filter weak more)) <= k ->
    xexec lt memory address fg_first ds n ord dbg x (map DeployModel.DPool more) = Some (x', l) ->
    forall t, 1 <= t <= n -> sresting (DeployModel.count ds) (x_pool x') t.
Proof. exact program_calls_return. Qed.
Print Assumptions C124_program_calls_return.

Theorem C124_program_rounds_exist :
  forall lt memory address fg_first ds op n ord dbg L busy doc w1 gs,
    YamlSpec.doc_read L false (DeploySpec.before_configure busy) doc w1 gs -> ds = YamlActSpec.sinks_of (YamlModel.w_log w1) ->
  forall s0 ms x tr k,
    xexec lt memory address fg_first ds n ord dbg (xstart lt memory address fg_first ds op n s0) ms = Some (x, tr) ->
    exists more x' l, srounds (DeployModel.count ds) (DeployModel.cfg_at lt memory address fg_first ds) n k (x_pool x) more /\
      filter weak more = [] /\ xexec lt memory address fg_first ds n ord dbg x (map DeployModel.DPool more) = Some (x', l).
Proof. exact program_rounds_exist. Qed.
Print Assumptions C124_program_rounds_exist.

(** Two threads log to the same two sinks in opposite order; each is in the middle of put() of the
    buffer of its first sink. *)
Definition moves124 : list (pmove string) :=
  [XStart 1 (OLog INFO Prop_Pool.ab WARN "x"); XNext 1] ++ repeat (XLeaf 0 (MThread 1 (CGo false))) 4 ++
  [XStart 2 (OLog INFO Prop_Pool.ba WARN "y"); XNext 2] ++ repeat (XLeaf 1 (MThread 2 (CGo false))) 7.
Example C124_nonvacuous :
  match spexec 2 Prop_Pool.cf102 2 (spinit Prop_Pool.cf102 (fun _ => true) 2) moves124 with
  | Some (s, tr) => nth_error (pcs (sleaf s 0)) 1 = Some (InPut "x") /\ nth_error (pcs (sleaf s 1)) 2 = Some (InPut "y") /\
      length (stodo s 1) = 5 /\ length (stodo s 2) = 5
  | None => False
  end /\
  (forall id, 1 <= c_cap (Prop_Pool.cf102 id) /\ sizes_ok (Prop_Pool.cf102 id)) /\
  forall s tr, spexec 2 Prop_Pool.cf102 2 (spinit Prop_Pool.cf102 (fun _ => true) 2) moves124 = Some (s, tr) ->
    (forall t, 1 <= t <= 2 -> ~ sresting 2 s t) /\
    exists ms s' l, srounds 2 Prop_Pool.cf102 2 (40 * senough 2 Prop_Pool.cf102 2 s) s ms /\
      spexec 2 Prop_Pool.cf102 2 s ms = Some (s', l) /\ sresting 2 s' 1 /\ sresting 2 s' 2.
Proof.
  split; [vm_compute; repeat split|].
  assert (H : forall id, 1 <= c_cap (Prop_Pool.cf102 id) /\ sizes_ok (Prop_Pool.cf102 id)) by (intros id; split; [cbn; lia|intros e; reflexivity]).
  split; [exact H|]. intros s tr X. split.
  - assert (Z : forall o : option (spool string * list (plabel string)),
      match o with Some (s, _) => match stodo s 1, stodo s 2 with [], _ => false | _, [] => false | _, _ => true end | None => false end = true ->
      o = Some (s, tr) -> forall t, 1 <= t <= 2 -> ~ sresting 2 s t).
    { intros o T -> t Ht [R _]. destruct (stodo s 1) eqn:T1; [discriminate T|]. destruct (stodo s 2) eqn:T2; [discriminate T|].
      destruct t as [|[|[|t]]]; [lia|rewrite T1 in R; discriminate|rewrite T2 in R; discriminate|lia]. }
    refine (Z _ _ X). vm_compute. reflexivity.
  - destruct (C124_rounds_exist string 2 Prop_Pool.cf102 (fun _ => true) 2 (fun id => proj1 (H id)) (40 * senough 2 Prop_Pool.cf102 2 s) s tr (ex_intro _ _ X)) as (ms & s' & l & R & W & Y).
    exists ms, s', l. split; [exact R|]. split; [exact Y|].
    assert (A : forall t, 1 <= t <= 2 -> sresting 2 s' t).
    { refine (C124_all_calls_return string 2 Prop_Pool.cf102 (fun _ => true) 2 (fun id => proj1 (H id)) (fun id _ => proj2 (H id)) _ s tr (ex_intro _ _ X) _ ms s' l R _ Y).
      - intros id _. right. reflexivity.
      - rewrite W. cbn [length]. lia. }
    split; apply A; lia.
Qed.

(** The program of C121, both threads in put() of the buffer of one sink: a state the theorem
    speaks of, and rounds from there. *)
Example C124_program :
  match Prop_StackEnd.stk122 with
  | Some (x, tr) => length (DeploySpec.said_by 1 tr) = 1 /\
      map (fun p => match p with FullModel.InPut _ => true | _ => false end) (FullModel.pcs (sleaf (x_pool x) 1)) = [false; true; true]
  | None => False
  end.
Proof. vm_compute. repeat split. Qed.
