(** * Vocabulary for C124: fair executions of the whole stack, the buffers included *)
From Coq Require Import List Arith NArith Bool.
From Verif Require Import Base SinkModel FullModel FullSpec PoolModel PoolSpec StackModel.
From Verif Require CircModel TreeModel.
Import ListNotations.

Section StackFairSpec.
Context {E : Type}.
Variable K : nat.
Variable cf : nat -> cfg E.
Variable op : nat -> bool.
Variable n : nat.

Definition spreach (s : spool E) (tr : list (plabel E)) : Prop :=
  exists ms, spexec K cf n (spinit cf op n) ms = Some (s, tr).

(** Where a thread is in a leaf sink, and where in its buffer. *)
Definition spot (s : spool E) (id t : nat) : option (fpc E) * CircModel.pc E :=
  (nth_error (pcs (sleaf s id)) t, CircModel.t_pc (CircModel.thr (ring (sleaf s id)) t)).
Definition splace (s : spool E) (a : agent) : list (TreeModel.call E) * list (option (fpc E) * CircModel.pc E) :=
  match a with
  | Client t => (stodo s t, map (fun id => spot s id t) (seq 0 K))
  | Worker id => ([], [spot s id 0])
  end.

(** Thread [t] is between two calls. *)
Definition sresting (s : spool E) (t : nat) : Prop :=
  stodo s t = [] /\
  forall id, id < K -> nth_error (pcs (sleaf s id)) t = Some (At Idle) \/ nth_error (pcs (sleaf s id)) t = Some (At Dead).

(** The agent is in the middle of put(), get() or size() of the buffer of a leaf sink, or holds
    one of its slots. *)
Definition busy_in (s : spool E) (id t : nat) : Prop :=
  exists p, nth_error (pcs (sleaf s id)) t = Some p /\ in_buffer p = true.
Definition sbusy (s : spool E) (a : agent) : Prop :=
  match a with
  | Client t => exists id, id < K /\ busy_in s id t
  | Worker id => busy_in s id 0
  end.

Definition scan_go (a : agent) (s : spool E) : Prop :=
  exists m s' l, goes_on m /\ spstep K cf n s m = Some (s', l) /\ splace s' a <> splace s a.

(** There is a moment at which the agent moves, or has nothing to do, or is outside the buffers
    and cannot move whatever the environment does.  Inside a buffer it moves: it is not passed
    over for ever when it wants the spin lock. *)
Inductive sturn (a : agent) : spool E -> list (pmove E) -> Prop :=
| st_now s ms : (exists t, a = Client t /\ sresting s t) \/ (~ sbusy s a /\ ~ scan_go a s) -> sturn a s ms
| st_move s m ms s' l : spstep K cf n s m = Some (s', l) -> splace s' a <> splace s a -> sturn a s (m :: ms)
| st_later s m ms s' l : spstep K cf n s m = Some (s', l) -> sturn a s' ms -> sturn a s (m :: ms).

(** A stretch of execution in which nobody is forgotten. *)
Definition sround (s : spool E) (ms : list (pmove E)) : Prop :=
  Forall goes_on ms /\ forall a, In a (agents K n) -> sturn a s ms.
Inductive srounds : nat -> spool E -> list (pmove E) -> Prop :=
| sr_0 s : srounds 0 s []
| sr_S k s ms ms' s' l : sround s ms -> spexec K cf n s ms = Some (s', l) -> srounds k s' ms' -> srounds (S k) s (ms ++ ms').

(** How many rounds suffice: forty times as many as over ideal queues. *)
Definition scalls_left (s : spool E) : nat := list_sum (map (fun t => length (stodo s t)) (seq 1 n)).
Definition senough (s : spool E) : nat := (scalls_left s + 1) * (all_leaves K cf n + 1).

End StackFairSpec.
