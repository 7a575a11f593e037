(** * Vocabulary for C101 and C102: many threads, many sinks *)
From Coq Require Import List Arith NArith Bool.
From Verif Require Import Base LevelModel SinkModel SinkSpec TreeSpec PoolModel.
From Verif Require TreeModel.
Import ListNotations.

Section PoolSpec.
Context {E : Type}.
Variable K : nat.
Variable cf : nat -> cfg E.
Variable op : nat -> bool.
Variable n : nat.

(** What happened in leaf sink [id]. *)
Definition leaf_trace (id : nat) (tr : list (plabel E)) : list (label E) :=
  flat_map (fun x => match x with PLeaf i l => if Nat.eqb i id then [l] else [] | PStart _ _ => [] end) tr.

(** The calls begun by thread [t], in order. *)
Definition started (t : nat) (tr : list (plabel E)) : list (order E) :=
  flat_map (fun x => match x with PStart u o => if Nat.eqb u t then [o] else [] | PLeaf _ _ => [] end) tr.

(** What the call is to bring to leaf sink [id]: the event, once for each way to it on which every
    level lets it pass. *)
Definition is_it (id : nat) (x : option nat) : bool :=
  match x with Some i => Nat.eqb i id | None => false end.
Definition copies (id : nat) (o : order E) : list E :=
  match o with
  | OLog lv d l e => if passes_b l lv then repeat e (length (filter (is_it id) (reached l d))) else []
  | OFlush _ | ORotate _ => []
  end.

(** Thread [t] is between two calls. *)
Definition resting (s : pstate E) (t : nat) : Prop :=
  todo s t = [] /\ forall id, id < K -> free_in (leaf s id) t = true.

Definition preach (s : pstate E) (tr : list (plabel E)) : Prop :=
  exists ms, pexec K cf n (pinit cf op n) ms = (s, tr).

(** ** Fair executions *)

(** Those who act: the threads, and the worker of each leaf sink. *)
Inductive agent := Client (t : nat) | Worker (id : nat).
Definition agents : list agent := map Client (seq 1 n) ++ map Worker (seq 0 K).

(** Where an agent is. *)
Definition place (s : pstate E) (a : agent) : list (TreeModel.call E) * list (option (pc E)) :=
  match a with
  | Client t => (todo s t, map (fun id => nth_error (thr (leaf s id)) t) (seq 0 K))
  | Worker id => ([], [nth_error (thr (leaf s id)) 0])
  end.

(** No call of the user begins, no sink begins to be destroyed (what is running goes on). *)
Definition goes_on (m : pmove E) : Prop :=
  match m with XStart _ _ | XDestroy _ _ => False | XNext _ | XLeaf _ _ => True end.

Definition can_go (a : agent) (s : pstate E) : Prop :=
  exists m, goes_on m /\ place (fst (pstep K cf n s m)) a <> place s a.

(** There is a moment at which the agent moves, or has nothing to do, or cannot move whatever
    the environment does. *)
Inductive turn (a : agent) : pstate E -> list (pmove E) -> Prop :=
| t_now s ms : (exists t, a = Client t /\ resting s t) \/ ~ can_go a s -> turn a s ms
| t_move s m ms : place (fst (pstep K cf n s m)) a <> place s a -> turn a s (m :: ms)
| t_later s m ms : turn a (fst (pstep K cf n s m)) ms -> turn a s (m :: ms).

(** A stretch of execution in which nobody is forgotten. *)
Definition pround (s : pstate E) (ms : list (pmove E)) : Prop :=
  Forall goes_on ms /\ forall a, In a agents -> turn a s ms.
Inductive prounds : nat -> pstate E -> list (pmove E) -> Prop :=
| pr_0 s : prounds 0 s []
| pr_S k s ms ms' : pround s ms -> prounds k (fst (pexec K cf n s ms)) ms' -> prounds (S k) s (ms ++ ms').

(** No leaf sink is at the moment being destroyed. *)
Definition settled (s : pstate E) : Prop :=
  forall id, id < K -> alive (leaf s id) = true \/ exists t, nth_error (thr (leaf s id)) t = Some Dead.

(** How many rounds suffice: what a leaf sink may need, and that again for every call on a leaf
    sink still to be made. *)
Definition leaf_rounds (id : nat) : nat := (200 + 100 * S n) * (1 + 2 * S n + c_cap (cf id)).
Definition all_leaves : nat := list_sum (map leaf_rounds (seq 0 K)).
Definition calls_left (s : pstate E) : nat := list_sum (map (fun t => length (todo s t)) (seq 1 n)).
Definition enough (s : pstate E) : nat := (calls_left s + 1) * (all_leaves + 1).

End PoolSpec.

(** A weak compare-exchange that fails spuriously, or a load that returns an old value, in a leaf sink. *)
Definition weak {E : Type} (m : pmove E) : bool := match m with XLeaf _ x => spurious x | _ => false end.
(** Leaf sink [id] has been destroyed. *)
Definition gone {E : Type} (s : pstate E) (id : nat) : Prop := exists t, nth_error (thr (leaf s id)) t = Some Dead.
(** No call of the user begins, but sinks may be destroyed. *)
Definition closing {E : Type} (m : pmove E) : Prop := match m with XStart _ _ => False | _ => True end.
