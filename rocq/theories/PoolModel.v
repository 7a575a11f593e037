(** * Model of many threads logging through composite sinks
      (logger.hpp:38-72, multisink.cpp:16-34, multisink.hpp:36, sink.hpp:116-155)

    Joins TreeModel, which says what calls on leaf sinks a call on a logger or a composite
    amounts to, with SinkModel, which says what happens inside a leaf sink.  There are [K] leaf
    sinks (file, console, syslog) with the settings [cf]; a number from [K] on is a null sink,
    on which calls have no effect (C35).  The composites above them have no state of their own.
    Threads 1 to [n] make the calls; every leaf sink has its own worker (thread 0 there).

    Simplifications:
    - A call whose behaviour is undefined (C34) is not begun.
    - All leaf sinks exist from the start.
    - The inner calls of a composite are made one after the other, each after the previous one
      has returned, as the loops in sink.hpp:124-126, multisink.cpp:21-34 do. *)

From Coq Require Import List Arith NArith Bool.
From Verif Require Import Base LevelModel SinkModel.
From Verif Require TreeModel.
Import ListNotations.

Set Implicit Arguments.

Section Pool.
Context {E : Type}.
Variable K : nat.              (* how many leaf sinks *)
Variable cf : nat -> cfg E.    (* their settings *)
Variable op : nat -> bool.     (* was the file opened *)
Variable n : nat.              (* how many threads *)

(** Calls of the user. *)
Inductive order :=
| OLog (lv : level) (d : TreeModel.tree) (l : level) (e : E) (* on a logger of level lv with sink d: logger.hpp:43-55 *)
| OFlush (d : TreeModel.tree)                                (* on a sink, or of a logger (logger.hpp:190-192) *)
| ORotate (d : TreeModel.tree).                              (* on a sink (sink.hpp:170)                    *)

Definition sink_of (o : order) : TreeModel.tree :=
  match o with OLog _ d _ _ | OFlush d | ORotate d => d end.

(** The calls on leaf sinks, in order. *)
Definition plan (o : order) : TreeModel.outcome E :=
  match o with
  | OLog lv d l e => TreeModel.logger_push lv d l e
  | OFlush d => TreeModel.Done (TreeModel.flush d)
  | ORotate d => TreeModel.Done (TreeModel.rotate d)
  end.

Definition target (c : TreeModel.call E) : nat :=
  match c with
  | TreeModel.Put id _ _ | TreeModel.Async id | TreeModel.Flush id | TreeModel.Rotate id => id
  end.
Definition begin_call (c : TreeModel.call E) : choice E :=
  match c with
  | TreeModel.Put _ l e => CPush l e
  | TreeModel.Async _ => CAsync
  | TreeModel.Flush _ => CFlush
  | TreeModel.Rotate _ => CRotate
  end.

Record pstate := mkP {
  leaf : nat -> state E;                       (* the leaf sinks *)
  todo : nat -> list (TreeModel.call E)        (* the calls on leaf sinks still to make, by thread *)
}.

Definition set_leaf (s : pstate) (id : nat) (x : state E) : pstate :=
  mkP (fun i => if Nat.eqb i id then x else leaf s i) (todo s).
Definition set_todo (s : pstate) (t : nat) (cs : list (TreeModel.call E)) : pstate :=
  mkP (leaf s) (fun u => if Nat.eqb u t then cs else todo s u).

(** Thread [t] is not inside a call on this leaf sink. *)
Definition free_in (x : state E) (t : nat) : bool :=
  match nth_error (thr x) t with Some Idle | Some Dead => true | _ => false end.
Definition free (s : pstate) (t : nat) : bool :=
  forallb (fun id => free_in (leaf s id) t) (seq 0 K).

(** The leaf sinks below are these ones, have not been destroyed (shared pointers keep them), and
    the levels are theirs. *)
Fixpoint usable (s : pstate) (d : TreeModel.tree) : bool :=
  match d with
  | TreeModel.Leaf id lv => Nat.ltb id K && leqb lv (c_level (cf id)) && alive (leaf s id)
  | TreeModel.Nowhere id => Nat.leb K id
  | TreeModel.Multi _ ms => forallb (usable s) ms
  end.

Definition is_thread (t : nat) : bool := Nat.leb 1 t && Nat.leb t n.
Definition is_nil {A} (l : list A) : bool := match l with [] => true | _ => false end.

(** Nobody is going to use leaf sink [id]. *)
Definition unused (s : pstate) (id : nat) : bool :=
  forallb (fun t => forallb (fun c => negb (Nat.eqb (target c) id)) (todo s t)) (seq 1 n).

(** Choices that begin a call. *)
Definition begins (m : move E) : bool :=
  match m with
  | MThread _ (CPush _ _) | MThread _ CFlush | MThread _ CAsync | MThread _ CRotate | MThread _ CDestroy => true
  | _ => false
  end.

Inductive pmove :=
| XStart (t : nat) (o : order)        (* thread t begins a call *)
| XNext (t : nat)                     (* ... makes the next call on a leaf sink *)
| XLeaf (id : nat) (m : move E)       (* something happens in leaf sink id *)
| XDestroy (id t : nat).              (* thread t drops the last reference to leaf sink id *)

Inductive plabel :=
| PStart (t : nat) (o : order)
| PLeaf (id : nat) (l : label E).

Definition in_leaf (s : pstate) (id : nat) (m : move E) : pstate * list plabel :=
  let '(x, ls) := step (cf id) (leaf s id) m in (set_leaf s id x, map (PLeaf id) ls).

Definition pstep (s : pstate) (m : pmove) : pstate * list plabel :=
  match m with
  | XStart t o =>
      if is_thread t && is_nil (todo s t) && free s t && usable s (sink_of o) then
        match plan o with
        | TreeModel.Done cs => (set_todo s t cs, [PStart t o])
        | TreeModel.UB => (s, [])
        end
      else (s, [])
  | XNext t =>
      match todo s t with
      | [] => (s, [])
      | c :: cs =>
          if free s t then
            if Nat.ltb (target c) K
            then in_leaf (set_todo s t cs) (target c) (MThread t (begin_call c))
            else (set_todo s t cs, [])       (* a null sink: C35 *)
          else (s, [])
      end
  | XLeaf id m => if Nat.ltb id K && negb (begins m) then in_leaf s id m else (s, [])
  | XDestroy id t =>
      if is_thread t && is_nil (todo s t) && free s t && Nat.ltb id K && unused s id
      then in_leaf s id (MThread t CDestroy) else (s, [])
  end.

Fixpoint pexec (s : pstate) (ms : list pmove) : pstate * list plabel :=
  match ms with
  | [] => (s, [])
  | m :: ms' => let '(s1, l1) := pstep s m in
                let '(s2, l2) := pexec s1 ms' in (s2, l1 ++ l2)
  end.

Definition pinit : pstate := mkP (fun id => init (cf id) (op id) n) (fun _ => []).

End Pool.
Arguments order : clear implicits.
Arguments pstate : clear implicits.
Arguments pmove : clear implicits.
Arguments plabel : clear implicits.
