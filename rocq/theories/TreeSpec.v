(** * Vocabulary for C32-C40 *)
From Coq Require Import List Arith Bool.
From Verif Require Import Base LevelModel TreeModel.
Import ListNotations.

(** An event of level [l] passes a sink or logger of level [lv]. *)
Definition passes (l lv : level) : Prop :=
  l <> OFF /\ l <> IGNORE /\ lcode l <= lcode lv.
Definition passes_b (l lv : level) : bool :=
  match l with OFF | IGNORE => false | _ => Nat.leb (lcode l) (lcode lv) end.

(** The paths from the root, in declaration order: the levels met, ending in a leaf
    sink's number ([None]: in a composite without members). *)
Fixpoint paths (t : tree) : list (list level * option nat) :=
  match t with
  | Leaf id lv => [([lv], Some id)]
  | Nowhere id => [([OFF], Some id)]
  | Multi lv [] => [([lv], None)]
  | Multi lv ms => map (fun p => (lv :: fst p, snd p)) (flat_map paths ms)
  end.

(** The path lets events of level [l] through. *)
Definition open_path (l : level) (p : list level * option nat) : bool :=
  forallb (passes_b l) (fst p).

(** The leaves reached, one entry for each open path, in order. *)
Definition reached (l : level) (t : tree) : list (option nat) :=
  map snd (filter (open_path l) (paths t)).

(** All leaf sinks below. *)
Fixpoint leaves (t : tree) : list nat :=
  match t with Leaf id _ | Nowhere id => [id] | Multi _ ms => flat_map leaves ms end.

(** The flushes among leaf calls. *)
Definition flushed {E} (cs : list (call E)) : list nat :=
  flat_map (fun c => match c with Flush id => [id] | _ => [] end) cs.
Definition rotated {E} (cs : list (call E)) : list nat :=
  flat_map (fun c => match c with Rotate id => [id] | _ => [] end) cs.
Definition putted {E} (cs : list (call E)) : list (nat * level * E) :=
  flat_map (fun c => match c with Put id l e => [(id, l, e)] | _ => [] end) cs.

(** A tree whose composites all have members. *)
Fixpoint populated (t : tree) : bool :=
  match t with
  | Multi _ [] => false
  | Multi _ ms => forallb populated ms
  | _ => true
  end.


(** Calls on the null sink. *)
Section N.
Context {E : Type}.
Implicit Types e : E.
Inductive nop := NPush (l : level) e | NFlush | NAsync | NRotate.
Definition nstep (s : option (nowhere E)) (o : nop) : option (nowhere E) :=
  match s with
  | None => None
  | Some s => match o with
              | NPush l e => Some (nowhere_push s l e)
              | NFlush => nowhere_flush 0 s
              | NAsync => nowhere_async 0 s
              | NRotate => nowhere_rotate 0 s
              end
  end.

End N.
