(** * Vocabulary for C116: which functions of the leaf sinks are called *)
From Coq Require Import List Arith Bool.
From Verif Require Import Base LevelModel SinkModel SinkSpec TreeSpec PoolModel PoolSpec.
From Verif Require TreeModel.
Import ListNotations.

Inductive func := FnFlush | FnAsync | FnRotate.

Definition func_eq (a b : func) : {a = b} + {a <> b}.
Proof. decide equality. Defined.

Section PoolCallSpec.
Context {E : Type}.
Variable K : nat.
Variable cf : nat -> cfg E.
Variable n : nat.

(** A thread that was in no function of a sink is at the beginning of one. *)
Definition entered (a b : option (pc E)) : list func :=
  match a, b with
  | Some Idle, Some (FTas KReturn) => [FnFlush]
  | Some Idle, Some RAsync => [FnAsync]
  | Some Idle, Some RStore => [FnRotate]
  | _, _ => []
  end.

(** The functions of leaf sink [id] thread [t] enters (of the empty rotate() of console and
    syslog sinks nothing is to be seen). *)
Fixpoint entries (id t : nat) (s : pstate E) (ms : list (pmove E)) : list func :=
  match ms with
  | [] => []
  | m :: ms' => let s' := fst (pstep K cf n s m) in
      entered (nth_error (thr (leaf s id)) t) (nth_error (thr (leaf s' id)) t) ++ entries id t s' ms'
  end.

(** How often the leaf sink occurs below. *)
Definition places (id : nat) (d : TreeModel.tree) : nat := count_occ Nat.eq_dec (leaves d) id.
(** How often it is an immediate member of a composite. *)
Fixpoint member_places (id : nat) (d : TreeModel.tree) : nat :=
  match d with
  | TreeModel.Leaf _ _ | TreeModel.Nowhere _ => 0
  | TreeModel.Multi _ ms =>
      list_sum (map (fun m => match m with
                              | TreeModel.Leaf i _ | TreeModel.Nowhere i => if Nat.eqb i id then 1 else 0
                              | TreeModel.Multi _ _ => member_places id m
                              end) ms)
  end.

(** Whether the call flushes: a logging call does if its level passes the logger. *)
Definition flushes (o : order E) : bool :=
  match o with OFlush _ => true | OLog lv _ l _ => passes_b l lv | ORotate _ => false end.
Definition rotates (o : order E) : bool := match o with ORotate _ => true | _ => false end.

(** How often the call is to enter the function of the leaf sink. *)
Definition wanted (f : func) (id : nat) (o : order E) : nat :=
  match f with
  | FnFlush => if flushes o then places id (sink_of o) else 0
  | FnAsync => if flushes o then member_places id (sink_of o) else 0
  | FnRotate => if rotates o then match c_kind (cf id) with KFile => places id (sink_of o) | _ => 0 end else 0
  end.

Definition times (f : func) (l : list func) : nat := count_occ func_eq l f.
End PoolCallSpec.
