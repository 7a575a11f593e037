(** * Model of include/soralog/circular_buffer.hpp

    Shared-memory model, one step per atomic operation (default memory order
    seq_cst, so interleaving semantics), any number of threads.  Lines cited
    are those of include/soralog/circular_buffer.hpp.

    Simplifications:
    - indices and sizes are unbounded [nat] (they stay below the capacity);
    - the placement-new of line 33 is two steps ([PBuild], [PBuilt]) with the
      cell observably "under construction" in between;
    - the item constructor is assumed not to throw (for [Event] it does not,
      unless formatting throws something that is not a std::exception). *)

From Coq Require Import List Arith Bool.
From Verif Require Import CircSpec.
Import ListNotations.

Set Implicit Arguments.

Section Circ.
Context {A : Type}.

(** State of [item_] of a node (lines 30-46): raw storage, being constructed,
    constructed. *)
Inductive cell := Raw | Building | Full (a : A).

(** Node (lines 30-46). *)
Record node := mkNode { n_busy : bool; n_cell : cell }.

(** Control points of a thread; the argument [i] is the node a call works on. *)
Inductive pc :=
| Idle
(* put, lines 135-171 *)
| PSpin (a : A)            (* 137: busy_.test_and_set() *)
| PCheck (a : A)           (* 142: pop_index_ == push_index_ and size_ != 0 *)
| PFullClear               (* 143-144: busy_.clear(); return {} *)
| PTake (a : A)            (* 148-153: node.busy.test_and_set() *)
| PBusyClear (a : A)       (* 154-155: busy_.clear(); continue *)
| PAdv (a : A) (i : nat)   (* 159: push_index_ = (push_index_ + 1) % capacity_ *)
| PInc (a : A) (i : nat)   (* 161-162: assert(size_ < capacity_); ++size_ *)
| PUnlock (a : A) (i : nat)(* 164: busy_.clear() *)
| PBuild (a : A) (i : nat) (* 167: construction starts *)
| PBuilt (a : A) (i : nat) (* 167-169: construction done; return NodeRef(node) *)
(* get, lines 173-206 *)
| GSpin                    (* 175 *)
| GCheck                   (* 180: push_index_ == pop_index_ and size_ == 0 *)
| GEmptyClear              (* 181-182 *)
| GTake                    (* 186-191 *)
| GBusyClear               (* 192-193 *)
| GAdv (i : nat)           (* 197 *)
| GDec (i : nat)           (* 199-200 *)
| GUnlock (i : nat)        (* 202-204 *)
(* capacity / size / avail, lines 107-132 *)
| QSpin (q : query)        (* 108, 117, 126 *)
| QRead (q : query)        (* 111, 120, 129 *)
| QClear (q : query) (r : nat). (* 112-113, 121-122, 130-131 *)

(** A thread: where it is, and the live NodeRefs it owns (slots). *)
Record thread := mkThr { t_pc : pc; t_refs : list nat }.

(** Shared state (lines 209-215).  [nodes i] is the node at
    [raw_data_ + element_size_ * i]. *)
Record state := mkSt {
  g_busy : bool;
  g_size : nat;
  g_push : nat;
  g_pop  : nat;
  nodes  : nat -> node;
  thr    : nat -> thread
}.

(** Constructor (lines 88-102, 212-215): all nodes are created not busy, their
    item storage is raw. *)
Definition init : state :=
  {| g_busy := false; g_size := 0; g_push := 0; g_pop := 0;
     nodes := fun _ => {| n_busy := false; n_cell := Raw |};
     thr := fun _ => {| t_pc := Idle; t_refs := [] |} |}.

(** What an idle thread decides to do next (client's choice). *)
Inductive choice :=
| CPut (a : A)
| CGet
| CQuery (q : query)
| CRead (i : nat)      (* *ref / ref-> on an owned reference, lines 66-74 *)
| CRel (i : nat).      (* ~NodeRef, lines 60-64 *)

(** Ways to leave defined behaviour. *)
Inductive bad := OutOfBounds | DivByZero | ReadUnbuilt | AssertFailed.

Inductive outcome :=
| Ok (s : state) (tr : list (label A))
| Bad (b : bad).

Definition upd {X} (f : nat -> X) (k : nat) (x : X) : nat -> X :=
  fun k' => if Nat.eqb k' k then x else f k'.

Definition set_pc (s : state) (t : nat) (p : pc) : state :=
  {| g_busy := g_busy s; g_size := g_size s; g_push := g_push s; g_pop := g_pop s;
     nodes := nodes s;
     thr := upd (thr s) t {| t_pc := p; t_refs := t_refs (thr s t) |} |}.

Definition set_thr (s : state) (t : nat) (p : pc) (refs : list nat) : state :=
  {| g_busy := g_busy s; g_size := g_size s; g_push := g_push s; g_pop := g_pop s;
     nodes := nodes s; thr := upd (thr s) t {| t_pc := p; t_refs := refs |} |}.

Definition set_lock (s : state) (b : bool) : state :=
  {| g_busy := b; g_size := g_size s; g_push := g_push s; g_pop := g_pop s;
     nodes := nodes s; thr := thr s |}.

Definition set_node (s : state) (i : nat) (n : node) : state :=
  {| g_busy := g_busy s; g_size := g_size s; g_push := g_push s; g_pop := g_pop s;
     nodes := upd (nodes s) i n; thr := thr s |}.

Definition set_idx (s : state) (size push pop : nat) : state :=
  {| g_busy := g_busy s; g_size := size; g_push := push; g_pop := pop;
     nodes := nodes s; thr := thr s |}.

(** Step of thread [t].  [cap] is [capacity_]. The choice is used only when the
    thread is idle; asking for a reference the thread does not own is a no-op
    (such a program does not exist). *)
Definition step (cap : nat) (s : state) (t : nat) (c : choice) : outcome :=
  match t_pc (thr s t) with
  | Idle =>
      match c with
      | CPut a => Ok (set_pc s t (PSpin a)) [LInv t (OPut a)]
      | CGet => Ok (set_pc s t GSpin) [LInv t OGet]
      | CQuery q => Ok (set_pc s t (QSpin q)) [LInv t (OQuery q)]
      | CRead i =>
          if in_dec Nat.eq_dec i (t_refs (thr s t)) then
            match n_cell (nodes s i) with
            | Full a => Ok s [LRead t i a]
            | _ => Bad ReadUnbuilt
            end
          else Ok s []
      | CRel i =>
          if in_dec Nat.eq_dec i (t_refs (thr s t)) then
            (* node->busy.clear() *)
            Ok (set_thr (set_node s i {| n_busy := false; n_cell := n_cell (nodes s i) |})
                        t Idle (remove Nat.eq_dec i (t_refs (thr s t))))
               [LRel t i]
          else Ok s []
      end
  (* ---- put ---- *)
  | PSpin a =>
      if g_busy s then Ok s []
      else Ok (set_pc (set_lock s true) t (PCheck a)) []
  | PCheck a =>
      if Nat.eqb (g_pop s) (g_push s) && negb (Nat.eqb (g_size s) 0)
      then Ok (set_pc s t PFullClear) [LLin t]
      else Ok (set_pc s t (PTake a)) []
  | PFullClear => Ok (set_pc (set_lock s false) t Idle) [LRet t RNone]
  | PTake a =>
      let i := g_push s in
      if Nat.ltb i cap then
        if n_busy (nodes s i) then Ok (set_pc s t (PBusyClear a)) []
        else Ok (set_pc (set_node s i {| n_busy := true; n_cell := n_cell (nodes s i) |})
                        t (PAdv a i)) []
      else Bad OutOfBounds
  | PBusyClear a => Ok (set_pc (set_lock s false) t (PSpin a)) []
  | PAdv a i =>
      if Nat.eqb cap 0 then Bad DivByZero
      else Ok (set_pc (set_idx s (g_size s) ((g_push s + 1) mod cap) (g_pop s))
                      t (PInc a i)) [LLin t]
  | PInc a i =>
      if Nat.ltb (g_size s) cap
      then Ok (set_pc (set_idx s (S (g_size s)) (g_push s) (g_pop s)) t (PUnlock a i)) []
      else Bad AssertFailed
  | PUnlock a i => Ok (set_pc (set_lock s false) t (PBuild a i)) []
  | PBuild a i =>
      Ok (set_pc (set_node s i {| n_busy := n_busy (nodes s i); n_cell := Building |})
                 t (PBuilt a i)) []
  | PBuilt a i =>
      Ok (set_thr (set_node s i {| n_busy := n_busy (nodes s i); n_cell := Full a |})
                  t Idle (i :: t_refs (thr s t)))
         [LRet t (RRef i)]
  (* ---- get ---- *)
  | GSpin =>
      if g_busy s then Ok s []
      else Ok (set_pc (set_lock s true) t GCheck) []
  | GCheck =>
      if Nat.eqb (g_push s) (g_pop s) && Nat.eqb (g_size s) 0
      then Ok (set_pc s t GEmptyClear) [LLin t]
      else Ok (set_pc s t GTake) []
  | GEmptyClear => Ok (set_pc (set_lock s false) t Idle) [LRet t RNone]
  | GTake =>
      let i := g_pop s in
      if Nat.ltb i cap then
        if n_busy (nodes s i) then Ok (set_pc s t GBusyClear) []
        else Ok (set_pc (set_node s i {| n_busy := true; n_cell := n_cell (nodes s i) |})
                        t (GAdv i)) []
      else Bad OutOfBounds
  | GBusyClear => Ok (set_pc (set_lock s false) t GSpin) []
  | GAdv i =>
      if Nat.eqb cap 0 then Bad DivByZero
      else Ok (set_pc (set_idx s (g_size s) (g_push s) ((g_pop s + 1) mod cap))
                      t (GDec i)) [LLin t]
  | GDec i =>
      if Nat.ltb 0 (g_size s)
      then Ok (set_pc (set_idx s (g_size s - 1) (g_push s) (g_pop s)) t (GUnlock i)) []
      else Bad AssertFailed
  | GUnlock i =>
      Ok (set_thr (set_lock s false) t Idle (i :: t_refs (thr s t)))
         [LRet t (RRef i)]
  (* ---- capacity / size / avail ---- *)
  | QSpin q =>
      if g_busy s then Ok s []
      else Ok (set_pc (set_lock s true) t (QRead q)) []
  | QRead q =>
      let r := match q with
               | QSize => g_size s
               | QAvail => cap - g_size s
               | QCapacity => cap
               end in
      Ok (set_pc s t (QClear q r)) [LLin t]
  | QClear q r => Ok (set_pc (set_lock s false) t Idle) [LRet t (RNum r)]
  end.

(** Execution of a schedule: which thread moves, and what it chooses if idle. *)
Fixpoint exec (cap : nat) (s : state) (sched : list (nat * choice)) : outcome :=
  match sched with
  | [] => Ok s []
  | (t, c) :: rest =>
      match step cap s t c with
      | Bad b => Bad b
      | Ok s' tr =>
          match exec cap s' rest with
          | Bad b => Bad b
          | Ok s'' tr' => Ok s'' (tr ++ tr')
          end
      end
  end.

End Circ.

Arguments cell : clear implicits.
Arguments node : clear implicits.
Arguments pc : clear implicits.
Arguments thread : clear implicits.
Arguments state : clear implicits.
Arguments choice : clear implicits.
Arguments outcome : clear implicits.
