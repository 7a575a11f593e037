(** * Specification of a concurrent bounded FIFO buffer with references

    This file does not mention the implementation.  It says what a client of
    [CircularBuffer] (include/soralog/circular_buffer.hpp) may rely on, as a
    small sequential automaton that must accept the trace of every execution.

    A trace is a list of labels:
    - [LInv t o]    thread [t] calls operation [o];
    - [LLin t]      the operation called by [t] takes effect (one indivisible
                    instant somewhere between its call and its return);
    - [LRet t r]    the call of [t] returns [r];
    - [LRead t i a] thread [t] dereferences its live reference to slot [i] and
                    sees the item [a];
    - [LRel t i]    thread [t] destroys its live reference to slot [i]. *)

From Coq Require Import List Arith.
Import ListNotations.

Set Implicit Arguments.

Section Spec.
Context {A : Type}.

Inductive query := QSize | QAvail | QCapacity.

Inductive op :=
| OPut (a : A)
| OGet
| OQuery (q : query).

(** What a call returns: an empty reference, a reference to a slot, a number. *)
Inductive ret :=
| RNone
| RRef (slot : nat)
| RNum (n : nat).

Inductive label :=
| LInv (t : nat) (o : op)
| LLin (t : nat)
| LRet (t : nat) (r : ret)
| LRead (t i : nat) (a : A)
| LRel (t i : nat).

(** Progress of the call a thread is executing. [n] numbers the successful
    [put]s of the whole execution 0,1,2,... *)
Inductive phase :=
| PhNone                       (* no call *)
| PhCalled (o : op)            (* called, not yet taken effect *)
| PhRefused                    (* took effect: put found it full / get found it empty *)
| PhPut (n : nat) (a : A)      (* took effect: item number n stored *)
| PhGot (n : nat) (a : A)      (* took effect: item number n removed *)
| PhNum (n : nat).             (* took effect: query answered *)

(** A live reference: owner thread, slot, and the item it denotes. *)
Record lref := mkRef { r_thr : nat; r_slot : nat; r_num : nat; r_val : A }.

Record sstate := mkS {
  s_items : list (nat * A);    (* queued items, oldest first, with numbers *)
  s_next  : nat;               (* number of the next item stored *)
  s_phase : nat -> phase;
  s_live  : list lref
}.

Definition s_init : sstate :=
  {| s_items := []; s_next := 0; s_phase := fun _ => PhNone; s_live := [] |}.

Definition set_phase (s : sstate) (t : nat) (p : phase) : sstate :=
  {| s_items := s_items s; s_next := s_next s;
     s_phase := fun t' => if Nat.eqb t' t then p else s_phase s t';
     s_live := s_live s |}.

Definition query_answer (cap : nat) (len : nat) (q : query) : nat :=
  match q with
  | QSize => len
  | QAvail => cap - len
  | QCapacity => cap
  end.

(** The automaton.  [cap] is the capacity of the buffer. *)
Inductive sstep (cap : nat) : sstate -> label -> sstate -> Prop :=
| S_inv : forall s t o,
    s_phase s t = PhNone ->
    sstep cap s (LInv t o) (set_phase s t (PhCalled o))
(* put, there is room: the item becomes the youngest *)
| S_put_ok : forall s t a,
    s_phase s t = PhCalled (OPut a) ->
    length (s_items s) < cap ->
    sstep cap s (LLin t)
      (set_phase {| s_items := s_items s ++ [(s_next s, a)];
                    s_next := S (s_next s);
                    s_phase := s_phase s; s_live := s_live s |}
                 t (PhPut (s_next s) a))
(* put, refused: only when exactly full *)
| S_put_full : forall s t a,
    s_phase s t = PhCalled (OPut a) ->
    length (s_items s) = cap ->
    sstep cap s (LLin t) (set_phase s t PhRefused)
(* get: removes the oldest item; the reference its put returned is gone *)
| S_get_ok : forall s t n a rest,
    s_phase s t = PhCalled OGet ->
    s_items s = (n, a) :: rest ->
    (forall t' b, s_phase s t' <> PhPut n b) ->
    (forall r, In r (s_live s) -> r_num r <> n) ->
    sstep cap s (LLin t)
      (set_phase {| s_items := rest; s_next := s_next s;
                    s_phase := s_phase s; s_live := s_live s |}
                 t (PhGot n a))
(* get, refused: only when exactly empty *)
| S_get_empty : forall s t,
    s_phase s t = PhCalled OGet ->
    s_items s = [] ->
    sstep cap s (LLin t) (set_phase s t PhRefused)
| S_query : forall s t q,
    s_phase s t = PhCalled (OQuery q) ->
    sstep cap s (LLin t)
      (set_phase s t (PhNum (query_answer cap (length (s_items s)) q)))
(* returns *)
| S_ret_none : forall s t,
    s_phase s t = PhRefused ->
    sstep cap s (LRet t RNone) (set_phase s t PhNone)
| S_ret_num : forall s t n,
    s_phase s t = PhNum n ->
    sstep cap s (LRet t (RNum n)) (set_phase s t PhNone)
(* a reference is handed out: nobody else has one to this slot *)
| S_ret_ref : forall s t i n a,
    (s_phase s t = PhPut n a \/ s_phase s t = PhGot n a) ->
    (forall r, In r (s_live s) -> r_slot r <> i) ->
    sstep cap s (LRet t (RRef i))
      (set_phase {| s_items := s_items s; s_next := s_next s;
                    s_phase := s_phase s;
                    s_live := mkRef t i n a :: s_live s |} t PhNone)
(* a dereference sees the item the reference stands for *)
| S_read : forall s t i n a,
    In (mkRef t i n a) (s_live s) ->
    sstep cap s (LRead t i a) s
| S_rel : forall s t i n a l1 l2,
    s_live s = l1 ++ mkRef t i n a :: l2 ->
    sstep cap s (LRel t i)
      {| s_items := s_items s; s_next := s_next s; s_phase := s_phase s;
         s_live := l1 ++ l2 |}.

(** Runs of the automaton over a trace (oldest label first). *)
Inductive sruns (cap : nat) : sstate -> list label -> sstate -> Prop :=
| sruns_nil : forall s, sruns cap s [] s
| sruns_cons : forall s1 l s2 tr s3,
    sstep cap s1 l s2 -> sruns cap s2 tr s3 -> sruns cap s1 (l :: tr) s3.

Definition accepted (cap : nat) (tr : list label) : Prop :=
  exists s, sruns cap s_init tr s.

(** Everything in a run carries the value its number was stored with. *)
Record logged (s : sstate) (log : list A) : Prop := {
  lg_len : length log = s_next s;
  lg_items : forall n a, In (n, a) (s_items s) -> nth_error log n = Some a;
  lg_put : forall t n a, s_phase s t = PhPut n a -> nth_error log n = Some a;
  lg_got : forall t n a, s_phase s t = PhGot n a -> nth_error log n = Some a;
  lg_live : forall r, In r (s_live s) -> nth_error log (r_num r) = Some (r_val r);
  lg_seq : map fst (s_items s) = seq (s_next s - length (s_items s)) (length (s_items s));
  lg_le : length (s_items s) <= s_next s
}.

(** The label is a call, effect or return of thread [t]. *)
Definition mentions (t : nat) (l : label) : Prop :=
  match l with
  | LInv t' _ | LLin t' | LRet t' _ => t' = t
  | _ => False
  end.

End Spec.

Arguments op : clear implicits.
Arguments label : clear implicits.
Arguments phase : clear implicits.
Arguments lref : clear implicits.
Arguments sstate : clear implicits.
