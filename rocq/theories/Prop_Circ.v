(** * Properties C01-C06: the circular buffer

    Vocabulary: [CircSpec] (the queue a client sees), [CircModel.exec] (all
    executions: any list of (thread, choice) pairs is a schedule),
    [LayoutModel].  Only property theorems and non-vacuity examples here. *)

From Coq Require Import List Arith NArith Lia.
From Verif Require Import CircSpec CircModel CircVocab CircProofs CircFacts LayoutModel LayoutProofs CircProps.
Import ListNotations.

(** ** C01 *)

(** Every execution has a trace accepted by the sequential bounded queue, with
    each call taking effect once between its call and its return. *)
Theorem C01_linearizable :
  forall (A : Type) (cap : nat), 1 <= cap ->
  forall (sched : list (nat * choice A)) s tr,
    exec cap init sched = Ok s tr -> accepted cap tr.
Proof. exact linearizable. Qed.
Print Assumptions C01_linearizable.

(** Meaning of the automaton's numbering: whatever run the automaton takes on
    the trace, there is one log of all values ever stored, which only grows;
    the queue holds the last [length] of them in order (so item number [n] is
    the one removed by the [n]-th successful get), and every queued item, every
    answer and every live reference with number [n] carries value [n] of the log. *)
Theorem C01_fifo :
  forall (A : Type) (cap : nat) (tr1 tr2 : list (label A)) s1 s2,
    sruns cap s_init tr1 s1 -> sruns cap s1 tr2 s2 ->
    exists log ext : list A,
      logged s1 log /\ logged s2 (log ++ ext).
Proof. exact fifo_log. Qed.
Print Assumptions C01_fifo.

Example C01_nonvacuous :
  ex_sched = repeat (0, CPut 7) 9 ++ [(0, CRead 0); (0, CRel 0); (1, CGet)] ++
    repeat (0, CPut 8) 4 ++ repeat (1, CGet) 6 ++ [(1, CRead 0); (1, CRel 0)] /\
  exists s, exec 1 init ex_sched = Ok s
    [LInv 0 (OPut 7); LLin 0; LRet 0 (RRef 0); LRead 0 0 7; LRel 0 0;
     LInv 1 OGet; LInv 0 (OPut 8); LLin 0; LRet 0 RNone; LLin 1; LRet 1 (RRef 0);
     LRead 1 0 7; LRel 1 0].
Proof. exact (conj eq_refl ex_run). Qed.

(** ** C02 *)

(** A call that came back empty-handed was decided at an instant at which the
    queue was exactly full (put) or exactly empty (get). *)
Theorem C02_refusal :
  forall (A : Type) (cap : nat), 1 <= cap ->
  forall (sched : list (nat * choice A)) s tr t tr1 tr2,
    exec cap init sched = Ok s tr -> tr = tr1 ++ LRet t RNone :: tr2 ->
    exists tra trb s1,
      tr1 = tra ++ LLin t :: trb /\ sruns cap s_init tra s1 /\
      Forall (fun l => ~ mentions t l) trb /\
      ((exists a, s_phase s1 t = PhCalled (OPut a) /\ length (s_items s1) = cap) \/
       (s_phase s1 t = PhCalled OGet /\ s_items s1 = [])).
Proof. exact refusal. Qed.
Print Assumptions C02_refusal.

(** size(), avail(), capacity() answer for one instant during the call, at which
    at most [capacity] items are queued. *)
Theorem C02_answers :
  forall (A : Type) (cap : nat), 1 <= cap ->
  forall (sched : list (nat * choice A)) s tr t n tr1 tr2,
    exec cap init sched = Ok s tr -> tr = tr1 ++ LRet t (RNum n) :: tr2 ->
    exists tra trb s1 q,
      tr1 = tra ++ LLin t :: trb /\ sruns cap s_init tra s1 /\
      Forall (fun l => ~ mentions t l) trb /\
      s_phase s1 t = PhCalled (OQuery q) /\
      length (s_items s1) <= cap /\
      match q with
      | QSize => n = length (s_items s1)
      | QAvail => n + length (s_items s1) = cap
      | QCapacity => n = cap
      end.
Proof. exact answers. Qed.
Print Assumptions C02_answers.

(** ** C03 *)

(** In every reachable state the live references are to pairwise different
    slots, nobody is constructing an item in such a slot, and it holds a
    completely constructed item ... *)
Theorem C03_exclusive :
  forall (A : Type) (cap : nat), 1 <= cap ->
  forall (sched : list (nat * choice A)) s tr,
    exec cap init sched = Ok s tr ->
    (forall t, NoDup (t_refs (thr s t))) /\
    (forall t t' i, In i (t_refs (thr s t)) -> In i (t_refs (thr s t')) -> t = t') /\
    (forall t t' a i, In i (t_refs (thr s t)) ->
        t_pc (thr s t') <> PBuild a i /\ t_pc (thr s t') <> PBuilt a i) /\
    (forall t i, In i (t_refs (thr s t)) -> i < cap /\ exists a, n_cell (nodes s i) = Full a).
Proof. exact exclusive. Qed.
Print Assumptions C03_exclusive.

(** ... which does not change for as long as the reference lives, whatever
    everybody does (its value is the one put, by [S_read] in C01). *)
Theorem C03_stable :
  forall (A : Type) (cap : nat), 1 <= cap ->
  forall (sched sched' : list (nat * choice A)) s tr s' tr' t i,
    exec cap init sched = Ok s tr -> exec cap s sched' = Ok s' tr' ->
    In i (t_refs (thr s t)) -> ~ In (LRel t i) tr' ->
    In i (t_refs (thr s' t)) /\ n_cell (nodes s' i) = n_cell (nodes s i).
Proof. exact stable. Qed.
Print Assumptions C03_stable.

(** ** C04 *)

Theorem C04_no_ub :
  forall (A : Type) (cap : nat), 1 <= cap ->
  forall (sched : list (nat * choice A)) b, exec cap init sched <> Bad b.
Proof. exact no_ub. Qed.
Print Assumptions C04_no_ub.

(** Capacity 0: the first [put] leaves defined behaviour. *)
Theorem C04_capacity0_refuted :
  forall (A : Type) (a : A) t, exists sched,
    sched = (t, CPut a) :: repeat (t, CPut a) 3 /\ exec 0 init sched = Bad OutOfBounds.
Proof. exact capacity0. Qed.
Print Assumptions C04_capacity0_refuted.

(** ** C05 *)

Theorem C05_layout :
  forall tsize align cap padding : N,
    (0 < align -> tsize mod align = 0 -> cap <= 2147483647 ->
     cap * (node_size tsize align + padding + align) <= 9223372036854775807 ->
     node_size tsize align + padding + align <= 9223372036854775807 ->
     ctor_defined tsize align cap padding /\
     (forall i, i < cap ->
        slot_offset tsize align padding i mod align = 0 /\
        slot_offset tsize align padding i + node_size tsize align + padding
          <= alloc_size tsize align cap padding) /\
     (forall i j, i < j -> j < cap ->
        slot_offset tsize align padding i + node_size tsize align + padding
          <= slot_offset tsize align padding j))%N.
Proof. exact layout_ok. Qed.
Print Assumptions C05_layout.

(** 64 events of up to 1024 bytes: sizeof(Event) = 104, alignment 8. *)
Example C05_nonvacuous :
  (0 < 8 /\ 104 mod 8 = 0 /\ 64 <= int_max /\
   64 * (node_size 104 8 + 1024 + 8) <= vector_max /\ node_size 104 8 + 1024 + 8 <= vector_max /\
   element_size 104 8 1021 = 112 + 1024)%N.
Proof. vm_compute. intuition congruence. Qed.

(** The largest block a vector accepts, and one byte more. *)
Example C05_largest : ctor_defined 9223372036854775806 1 1 0 /\ ~ ctor_defined 9223372036854775807 1 1 0.
Proof.
  split; [|intros (H & _); exact (H eq_refl)].
  split; [discriminate|]. split; [discriminate|]. intros i Hi. assert (i = 0%N) as -> by lia. discriminate.
Qed.

(** One event more than [int] can count: the constructor's loop counter overflows. *)
Example C05_int_overflow : ~ ctor_defined 104 8 2147483648 0.
Proof. intros (_ & H & _). exact (H eq_refl). Qed.

(** A block of 2^63 bytes, more than std::vector takes: the constructor throws. *)
Example C05_too_large : ~ ctor_defined 120 8 1 (2 ^ 63 - 128).
Proof. intros (H & _). exact (H eq_refl). Qed.

(** Without the bound the size computation wraps: a slot can be smaller than
    header plus message area although the constructor succeeds. *)
Theorem C05_wrap_refuted :
  exists cap padding : N,
    (1 <= cap /\ padding < 2 ^ 64 /\ ctor_defined 104 8 cap padding /\
     element_size 104 8 padding < node_size 104 8 + padding)%N.
Proof. exact wrap. Qed.
Print Assumptions C05_wrap_refuted.

(** ** C06 *)

(** Run alone from any reachable quiescent state, every call returns within
    nine of its own steps. *)
Theorem C06_progress :
  forall (A : Type) (cap : nat), 1 <= cap ->
  forall (sched : list (nat * choice A)) s tr t c,
    exec cap init sched = Ok s tr -> quiescent s -> op_of c <> None ->
    returns_alone cap s t c 8.
Proof. exact progress. Qed.
Print Assumptions C06_progress.

Example C06_nonvacuous :
  exists s tr, exec 1 init ex_sched = Ok s tr /\ quiescent s.
Proof. exact ex_quiescent. Qed.

(** Not lock-free: if a thread stops while inside, another one never finishes,
    however long it runs. *)
Theorem C06_lock_free_refuted :
  forall (A : Type) (cap : nat) (a b : A), 1 <= cap ->
  exists sched s, exec cap init sched = Ok s [LInv 0 (OPut a)] /\
    forall n, exists s', exec cap s ((1, CPut b) :: repeat (1, CPut b) n) = Ok s' [LInv 1 (OPut b)].
Proof. exact not_lock_free. Qed.
Print Assumptions C06_lock_free_refuted.

(** Even a single thread blocks itself: holding the reference returned by get()
    on a buffer of capacity 1, its next put() never returns. *)
Theorem C06_self_deadlock_refuted :
  forall (A : Type) (a b : A),
  exists sched s tr, exec 1 init sched = Ok s tr /\
    (forall t, t_pc (thr s t) = Idle) /\ (forall t, t <> 0 -> t_refs (thr s t) = []) /\
    forall n, exists s', exec 1 s ((0, CPut b) :: repeat (0, CPut b) n) = Ok s' [LInv 0 (OPut b)].
Proof. exact self_deadlock. Qed.
Print Assumptions C06_self_deadlock_refuted.
