(** * Property C123: does every call get through the buffer? *)
From Coq Require Import Ascii String List Arith NArith Bool Lia.
From Verif Require CircModel.
From Verif Require Import Base LevelModel SinkModel SinkSpec SinkWitness FullModel FullSpec FullLive.
Import ListNotations.
Open Scope string_scope.
Open Scope list_scope.

(** No: the spin lock of the buffer (circular_buffer.hpp:136-139, 174-177) favours nobody.  One
    thread logs, the worker sleeps and wakes; both have their turn in every round, and nothing
    fails spuriously.  But each turn of the thread falls into the moment at which the worker, in
    get(), holds the lock: after any number of rounds it is still in its first put(). *)
Theorem C123_gets_through_refuted :
  forall k, exists s ls, freach (wcfg k false) true 1 s ls /\ nth_error (pcs s) 1 = Some (InPut "x") /\
    forall r, exists rounds s' l, length rounds = r /\ Forall (all_have_a_turn 1) rounds /\
      fexec (wcfg k false) s (concat rounds) = Some (s', l) /\
      nth_error (pcs s') 1 = Some (InPut "x") /\ accepted l = [].
Proof. exact passed_over. Qed.
Print Assumptions C123_gets_through_refuted.

(** What holds: a thread that is in the buffer alone leaves it after at most 23 operations of its
    own, wherever it is; and C122: those in the buffers can always leave them. *)
Theorem C123_alone_partial :
  forall (E : Type) (C : cfg E) op n s ls t p,
    1 <= c_cap C -> freach C op n s ls -> nth_error (pcs s) t = Some p ->
    (forall u q, u <> t -> nth_error (pcs s) u = Some q -> in_buffer q = false) ->
    exists k s' l q, k <= 23 /\ fexec C s (repeat (MThread t (CGo false)) k) = Some (s', l) /\
      nth_error (pcs s') t = Some q /\ in_buffer q = false.
Proof. exact @alone_out. Qed.
Print Assumptions C123_alone_partial.

(** Thread 1 has reserved its slot and is constructing; thread 2 has not yet entered. *)
Example C123_alone_nonvacuous :
  match fexec (wcfg KFile false) (finit (wcfg KFile false) true 2) (push 1 INFO "a" ++ go 1 8 ++ push 2 INFO "b") with
  | Some (s, _) => pcs s = [At WWait; InPut "a"; At (PPut "b")] /\ 1 <= c_cap (wcfg KFile false)
  | None => False
  end.
Proof. vm_compute. repeat constructor. Qed.
