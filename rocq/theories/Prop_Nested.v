(** * Property C94: calls into the sink made while a message is being formatted

    The arguments of a message are formatted inside push(), in the constructor of the
    event, when the event already has its place in the queue but has not been handed
    over (event.hpp, circular_buffer.hpp).  A user's formatter or operator<< may log.
    Thread [t] is at that point, and [u] stands for the same thread making the nested
    call: [t] does not move until [u] has returned ([away t]).  Every other thread may
    move at any time. *)

From Coq Require Import Ascii String NArith Arith List Bool Lia.
From Verif Require Import Base LevelModel SinkModel SinkSpec SinkNested SinkWitness.
Import ListNotations.
Open Scope string_scope.
Open Scope list_scope.

(** What holds: a sink with a worker and room in the queue. *)
Theorem C94_nested_returns_partial :
  forall (E : Type) (C : cfg E), c_lat0 C = false ->
  forall u lv e' s, u <> 0 -> nth_error (thr s) u = Some Idle -> alive s = true ->
    for_sink (c_level C) lv = true -> length (q s) < c_cap C ->
    snd (exec C s (MThread u (CPush lv e') :: repeat (MThread u (CGo false)) 4)) =
      [LPush u lv e'; LAccept u e'; LReturn u].
Proof. exact @nested_room. Qed.
Print Assumptions C94_nested_returns_partial.

(** What does not: a full queue.  The nested message is not accepted either. *)
Theorem C94_full_never_returns :
  forall (E : Type) (C : cfg E) op n, sizes_ok C -> has_dest C op ->
  forall t m e u lv e' ms s ls s' l,
    reach C op n s ls -> formats_oldest s t m e -> length (q s) = c_cap C ->
    u <> t -> u <> 0 -> nth_error (thr s) u = Some Idle -> alive s = true ->
    for_sink (c_level C) lv = true -> away t ms ->
    exec C s (MThread u (CPush lv e') :: ms) = (s', l) ->
    ~ In (LReturn u) l /\ forall x, ~ In (LAccept u x) l.
Proof. exact @nested_full. Qed.
Print Assumptions C94_full_never_returns.

(** A sink with latency 0: push() flushes. *)
Theorem C94_zero_latency_never_returns :
  forall (E : Type) (C : cfg E) op n, sizes_ok C -> has_dest C op -> c_lat0 C = true ->
  forall t m e u lv e' ms s ls s' l,
    reach C op n s ls -> formats_oldest s t m e -> u <> t -> u <> 0 ->
    nth_error (thr s) u = Some Idle -> alive s = true -> fip s = false ->
    length (q s) < c_cap C -> for_sink (c_level C) lv = true -> away t ms ->
    exec C s (MThread u (CPush lv e') :: repeat (MThread u (CGo false)) 5 ++ ms) = (s', l) ->
    ~ In (LReturn u) l.
Proof. exact @nested_zero. Qed.
Print Assumptions C94_zero_latency_never_returns.

(** flush(), hence also critical(). *)
Theorem C94_flush_never_returns :
  forall (E : Type) (C : cfg E) op n, sizes_ok C -> has_dest C op ->
  forall t m e u c ms s ls s' l,
    reach C op n s ls -> formats_oldest s t m e -> u <> t -> u <> 0 ->
    nth_error (thr s) u = Some Idle -> alive s = true -> fip s = false -> away t ms ->
    exec C s (MThread u CFlush :: MThread u c :: ms) = (s', l) -> ~ In (LReturn u) l.
Proof. exact @nested_flush. Qed.
Print Assumptions C94_flush_never_returns.

(** All three situations arise. *)
Definition w94 : list (move string) := push 1 INFO "outer" ++ go 1 1.
Definition w94f : list (move string) :=
  push 1 INFO "outer" ++ go 1 1 ++ flat_map (fun e => push 2 INFO e ++ go 2 4) ["a"; "b"; "c"].
Theorem C94_nested_returns_refuted : forall k,
  (exists s ls, reach (wcfg k true) true 2 s ls /\ formats_oldest s 1 0 "outer" /\
     nth_error (thr s) 2 = Some Idle /\ alive s = true /\ fip s = false /\ length (q s) < c_cap (wcfg k true) /\
     forall ms s' l, away 1 ms ->
       exec (wcfg k true) s (MThread 2 (CPush INFO "inner") :: repeat (MThread 2 (CGo false)) 5 ++ ms) = (s', l) ->
       ~ In (LReturn 2) l) /\
  (exists s ls, reach (wcfg k false) true 2 s ls /\ formats_oldest s 1 0 "outer" /\
     nth_error (thr s) 2 = Some Idle /\ alive s = true /\ length (q s) = c_cap (wcfg k false) /\
     forall ms s' l, away 1 ms ->
       exec (wcfg k false) s (MThread 2 (CPush INFO "inner") :: ms) = (s', l) ->
       ~ In (LReturn 2) l).
Proof.
  intros k. assert (D : has_dest (wcfg k true) true /\ has_dest (wcfg k false) true) by (split; right; reflexivity).
  destruct D as [D1 D2]. split.
  - destruct (run (wcfg k true) 2 w94) as [s ls] eqn:Hr. pose proof (run_reach _ _ _ _ _ Hr) as R. exists s, ls.
    assert (F : formats_oldest s 1 0 "outer" /\ nth_error (thr s) 2 = Some Idle /\ alive s = true /\ fip s = false /\
                length (q s) < c_cap (wcfg k true)).
    { destruct k; vm_compute in Hr; injection Hr as <- <-;
        (split; [split; [reflexivity|eexists; reflexivity]|]); (split; [reflexivity|]); (split; [reflexivity|]);
        (split; [reflexivity|]); cbn; lia. }
    destruct F as (F1 & F2 & F3 & F4 & F5). repeat (split; [assumption|]). intros ms s' l Ha He.
    refine (C94_zero_latency_never_returns _ _ _ _ (wsizes k true) D1 eq_refl _ _ _ _ _ _ _ _ _ _ _ R F1 _ _ F2 F3 F4 F5 _ Ha He);
      [discriminate|discriminate|reflexivity].
  - destruct (run (wcfg k false) 2 w94f) as [s ls] eqn:Hr. pose proof (run_reach _ _ _ _ _ Hr) as R. exists s, ls.
    assert (F : formats_oldest s 1 0 "outer" /\ nth_error (thr s) 2 = Some Idle /\ alive s = true /\
                length (q s) = c_cap (wcfg k false)).
    { destruct k; vm_compute in Hr; injection Hr as <- <-;
        (split; [split; [reflexivity|eexists; reflexivity]|]); (split; [reflexivity|]); (split; [reflexivity|]);
        reflexivity. }
    destruct F as (F1 & F2 & F3 & F4). repeat (split; [assumption|]). intros ms s' l Ha He.
    refine (proj1 (C94_full_never_returns _ _ _ _ (wsizes k false) D2 _ _ _ _ _ _ _ _ _ _ _ R F1 F4 _ _ F2 F3 _ Ha He));
      [discriminate|discriminate|reflexivity].
Qed.
Print Assumptions C94_nested_returns_refuted.

(** flush() inside, and the case that works, on the same states. *)
Example C94_flush_nonvacuous : forall k lat0,
  let s := fst (run (wcfg k lat0) 2 w94) in
  formats_oldest s 1 0 "outer" /\ nth_error (thr s) 2 = Some Idle /\ alive s = true /\ fip s = false.
Proof.
  intros k lat0. destruct k, lat0; vm_compute; (split; [split; [reflexivity|eexists; reflexivity]|]); auto.
Qed.
Example C94_returns_nonvacuous : forall k,
  let s := fst (run (wcfg k false) 2 w94) in
  accepted (snd (exec (wcfg k false) s (push 2 INFO "inner" ++ go 2 4))) = ["inner"] /\
  snd (exec (wcfg k false) s (push 2 INFO "inner" ++ go 2 4 ++ go 1 3)) =
    [LPush 2 INFO "inner"; LAccept 2 "inner"; LReturn 2; LReturn 1].
Proof. intros k. destruct k; vm_compute; auto. Qed.
