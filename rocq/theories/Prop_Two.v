(** * Property C54, two threads in makeGroup at once

    [interleaved ord fuel dbg s n p k lv c]: the call [c] happens while makeGroup(n, p, k, lv) is
    between the construction of the group and its registration.  [object s n p k lv]: the group
    makeGroup would construct ([None]: it throws). *)
From Coq Require Import String List Arith Bool Lia.
From Verif Require Import Base LevelModel SysModel SysSpec SysWitness SysProps SysTwoSpec SysTwo.
Import ListNotations.
Open Scope string_scope.

(** The result is that of the two calls one after the other, but for which of the two objects
    was made first: both calls return, and every name stands for the same group.
    Missing: parents whose name is registered again by the other call. *)
Theorem C54_two_makers_partial :
  forall ord, rearranges ord -> forall dbg fuel s n p k lv n' p' k' lv',
    reachable ord dbg usual s -> p <> Some n' ->
    object s n p k lv <> None -> object s n' p' k' lv' <> None ->
    let a := length (groups s) in
    exists s2 s3 s4, interleaved ord fuel dbg s n p k lv (MakeGroup n' p' k' lv') = Some (s2, a, RGroup (S a)) /\
      step ord fuel dbg s (MakeGroup n' p' k' lv') = (s3, RGroup a) /\
      step ord fuel dbg s3 (MakeGroup n p k lv) = (s4, RGroup (S a)) /\ exchanged a (S a) s2 s4.
Proof. intros ord Ho dbg fuel s n p k lv n' p' k' lv'. exact (two_makers ord Ho dbg fuel s n p k lv n' p' k' lv'). Qed.
Print Assumptions C54_two_makers_partial.

(** Two children of one group; the two groups are told apart. *)
Example C54_two_nonvacuous :
  reachable idord true usual ex_sys /\ object ex_sys "e" (Some "a") None None <> None /\ object ex_sys "f" (Some "a") None (Some TRACE) <> None /\
  exists s2, interleaved idord 9 true ex_sys "e" (Some "a") None None (MakeGroup "f" (Some "a") None (Some TRACE)) = Some (s2, 4, RGroup 5) /\
    find (gmap s2) "e" = Some 4 /\ find (gmap s2) "f" = Some 5 /\ level_of s2 "e" = level_of ex_sys "a" /\ level_of s2 "f" = Some TRACE.
Proof.
  split; [apply ex_usual|]. split; [discriminate|]. split; [discriminate|].
  eexists. split; [vm_compute; reflexivity|]. vm_compute. auto.
Qed.

(** The guard: "a" is made again meanwhile; the new group has the old parent. *)
Example C54_two_guard :
  exists s2 s4, interleaved idord 9 true ex_sys "e" (Some "a") None None (MakeGroup "a" None (Some "k1") (Some TRACE)) = Some (s2, 4, RGroup 5) /\
    step idord 9 true (fst (step idord 9 true ex_sys (MakeGroup "a" None (Some "k1") (Some TRACE)))) (MakeGroup "e" (Some "a") None None) = (s4, RGroup 5) /\
    level_of s2 "e" <> level_of s4 "e".
Proof. do 2 eexists. split; [vm_compute; reflexivity|]. split; [vm_compute; reflexivity|]. vm_compute. discriminate. Qed.
