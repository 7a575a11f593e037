(** * Property C116: flushing and rotating reaches every member, whatever other threads do *)
From Coq Require Import Ascii String NArith Arith List Bool Lia.
From Verif Require Import Base LevelModel SinkModel SinkSpec SinkWitness TreeSpec PoolModel PoolSpec PoolCallSpec PoolCall.
From Verif Require TreeModel.
Import ListNotations.
Open Scope string_scope.
Open Scope list_scope.

(** [times f (entries K cf n id t s ms)]: how often thread [t] enters function [f] of leaf sink
    [id] in the execution [ms].  Between two calls of the thread this is exactly as often as the
    sink occurs below what the calls flush (rotate); a member of a composite is, besides, asked
    to flush asynchronously before that.  During a call it is not more. *)
Theorem C116_every_member :
  forall (E : Type) K (cf : nat -> cfg E) op n f id t ms s tr, id < K -> 1 <= t <= n ->
    pexec K cf n (pinit cf op n) ms = (s, tr) ->
    times f (entries K cf n id t (pinit cf op n) ms) <= list_sum (map (wanted cf f id) (started t tr)) /\
    (resting K s t -> times f (entries K cf n id t (pinit cf op n) ms) = list_sum (map (wanted cf f id) (started t tr))).
Proof. intros E K cf op n f id t ms s tr. exact (reaches_members K cf op n f id t ms s tr). Qed.
Print Assumptions C116_every_member.

(** A file sink that occurs twice, a console sink; thread 1 logs, thread 2 flushes and rotates. *)
Definition cf116 (id : nat) : cfg string :=
  mkCfg (match id with 0 => KFile | _ => KConsole end) 4 false 1000 INFO (fun e => 1%N) (fun e => bs e).
Definition tree116 : TreeModel.tree :=
  TreeModel.Multi INFO [TreeModel.Leaf 0 INFO; TreeModel.Multi WARN [TreeModel.Leaf 1 INFO; TreeModel.Leaf 0 INFO]].
Definition xgo (id t k : nat) : list (pmove string) := repeat (XLeaf id (MThread t (CGo false))) k.
(** all that is left of a call: at most [k] calls on leaf sinks, of at most 12 steps each *)
Definition through (t k : nat) : list (pmove string) :=
  concat (repeat (XNext t :: xgo 0 t 12 ++ xgo 1 t 12) k).
Definition moves116 : list (pmove string) :=
  XStart 1 (OLog TRACE tree116 WARN "a") :: XStart 2 (OFlush tree116) :: XNext 1 :: XNext 2 :: xgo 0 1 2 ++ xgo 0 2 12 ++ xgo 0 1 12 ++ xgo 0 2 12 ++
  through 2 8 ++ through 1 10 ++ XStart 2 (ORotate tree116) :: through 2 3.
Definition end116 := pexec 2 cf116 2 (pinit cf116 (fun _ => true) 2) moves116.
Example C116_nonvacuous :
  resting 2 (fst end116) 1 /\ resting 2 (fst end116) 2 /\
  started 1 (snd end116) = [OLog TRACE tree116 WARN "a"] /\ started 2 (snd end116) = [OFlush tree116; ORotate tree116] /\
  map (fun f => times f (entries 2 cf116 2 0 2 (pinit cf116 (fun _ => true) 2) moves116)) [FnFlush; FnAsync; FnRotate] = [2; 2; 2] /\
  map (fun f => times f (entries 2 cf116 2 1 2 (pinit cf116 (fun _ => true) 2) moves116)) [FnFlush; FnAsync; FnRotate] = [1; 1; 0] /\
  map (fun f => times f (entries 2 cf116 2 0 1 (pinit cf116 (fun _ => true) 2) moves116)) [FnFlush; FnAsync; FnRotate] = [2; 2; 0] /\
  concat (files (leaf (fst end116) 0)) = bs "aa" /\ concat (files (leaf (fst end116) 1)) = bs "a".
Proof.
  split; [split; [vm_compute; reflexivity|intros [|[|id]] H; [vm_compute; reflexivity..|exfalso; lia]]|].
  split; [split; [vm_compute; reflexivity|intros [|[|id]] H; [vm_compute; reflexivity..|exfalso; lia]]|].
  repeat split; vm_compute; reflexivity.
Qed.
