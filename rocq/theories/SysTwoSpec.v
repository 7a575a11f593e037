(** * Vocabulary: two systems that differ only in which of two groups is which object *)
From Coq Require Import String List Arith.
From Verif Require Import Base LevelModel SysModel.
Import ListNotations.

Definition exchange (a b g : nat) : nat := if Nat.eqb g a then b else if Nat.eqb g b then a else g.

(** The group objects [a] and [b] of [s] are [b] and [a] in [s']; all else is equal, and
    no group and no logger belongs to one of the two. *)
Definition exchanged (a b : nat) (s s' : sys) : Prop :=
  loggers s' = loggers s /\ lmap s' = lmap s /\ sinks s' = sinks s /\ smap s' = smap s /\ configured s' = configured s /\
  (forall g, nth_error (groups s') (exchange a b g) = nth_error (groups s) g) /\
  (forall x, find (gmap s') x = option_map (exchange a b) (find (gmap s) x)) /\
  (forall g X, nth_error (groups s) g = Some X -> g_parent X <> Some a /\ g_parent X <> Some b) /\
  (forall i L, nth_error (loggers s) i = Some L -> l_group L <> a /\ l_group L <> b).
