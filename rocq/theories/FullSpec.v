(** * Vocabulary for the sink over its circular buffer (C81, C82) *)

From Coq Require Import List Arith NArith Bool.
From Verif Require CircModel.
From Verif Require Import Base LevelModel SinkModel SinkSpec FullModel.
Import ListNotations.

Section Spec.
Context {E : Type}.

(** Reachable by an execution with trace [ls]. *)
Definition freach (C : cfg E) (op : bool) (clients : nat) (s : fstate E) (ls : list (label E)) : Prop :=
  exists ms, fexec C (finit C op clients) ms = Some (s, ls).

(** The thread uses the output buffer or the stream. *)
Definition fuses_output (p : fpc E) : bool :=
  match p with
  | At p => uses_output p
  | InGet _ | Sub _ _ | Free _ _ _ => true
  | _ => false
  end.

(** No call is running and the worker, if any, is waiting. *)
Definition fquiet (s : fstate E) : Prop :=
  Forall (fun p => p = At Idle \/ p = At WWait \/ p = At WDone) (pcs s).

(** The items in the buffer, read off its own fields: [g_size] slots from
    [g_pop] on (circular_buffer.hpp:209-215). *)
Definition contents (cap : nat) (r : CircModel.state E) : list E :=
  flat_map (fun k => match CircModel.n_cell (CircModel.nodes r ((CircModel.g_pop r + k) mod cap)) with
                     | CircModel.Full e => [e]
                     | _ => []
                     end) (seq 0 (CircModel.g_size r)).

(** The thread is in the middle of put(), get() or size(), or holds a slot. *)
Definition in_buffer (p : fpc E) : bool := match p with At _ => false | _ => true end.

(** A stretch of an execution without new calls, in which each of the [n] threads and the worker
    has its turn, and nothing fails spuriously. *)
Definition all_have_a_turn (n : nat) (ms : list (move E)) : Prop :=
  (forall t, t <= n -> exists c, In (MThread t c) ms) /\
  forall m, In m ms -> (exists t, m = MThread t (CGo false)) \/ m = MThread 0 (CWake true).

End Spec.
