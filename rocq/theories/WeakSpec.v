(** * Vocabulary for C86: two sinks that differ in their request flags only *)

From Coq Require Import List Arith NArith Bool.
From Verif Require Import Base LevelModel SinkModel WeakModel.
Import ListNotations.

Section Spec.
Context {E : Type}.

(** Reachable with weak flags, observing [ls]. *)
Definition wreach (C : cfg E) (op : bool) (clients : nat) (w : wstate E) (ls : list (label E)) : Prop :=
  exists ms, wexec C (winit C op clients) ms = (w, ls).

(** Same queue, counter, lock, destination and threads. *)
Record same_but_flags (a b : state E) : Prop := {
  sbf_q : q a = q b;
  sbf_size : size a = size b;
  sbf_fip : fip a = fip b;
  sbf_opened : opened a = opened b;
  sbf_closed : closed a = closed b;
  sbf_cur : cur a = cur b;
  sbf_obuf : obuf a = obuf b;
  sbf_thr : thr a = thr b
}.

(** Executions with sequentially consistent flags: a request is answered once. *)
Definition sc_move (m : move E) : bool := match m with MThread _ CKeep => false | _ => true end.

(** Requests made and not yet answered. *)
Definition open_requests (h : list msg) : nat :=
  length (filter (fun m => m_val m && negb (m_read m)) h).

(** The value a flag was last given. *)
Definition newest (h : list msg) : bool := m_val (last h (mkMsg false false)).

(** Requests to rotate, and attempts to open the next file, in a trace. *)
Definition rotations (ls : list (label E)) : nat :=
  length (filter (fun l => match l with LRotate _ => true | _ => false end) ls).
Definition reopens (ls : list (label E)) : nat :=
  length (filter (fun l => match l with LReopen _ _ => true | _ => false end) ls).

End Spec.
