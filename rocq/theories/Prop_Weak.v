(** * Property C86: a sink's guarantees do not depend on its flags being
      sequentially consistent

    [wreach C op n w ls]: as [reach], but need_to_flush_, need_to_rotate_ and
    need_to_finalize_ are accessed with the memory orders of the code (WeakModel:
    loads may return old values, compare_exchange any store not yet answered). *)

From Coq Require Import Ascii String NArith Arith List Bool Lia.
From Verif Require Import Base LevelModel SinkModel SinkSpec SinkProps SinkReturn SinkMore SinkRotate
  SinkWitness WeakModel WeakSpec WeakProofs.
Import ListNotations.
Open Scope string_scope.
Open Scope list_scope.

(** Whatever can be observed with weak flags is covered by the proofs of C18-C30. *)
Theorem C86_weak_flags_covered :
  forall (E : Type) (C : cfg E) op n w ls,
    wreach C op n w ls -> exists s, reach C op n s ls /\ same_but_flags (w_base w) s.
Proof. exact @weak_covered. Qed.
Print Assumptions C86_weak_flags_covered.

(** And sequentially consistent executions are among them, each flag having the same
    newest value. *)
Theorem C86_sequential_included :
  forall (E : Type) (C : cfg E) op n ms s ls,
    forallb (@sc_move E) ms = true -> exec C (init C op n) ms = (s, ls) ->
    exists w, wreach C op n w ls /\ same_but_flags (w_base w) s /\
      newest (w_ntf w) = ntf s /\ newest (w_ntr w) = ntr s /\ newest (w_fin w) = fin s.
Proof. exact @sc_is_weak. Qed.
Print Assumptions C86_sequential_included.

(** So, with weak flags: exactly the admitted events of an idle thread are accepted; *)
Theorem C86_accepted_exactly :
  forall (E : Type) (C : cfg E) op n w ls t,
    wreach C op n w ls -> nth_error (thr (w_base w)) t = Some Idle ->
    accepted_by t ls = for_sink_by (c_level C) t ls.
Proof.
  intros E C op n w ls t Hw Hp. destruct (weak_covered C op n w ls Hw) as (s & Hr & Hs).
  rewrite (sbf_thr _ _ Hs) in Hp. exact (accepted_exactly C op n s ls t Hr Hp).
Qed.
Print Assumptions C86_accepted_exactly.

(** the output is the accepted events in order, and what is not written is bounded; *)
Theorem C86_output_is_accepted :
  forall (E : Type) (C : cfg E) n w ls,
    sizes_ok C -> c_kind C <> KSyslog -> wreach C true n w ls ->
    accepted ls = written ls ++ pending (w_base w) /\
    concat (files (w_base w)) = concat (map (c_render C) (written ls)) /\
    length (pending (w_base w)) <= c_cap C + 1.
Proof.
  intros E C n w ls Hz Hk Hw. destruct (weak_covered C true n w ls Hw) as (s & Hr & [H1 H2 H3 H4 H5 H6 H7 H8]).
  unfold pending, files. rewrite H1, H5, H6, H7, H8. exact (output_is_accepted C n s ls Hz Hk Hr).
Qed.
Print Assumptions C86_output_is_accepted.

(** one thread at a time uses the destination; *)
Theorem C86_one_flusher :
  forall (E : Type) (C : cfg E) op n w ls t u p p',
    sizes_ok C -> has_dest C op -> wreach C op n w ls ->
    nth_error (thr (w_base w)) t = Some p -> nth_error (thr (w_base w)) u = Some p' ->
    uses_output p = true -> uses_output p' = true -> t = u.
Proof.
  intros E C op n w ls t u p p' Hz Hd Hw Hp Hp'. destruct (weak_covered C op n w ls Hw) as (s & Hr & Hs).
  rewrite (sbf_thr _ _ Hs) in Hp, Hp'. exact (one_user C op n s ls t u p p' Hz Hd Hr Hp Hp').
Qed.
Print Assumptions C86_one_flusher.

(** destruction loses nothing, even though the worker may at first not see it; *)
Theorem C86_destruction_complete :
  forall (E : Type) (C : cfg E) n w ls t,
    sizes_ok C -> c_lat0 C = false -> wreach C true n w ls -> In (LDestroyed t) ls ->
    written ls = accepted ls /\
    (c_kind C <> KSyslog -> concat (files (w_base w)) = concat (map (c_render C) (accepted ls))) /\
    (c_kind C = KFile -> disk (w_base w) = files (w_base w)).
Proof.
  intros E C n w ls t Hz Hl Hw Hi. destruct (weak_covered C true n w ls Hw) as (s & Hr & [H1 H2 H3 H4 H5 H6 H7 H8]).
  unfold disk, files. rewrite H5, H6, H7. exact (destroyed_complete C n s ls t Hz Hl Hr Hi).
Qed.
Print Assumptions C86_destruction_complete.

(** files hold consecutive runs of the written events; *)
Theorem C86_files_are_runs :
  forall (E : Type) (C : cfg E) n w ls,
    sizes_ok C -> wreach C true n w ls ->
    exists runs, length runs = 1 + fresh_files ls /\ concat runs = written ls /\
      files (w_base w) = map (fun r => concat (map (c_render C) r)) runs.
Proof.
  intros E C n w ls Hz Hw. destruct (weak_covered C true n w ls Hw) as (s & Hr & [H1 H2 H3 H4 H5 H6 H7 H8]).
  unfold files. rewrite H5, H6, H7. exact (rotation_runs C n s ls Hz Hr).
Qed.
Print Assumptions C86_files_are_runs.

(** after a crash the operating system has a prefix; *)
Theorem C86_crash_prefix :
  forall (E : Type) (C : cfg E) n w ls,
    sizes_ok C -> c_kind C <> KSyslog -> wreach C true n w ls ->
    is_prefix (concat (disk (w_base w))) (concat (map (c_render C) (accepted ls))).
Proof.
  intros E C n w ls Hz Hk Hw. destruct (weak_covered C true n w ls Hw) as (s & Hr & [H1 H2 H3 H4 H5 H6 H7 H8]).
  unfold disk. rewrite H5, H6. exact (proj1 (crash_prefix C n s ls Hz Hk Hr)).
Qed.
Print Assumptions C86_crash_prefix.

(** the file is never re-opened more often than rotation was requested. *)
Theorem C86_rotation_answered_once :
  forall (E : Type) (C : cfg E) op n w ls,
    wreach C op n w ls -> reopens ls <= rotations ls.
Proof. exact @weak_rotation_once. Qed.
Print Assumptions C86_rotation_answered_once.

(** Two requests, then both answered, one per flush: with sequentially consistent
    flags the second would find nothing.  Then a destructor the worker does not see
    the first time it looks. *)
Definition wpl (t n : nat) : list (wmove string) := repeat (WThread t (WPlain (CGo false))) n.
Definition ex86 := wexec (wcfg KFile false) (winit (wcfg KFile false) true 2)
  ([WThread 1 (WPlain CRotate)] ++ wpl 1 2 ++ [WThread 2 (WPlain CRotate)] ++ wpl 2 2 ++
   [WThread 1 (WPlain CFlush)] ++ wpl 1 3 ++ [WThread 1 (WCas (Some 1)); WThread 1 (WPlain (COpen ROFresh))] ++ wpl 1 1 ++
   [WThread 2 (WPlain CFlush)] ++ wpl 2 3 ++ [WThread 2 (WCas (Some 2)); WThread 2 (WPlain (COpen ROFresh))] ++ wpl 2 1 ++
   [WThread 1 (WPlain (CPush INFO "a"))] ++ wpl 1 4 ++
   [WThread 1 (WPlain CDestroy)] ++ wpl 1 2 ++
   [WThread 0 (WLoad 0 0); WThread 0 (WLoad 1 0)] ++ wpl 0 4 ++
   [WThread 0 (WCas None); WThread 0 (WCas None)] ++ wpl 0 1 ++
   [WThread 0 (WLoad 0 0); WThread 0 (WLoad 0 1)] ++ wpl 0 3 ++
   [WThread 0 (WCas None)] ++ wpl 0 1 ++ [WThread 0 (WLoad 0 1)] ++ wpl 0 1 ++ wpl 1 2).
Example C86_nonvacuous :
  rotations (snd ex86) = 2 /\ reopens (snd ex86) = 2 /\ In (LDestroyed 1) (snd ex86) /\
  written (snd ex86) = ["a"] /\ disk (w_base (fst ex86)) = [[]; []; bs "a" ++ [newline]].
Proof. vm_compute. intuition. Qed.
