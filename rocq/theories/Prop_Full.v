(** * C81-C82: a sink together with its circular buffer *)
From Coq Require Import Ascii String NArith Arith List Bool.
From Verif Require CircModel.
From Verif Require Import Base LevelModel SinkModel SinkSpec SinkWitness FullModel FullSpec FullProofs FullProps.
Import ListNotations.
Open Scope string_scope.
Open Scope list_scope.

(** ** C81 *)
(** However the operations of the threads on the buffer, the flags, the counter and the
    stream interleave: nothing undefined happens, and the observable trace, the
    destination, the flags and the places of the threads that are not inside the buffer
    are those of an execution of the sink over an ideal queue (for which C18-C30 are
    proved). *)
Theorem C81_over_the_buffer :
  forall (E : Type) (C : cfg E) (cap1 : 1 <= c_cap C) op n ms,
    exists s ls, fexec C (finit C op n) ms = Some (s, ls) /\
    exists a ms', exec C (init C op n) ms' = (a, ls) /\ rest s = strip a /\
      length (pcs s) = length (thr a) /\
      forall t p, nth_error (pcs s) t = Some (At p) -> nth_error (thr a) t = Some p.
Proof. exact @full_defined. Qed.
Print Assumptions C81_over_the_buffer.

(** Without capacity the first push divides by zero (circular_buffer.hpp:159). *)
Definition cfg0 : cfg string := mkCfg KFile 0 false 1000 INFO (fun _ => 1%N) bs.
Example C81_capacity_needed :
  fexec cfg0 (finit cfg0 true 1) (push 1 INFO "a" ++ go 1 5) = None.
Proof. vm_compute. reflexivity. Qed.

(** Thread 1 has reserved its slot and is constructing; thread 2 overtakes it; thread 3's
    flush waits for the slot of thread 1; then all finish. *)
Definition ex81 := fexec (wcfg KFile false) (finit (wcfg KFile false) true 3)
  (push 1 INFO "a" ++ go 1 8 ++ push 2 INFO "b" ++ go 2 13 ++ [MThread 3 CFlush] ++ go 3 9 ++ go 1 5 ++ go 3 30 ++ go 2 5).
Example C81_nonvacuous :
  match ex81 with
  | Some (s, ls) => accepted ls = ["a"; "b"] /\ written ls = ["a"] /\ contents 4 (ring s) = ["b"] /\
      pcs s = [At WWait; At Idle; At Idle; At Idle] /\ CircModel.g_pop (ring s) = 1
  | None => False
  end.
Proof. vm_compute. auto. Qed.

(** ** C82 *)
Theorem C82_accepted_exactly :
  forall (E : Type) (C : cfg E) (cap1 : 1 <= c_cap C) op n s ls t,
    freach C op n s ls -> nth_error (pcs s) t = Some (At Idle) ->
    accepted_by t ls = for_sink_by (c_level C) t ls.
Proof. exact @full_accepted. Qed.
Print Assumptions C82_accepted_exactly.

Theorem C82_order :
  forall (E : Type) (C : cfg E) (cap1 : 1 <= c_cap C) n s ls,
    sizes_ok C -> freach C true n s ls ->
    (exists k, written ls = map snd (firstn k (accepts ls))) /\
    forall t, t < length (pcs s) ->
      exists rest, for_sink_by (c_level C) t ls = accepted_by t ls ++ rest /\ length rest <= 1.
Proof. exact @full_order. Qed.
Print Assumptions C82_order.

Theorem C82_output_is_accepted :
  forall (E : Type) (C : cfg E) (cap1 : 1 <= c_cap C) n s ls,
    sizes_ok C -> c_kind C <> KSyslog -> freach C true n s ls ->
    (exists later, accepted ls = written ls ++ later /\ length later <= c_cap C + 1) /\
    concat (files (rest s)) = concat (map (c_render C) (written ls)).
Proof. exact @full_output. Qed.
Print Assumptions C82_output_is_accepted.

(** Between calls what is missing in the output is what the buffer holds. *)
Theorem C82_buffer_holds_the_rest :
  forall (E : Type) (C : cfg E) (cap1 : 1 <= c_cap C) n s ls,
    sizes_ok C -> freach C true n s ls -> fquiet s ->
    accepted ls = written ls ++ contents (c_cap C) (ring s) /\
    CircModel.g_size (ring s) = length (contents (c_cap C) (ring s)).
Proof. exact @full_quiet. Qed.
Print Assumptions C82_buffer_holds_the_rest.

Theorem C82_one_flusher :
  forall (E : Type) (C : cfg E) (cap1 : 1 <= c_cap C) op n s ls t u p p',
    sizes_ok C -> has_dest C op -> freach C op n s ls ->
    nth_error (pcs s) t = Some p -> nth_error (pcs s) u = Some p' ->
    fuses_output p = true -> fuses_output p' = true -> t = u.
Proof. exact @full_one_user. Qed.
Print Assumptions C82_one_flusher.

Theorem C82_destruction_complete :
  forall (E : Type) (C : cfg E) (cap1 : 1 <= c_cap C) n s ls t,
    sizes_ok C -> c_lat0 C = false -> freach C true n s ls -> In (LDestroyed t) ls ->
    written ls = accepted ls /\
    (c_kind C <> KSyslog -> concat (files (rest s)) = concat (map (c_render C) (accepted ls))) /\
    (c_kind C = KFile -> disk (rest s) = files (rest s)).
Proof. exact @full_destroyed. Qed.
Print Assumptions C82_destruction_complete.

Theorem C82_files_are_runs :
  forall (E : Type) (C : cfg E) (cap1 : 1 <= c_cap C) n s ls,
    sizes_ok C -> freach C true n s ls ->
    exists runs, length runs = 1 + fresh_files ls /\ concat runs = written ls /\
      files (rest s) = map (fun r => concat (map (c_render C) r)) runs.
Proof. exact @full_runs. Qed.
Print Assumptions C82_files_are_runs.

Theorem C82_crash_prefix :
  forall (E : Type) (C : cfg E) (cap1 : 1 <= c_cap C) n s ls,
    sizes_ok C -> c_kind C <> KSyslog -> freach C true n s ls ->
    is_prefix (concat (disk (rest s))) (concat (map (c_render C) (accepted ls))) /\
    exists runs last before beyond, written ls = concat (runs ++ [last]) /\
      disk (rest s) = map (fun r => concat (map (c_render C) r)) runs ++ [before] /\
      concat (map (c_render C) last) = before ++ beyond.
Proof. exact @full_crash. Qed.
Print Assumptions C82_crash_prefix.

(** Destruction while two events are in the buffer. *)
Definition ex82 := fexec (wcfg KFile false) (finit (wcfg KFile false) true 1)
  (push 1 INFO "a" ++ go 1 13 ++ push 1 INFO "b" ++ go 1 13 ++ [MThread 1 CDestroy] ++ go 1 2 ++
   [MThread 0 (CWake true)] ++ go 0 23 ++ [MThread 0 (CWake true)] ++ go 0 23 ++ [MThread 0 (CWake true)] ++ go 0 23 ++ go 1 2).
Example C82_nonvacuous :
  match ex82 with
  | Some (s, ls) => In (LDestroyed 1) ls /\ accepted ls = ["a"; "b"] /\ disk (rest s) = [bs "a" ++ [newline] ++ bs "b" ++ [newline]]
  | None => False
  end.
Proof. vm_compute. intuition. Qed.
(** One thread inside the buffer on behalf of flush(). *)
Example C82_one_flusher_nonvacuous :
  match fexec (wcfg KFile false) (finit (wcfg KFile false) true 2)
          (push 1 INFO "a" ++ go 1 13 ++ [MThread 2 CFlush] ++ go 2 9) with
  | Some (s, _) => exists p, nth_error (pcs s) 2 = Some p /\ fuses_output p = true
  | None => False
  end.
Proof. vm_compute. eexists. split; reflexivity. Qed.
