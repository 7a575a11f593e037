(** * Properties C18-C30: a sink under any schedule

    [reach C op n s ls]: after construction with settings [C] ([op]: the file could
    be opened), with [n] client threads besides the sink's own worker (thread 0),
    some schedule leads to state [s]; [ls] is what could be observed. *)

From Coq Require Import Ascii String NArith Arith List Bool Lia.
From Verif Require Import Base LevelModel SinkModel SinkSpec SinkProps SinkReturn SinkSolo SinkZero
  SinkRotate SinkForget SinkMore SinkWitness.
Import ListNotations.
Open Scope string_scope.
Open Scope list_scope.

(** ** C18 *)
Theorem C18_rejected_no_effect :
  forall (E : Type) (C : cfg E) s t l e,
    nth_error (thr s) t = Some Idle -> t <> 0 -> alive s = true ->
    for_sink (c_level C) l = false ->
    step C s (MThread t (CPush l e)) = (s, [LPush t l e; LReturn t]).
Proof. exact @rejected_no_effect. Qed.
Print Assumptions C18_rejected_no_effect.

(** Whenever a thread is between calls, the events accepted from it are those it
    pushed with an admitted level, each once, in order. *)
Theorem C18_accepted_exactly :
  forall (E : Type) (C : cfg E) op n s ls t,
    reach C op n s ls -> nth_error (thr s) t = Some Idle ->
    accepted_by t ls = for_sink_by (c_level C) t ls.
Proof. exact @accepted_exactly. Qed.
Print Assumptions C18_accepted_exactly.

Definition ex18 := run (wcfg KFile false) 2
  (push 1 INFO "a" ++ go 1 4 ++ push 1 DEBUG "b" ++ push 1 OFF "c" ++ push 2 WARN "d" ++ go 2 2 ++
   push 1 CRITICAL "e" ++ go 1 4 ++ push 1 IGNORE "f").
Example C18_nonvacuous :
  nth_error (thr (fst ex18)) 1 = Some Idle /\
  accepted_by 1 (snd ex18) = ["a"; "e"] /\ accepted_by 2 (snd ex18) = ["d"] /\
  map snd (pushes_by 1 (snd ex18)) = ["a"; "b"; "c"; "e"; "f"] /\
  map (for_sink INFO) [OFF; CRITICAL; INFO; VERBOSE; IGNORE] = [false; true; true; false; false].
Proof. vm_compute. auto. Qed.

(** ** C19 *)
Theorem C19_output_is_accepted :
  forall (E : Type) (C : cfg E) n s ls,
    sizes_ok C -> c_kind C <> KSyslog -> reach C true n s ls ->
    accepted ls = written ls ++ pending s /\
    concat (files s) = concat (map (c_render C) (written ls)) /\
    length (pending s) <= c_cap C + 1.
Proof. exact @output_is_accepted. Qed.
Print Assumptions C19_output_is_accepted.

(** A file that could not be opened at first: events flushed before a rotation
    opens it are lost, nothing else. *)
Theorem C19_not_opened :
  forall (E : Type) (C : cfg E) n s ls,
    sizes_ok C -> c_kind C = KFile -> reach C false n s ls ->
    accepted ls = lost ls ++ written ls ++ pending s /\
    concat (files s) = concat (map (c_render C) (written ls)).
Proof. exact @output_unopened. Qed.
Print Assumptions C19_not_opened.

(** Three threads: 1 is writing "a", 2 has just put "b", 3 finds a queue of two. *)
Definition ex19 := run (wcfg KFile false) 3
  (push 1 INFO "a" ++ go 1 1 ++ push 2 INFO "b" ++ go 2 1 ++ go 1 3 ++ [MThread 3 CFlush] ++ go 3 4 ++
   push 1 INFO "c" ++ go 1 2 ++ go 2 3 ++ go 3 3 ++ [MThread 0 (CWake true)] ++ go 0 3).
Example C19_nonvacuous :
  accepted (snd ex19) = ["a"; "b"; "c"] /\ written (snd ex19) = ["a"] /\
  pending (fst ex19) = ["b"; "c"] /\ concat (files (fst ex19)) = bs "a" ++ [newline] /\
  nth_error (thr (fst ex19)) 0 = Some (FWrite KWorker (Some "b")).
Proof. vm_compute. auto. Qed.

(** ** C20 *)
Theorem C20_per_thread_order :
  forall (E : Type) (C : cfg E) n s ls,
    sizes_ok C -> reach C true n s ls ->
    (exists k, written ls = map snd (firstn k (accepts ls))) /\
    forall t, t < length (thr s) ->
      exists rest, for_sink_by (c_level C) t ls = accepted_by t ls ++ rest /\ length rest <= 1.
Proof. exact @per_thread_order. Qed.
Print Assumptions C20_per_thread_order.

Example C20_nonvacuous :
  accepts (snd ex19) = [(1, "a"); (2, "b"); (1, "c")] /\ for_sink_by INFO 1 (snd ex19) = ["a"; "c"].
Proof. vm_compute. auto. Qed.

(** ** C21 *)
Theorem C21_one_flusher :
  forall (E : Type) (C : cfg E) op n s ls t u p p',
    sizes_ok C -> has_dest C op -> reach C op n s ls ->
    nth_error (thr s) t = Some p -> nth_error (thr s) u = Some p' ->
    uses_output p = true -> uses_output p' = true -> t = u.
Proof. exact @one_user. Qed.
Print Assumptions C21_one_flusher.

Example C21_nonvacuous :
  exists p, nth_error (thr (fst ex19)) 0 = Some p /\ uses_output p = true.
Proof. eexists. vm_compute. split; reflexivity. Qed.

(** ** C22 *)
Theorem C22_destruction_complete :
  forall (E : Type) (C : cfg E) n s ls t,
    sizes_ok C -> c_lat0 C = false -> reach C true n s ls -> In (LDestroyed t) ls ->
    written ls = accepted ls /\
    (c_kind C <> KSyslog -> concat (files s) = concat (map (c_render C) (accepted ls))) /\
    (c_kind C = KFile -> disk s = files s).
Proof. exact @destroyed_complete. Qed.
Print Assumptions C22_destruction_complete.

(** The destructor returns: from each state on its way either it or the worker can
    move, and both move only a bounded number of times (the more, the more often a load
    returns an old value). *)
Theorem C22_destructor_returns :
  forall (E : Type) (C : cfg E) n s ls t p,
    sizes_ok C -> c_lat0 C = false -> 1 <= c_cap C ->
    reach C true n s ls -> nth_error (thr s) t = Some p -> destroying p = true ->
    (p = Dead \/ can_move C t s \/ can_move C 0 s) /\
    (forall ms k, advances C t s ms k -> k <= 4) /\
    (fin s = true -> forall ms k, advances C 0 s ms k ->
       k <= 200 + 100 * length (q s) + 100 * length (filter (@spurious E) ms)).
Proof. exact @destructor_returns. Qed.
Print Assumptions C22_destructor_returns.

(** Three events, two of them queued, then destruction. *)
Definition wround : list (move string) := [MThread 0 (CWake true)] ++ go 0 9.
Definition ex22 := run (wcfg KFile false) 1
  (push 1 INFO "a" ++ go 1 4 ++ push 1 INFO "b" ++ go 1 4 ++ push 1 INFO "c" ++ go 1 4 ++
   [MThread 0 (CWake true)] ++ go 0 4 ++ [MThread 1 CDestroy] ++ go 1 2 ++ go 0 9 ++
   wround ++ wround ++ wround ++ go 1 2).
Example C22_nonvacuous :
  In (LDestroyed 1) (snd ex22) /\ written (snd ex22) = ["a"; "b"; "c"] /\
  disk (fst ex22) = [concat (map (c_render (wcfg KFile false)) ["a"; "b"; "c"])].
Proof. vm_compute. tauto. Qed.

(** ** C23 *)
Theorem C23_zero_latency_destruction_refuted :
  forall k, k = KFile \/ k = KConsole ->
  exists (C : cfg string) n s ls t, c_kind C = k /\ c_lat0 C = true /\ sizes_ok C /\
    reach C true n s ls /\ In (LDestroyed t) ls /\
    accepted ls = ["one"; "two"; "three"] /\ written ls = ["one"; "two"].
Proof. exact C23_witness. Qed.
Print Assumptions C23_zero_latency_destruction_refuted.

(** What holds: file and console sinks write one more event, syslog sinks all. *)
Theorem C23_zero_latency_destruction_partial :
  forall (E : Type) (C : cfg E) (sz : sizes_ok C) (lat : c_lat0 C = true) (cap : 1 <= c_cap C)
      n s ls t ms s' l',
    reach C true n s ls -> t <> 0 -> nth_error (thr s) t = Some Idle -> clients_idle s = true ->
    exec C s (MThread t CDestroy :: ms) = (s', l') -> In (LDestroyed t) l' ->
    accepted (ls ++ l') = written (ls ++ l') ++ map (@q_ev E) (q s') /\
    length (q s') <= match c_kind C with KSyslog => 0 | _ => pred (length (q s)) end.
Proof. exact @zero_destroy. Qed.
Print Assumptions C23_zero_latency_destruction_partial.

Definition ex23 := run (wcfg KConsole true) 2 (firstn 24 w23).
Example C23_nonvacuous :
  clients_idle (fst ex23) = true /\ map (@q_ev _) (q (fst ex23)) = ["two"; "three"].
Proof. vm_compute. auto. Qed.

(** ** C24 *)
Theorem C24_size_counter :
  forall (E : Type) (C : cfg E) op n s ls,
    sizes_ok C -> has_dest C op -> reach C op n s ls ->
    size s = (total (c_msize C) (counted s) mod 2 ^ 64)%N.
Proof. exact @size_counts. Qed.
Print Assumptions C24_size_counter.

(** So it is exact, and no subtraction underflows, while the sum fits. *)
Theorem C24_size_exact :
  forall (E : Type) (C : cfg E) op n s ls,
    sizes_ok C -> has_dest C op -> reach C op n s ls ->
    (total (c_msize C) (counted s) < 2 ^ 64)%N ->
    size s = total (c_msize C) (counted s) /\
    (forall t k e, nth_error (thr s) t = Some (FSub k e) -> (c_msize C e <= size s)%N) /\
    (at_rest s -> size s = total (c_msize C) (map (@q_ev E) (q s))).
Proof. exact @size_exact. Qed.
Print Assumptions C24_size_exact.

(** It fits if capacity + 1 messages of the greatest length do. *)
Theorem C24_size_fits :
  forall (E : Type) (C : cfg E) op n s ls (M : N),
    sizes_ok C -> has_dest C op -> reach C op n s ls ->
    (forall e, c_msize C e <= M)%N -> (M * (N.of_nat (c_cap C) + 1) < 2 ^ 64)%N ->
    (total (c_msize C) (counted s) < 2 ^ 64)%N.
Proof. exact @size_never_wraps. Qed.
Print Assumptions C24_size_fits.

(** A push that ends with the counter at four fifths of the buffer size or more
    requests a flush, which takes the waiting worker out of its wait. *)
Theorem C24_threshold :
  forall M, (M < 2 ^ 62)%N -> threshold_of M = (4 * M / 5)%N.
Proof. exact threshold_exact. Qed.
Print Assumptions C24_threshold.

Theorem C24_threshold_triggers :
  forall (E : Type) (C : cfg E) s t c,
    c_lat0 C = false -> t <> 0 -> nth_error (thr s) t = Some PDecide ->
    let s' := fst (step C s (MThread t c)) in
    In (LReturn t) (snd (step C s (MThread t c))) /\
    ((c_threshold C <= size s)%N -> ntf s' = true /\ (nth_error (thr s) 0 = Some WWait ->
       nth_error (thr (fst (step C s' (MThread 0 (CWake false))))) 0 = Some (FTas KWorker))) /\
    ((size s < c_threshold C)%N -> ntf s' = ntf s).
Proof. exact @threshold_triggers. Qed.
Print Assumptions C24_threshold_triggers.

Example C24_threshold_nonvacuous :
  threshold_of 1000 = 800%N /\
  nth_error (thr (fst (run (wcfg KFile false) 1 (push 1 INFO "abc" ++ go 1 3)))) 1 = Some PDecide.
Proof. vm_compute. auto. Qed.

Definition ex24 := run (wcfg KFile false) 3
  (push 1 INFO "abc" ++ go 1 4 ++ push 2 INFO "de" ++ go 2 3 ++ push 3 INFO "x" ++ go 3 1 ++
   [MThread 0 (CWake true)] ++ go 0 2).
Example C24_nonvacuous :
  size (fst ex24) = 5%N /\ counted (fst ex24) = ["abc"; "de"] /\
  nth_error (thr (fst ex24)) 0 = Some (FSub KWorker "abc").
Proof. vm_compute. auto. Qed.

(** ** C25 *)
Theorem C25_flush_writes_all_refuted :
  forall k, k = KFile \/ k = KConsole ->
  exists (C : cfg string) n s ls t ms s' ls', c_kind C = k /\ sizes_ok C /\ reach C true n s ls /\
    at_rest s /\ nth_error (thr s) t = Some Idle /\ only t ms /\
    exec C s (MThread t CFlush :: ms) = (s', ls') /\ In (LReturn t) ls' /\ at_rest s' /\ q s' <> [].
Proof. exact C25_witness. Qed.
Print Assumptions C25_flush_writes_all_refuted.

(** What holds: run alone, flush() returns and has written the whole queue
    (syslog), or just its oldest event (file, console). *)
Theorem C25_flush_alone_partial :
  forall (E : Type) (C : cfg E) op n (sz : sizes_ok C) (dst : has_dest C op) (cap : 1 <= c_cap C)
      t s ls ms s1 l1,
    op = true -> reach C op n s ls -> at_rest s -> t <> 0 ->
    nth_error (thr s) t = Some Idle -> only t ms ->
    exec C s (MThread t CFlush :: ms) = (s1, l1) -> ~ In (LReturn t) l1 ->
    can_move C t s1 /\
    (forall k, advances C t s (MThread t CFlush :: ms) k -> k <= 22 + 100 * length (q s)) /\
    (forall c, In (LReturn t) (snd (step C s1 (MThread t c))) ->
       q (fst (step C s1 (MThread t c))) = (match c_kind C with KSyslog => [] | _ => tl (q s) end) /\
       written (l1 ++ snd (step C s1 (MThread t c))) =
         map (@q_ev E) (match c_kind C with KSyslog => q s | _ => firstn 1 (q s) end)).
Proof. exact @solo_flush. Qed.
Print Assumptions C25_flush_alone_partial.

Definition ex25 := run (wcfg KSyslog false) 1 w25.
Example C25_nonvacuous :
  nth_error (thr (fst ex25)) 1 = Some Idle /\ map (@q_ev _) (q (fst ex25)) = ["one"; "two"] /\
  (let '(s1, l1) := exec (wcfg KSyslog false) (fst ex25) (MThread 1 CFlush :: go 1 7) in
   written l1 = ["one"; "two"] /\ ~ In (LReturn 1) l1 /\
   In (LReturn 1) (snd (step (wcfg KSyslog false) s1 (MThread 1 (CGo false))))).
Proof. vm_compute. intuition discriminate. Qed.

(** ** C26 *)
Theorem C26_concurrent_refuted :
  forall k,
  exists (C : cfg string) n s ls t, c_kind C = k /\ c_lat0 C = true /\ sizes_ok C /\ reach C true n s ls /\
    nth_error (thr s) t = Some Idle /\ accepted_by t ls = ["two"] /\ ~ In "two" (written ls).
Proof. exact C26_witness. Qed.
Print Assumptions C26_concurrent_refuted.

(** With a single client thread it holds. *)
Theorem C26_single_thread_partial :
  forall (E : Type) (C : cfg E) (sz : sizes_ok C) (lat : c_lat0 C = true) (cap : 1 <= c_cap C) s ls p,
    reach C true 1 s ls -> nth_error (thr s) 1 = Some p -> p = Idle \/ p = Dead ->
    written ls = accepted ls.
Proof. exact @single_client. Qed.
Print Assumptions C26_single_thread_partial.

Definition ex26 := run (wcfg KFile true) 1 (push 1 INFO "a" ++ go 1 11 ++ push 1 INFO "b" ++ go 1 11).
Example C26_nonvacuous :
  nth_error (thr (fst ex26)) 1 = Some Idle /\ written (snd ex26) = ["a"; "b"].
Proof. vm_compute. auto. Qed.

(** ** C27 *)
(** The files hold consecutive runs of the written events, one file more than
    rotations that started a new one; no record is split. *)
Theorem C27_files_are_runs :
  forall (E : Type) (C : cfg E) n s ls,
    sizes_ok C -> reach C true n s ls ->
    exists runs, length runs = 1 + fresh_files ls /\ concat runs = written ls /\
      files s = map (fun r => concat (map (c_render C) r)) runs.
Proof. exact @rotation_runs. Qed.
Print Assumptions C27_files_are_runs.

(** What one rotation does, by the outcome of re-opening. *)
Theorem C27_reopen :
  forall (E : Type) (C : cfg E) s m t r,
    In (LReopen t r) (snd (step C s m)) -> opened s = true ->
    let s' := fst (step C s m) in
    opened s' = true /\
    match r with
    | ROFail => files s' = files s
    | ROSame => files s' = files s /\ disk s' = files s
    | ROFresh => files s' = files s ++ [[]] /\ disk s' = files s ++ [[]]
    end.
Proof. exact @reopen_works. Qed.
Print Assumptions C27_reopen.

(** A requested rotation is not forgotten: as long as the file is not reopened (attempts
    count), flushes that start after the request and end are at most as many as the
    spurious failures of compare_exchange_weak. *)
Theorem C27_not_forgotten :
  forall (E : Type) (C : cfg E) (sz : sizes_ok C) (file : c_kind C = KFile) op n
      s ls m s1 l1 t ms s2 l2,
    reach C op n s ls -> step C s m = (s1, l1) -> In (LRotate t) l1 ->
    exec C s1 ms = (s2, l2) -> (forall v r, ~ In (LReopen v r) l2) ->
    whole_flushes false l2 <= length (filter spurious ms).
Proof. exact @not_forgotten. Qed.
Print Assumptions C27_not_forgotten.

(** In particular, without spurious failures it is attempted by the time the next flush()
    that starts afterwards is done. *)
Theorem C27_next_flush :
  forall (E : Type) (C : cfg E) (sz : sizes_ok C) (file : c_kind C = KFile) op n
      s ls m s1 l1 t ms s2 l2 u a b c,
    reach C op n s ls -> step C s m = (s1, l1) -> In (LRotate t) l1 ->
    exec C s1 ms = (s2, l2) -> existsb spurious ms = false ->
    l2 = a ++ LLock u :: b ++ LUnlock u :: c -> exists v r, In (LReopen v r) (a ++ b).
Proof. exact @rotation_carried_out. Qed.
Print Assumptions C27_next_flush.

(** The bound is met: two failures, two flushes without reopening, and the third reopens. *)
Definition ex27b := 
  let s := fst (run (wcfg KFile false) 2 [MThread 2 CRotate; MThread 2 (CGo false)]) in
  let one := [MThread 1 CFlush] ++ go 1 3 ++ [MThread 1 (CGo true)] ++ go 1 1 in
  (exec (wcfg KFile false) s (one ++ one), filter spurious (one ++ one),
   exec (wcfg KFile false) s (one ++ one ++ [MThread 1 CFlush] ++ go 1 4 ++ [MThread 1 (COpen ROFresh)])).
Example C27_failures_delay :
  whole_flushes false (snd (fst (fst ex27b))) = 2 /\ length (snd (fst ex27b)) = 2 /\
  forallb (fun l => match l with LReopen _ _ => false | _ => true end) (snd (fst (fst ex27b))) = true /\
  In (LReopen 1 ROFresh) (snd (snd ex27b)).
Proof. vm_compute. repeat split; auto 20. Qed.

(** rotate() of a file sink does not return without having requested the rotation. *)
Theorem C27_rotate_requests :
  forall (E : Type) (C : cfg E) (file : c_kind C = KFile) t s ms s' l a b,
    nth_error (thr s) t = Some Idle -> t <> 0 -> alive s = true ->
    exec C s (MThread t CRotate :: ms) = (s', l) -> l = a ++ LReturn t :: b -> In (LRotate t) a.
Proof. exact @rotate_requests. Qed.
Print Assumptions C27_rotate_requests.

Definition ex27 := run (wcfg KFile false) 2
  (push 1 INFO "a" ++ go 1 4 ++ [MThread 1 CFlush] ++ go 1 7 ++
   push 1 INFO "b" ++ go 1 4 ++ [MThread 2 CRotate] ++ go 2 2 ++
   [MThread 1 CFlush] ++ go 1 7 ++ [MThread 1 (COpen ROFresh)] ++ go 1 1 ++
   push 1 INFO "c" ++ go 1 4 ++ [MThread 1 CFlush] ++ go 1 7).
Example C27_nonvacuous :
  fresh_files (snd ex27) = 1 /\
  files (fst ex27) = [bs "a" ++ [newline] ++ bs "b" ++ [newline]; bs "c" ++ [newline]].
Proof. vm_compute. auto. Qed.

(** ** C28 *)
Theorem C28_crash_prefix :
  forall (E : Type) (C : cfg E) n s ls,
    sizes_ok C -> c_kind C <> KSyslog -> reach C true n s ls ->
    is_prefix (concat (disk s)) (concat (map (c_render C) (accepted ls))) /\
    exists runs last before beyond, written ls = concat (runs ++ [last]) /\
      disk s = map (fun r => concat (map (c_render C) r)) runs ++ [before] /\
      concat (map (c_render C) last) = before ++ beyond.
Proof. exact @crash_prefix. Qed.
Print Assumptions C28_crash_prefix.

Theorem C28_disk_grows :
  forall (E : Type) (C : cfg E) n s ls ms s' ls',
    reach C true n s ls -> exec C s ms = (s', ls') ->
    is_prefix (concat (disk s)) (concat (disk s')).
Proof. exact @disk_grows. Qed.
Print Assumptions C28_disk_grows.

Definition ex28 := run (wcfg KFile false) 1
  (push 1 INFO "abc" ++ go 1 4 ++ [MThread 1 CFlush] ++ go 1 7 ++ [MDrain 2]).
Example C28_nonvacuous : disk (fst ex28) = [bs "ab"] /\ accepted (snd ex28) = ["abc"].
Proof. vm_compute. auto. Qed.

(** ** C29 *)
(** critical() is push() then flush() (logger.hpp:43-55).  Both have returned, the
    single thread is idle, and the operating system has not a byte. *)
Theorem C29_critical_durable_refuted :
  forall k lat0, k = KFile \/ k = KConsole ->
  exists (C : cfg string) ms1 s1 l1 ms2 s2 l2, c_kind C = k /\ c_lat0 C = lat0 /\ sizes_ok C /\
    only 1 ms1 /\ exec C (init C true 1) (MThread 1 (CPush CRITICAL "dead") :: ms1) = (s1, l1) /\
    In (LReturn 1) l1 /\ accepted l1 = ["dead"] /\
    only 1 ms2 /\ exec C s1 (MThread 1 CFlush :: ms2) = (s2, l2) /\ In (LReturn 1) l2 /\
    at_rest s2 /\ disk s2 = [[]].
Proof. exact C29_witness. Qed.
Print Assumptions C29_critical_durable_refuted.

(** ** C30 *)
Theorem C30_push_alone_returns :
  forall (E : Type) (C : cfg E) op n (sz : sizes_ok C) (dst : has_dest C op) (cap : 1 <= c_cap C)
      t s ls l e ms s1 l1,
    reach C op n s ls -> at_rest s -> t <> 0 ->
    nth_error (thr s) t = Some Idle -> for_sink (c_level C) l = true -> only t ms ->
    exec C s (MThread t (CPush l e) :: ms) = (s1, l1) -> ~ In (LReturn t) l1 ->
    can_move C t s1 /\
    (forall k, advances C t s (MThread t (CPush l e) :: ms) k -> k <= 401 + 100 * length (q s)) /\
    (forall c, In (LReturn t) (snd (step C s1 (MThread t c))) ->
       accepted (l1 ++ snd (step C s1 (MThread t c))) = [e]).
Proof. exact @solo_push. Qed.
Print Assumptions C30_push_alone_returns.

(** A full queue: push() flushes once, then puts. *)
Definition ex30 := run (wcfg KConsole false) 1
  (flat_map (fun e => push 1 INFO e ++ go 1 4) ["a"; "b"; "c"; "d"]).
Example C30_nonvacuous :
  length (q (fst ex30)) = 4 /\ nth_error (thr (fst ex30)) 1 = Some Idle /\
  (let '(s1, l1) := exec (wcfg KConsole false) (fst ex30) (push 1 INFO "e" ++ go 1 10) in
   ~ In (LReturn 1) l1 /\ accepted l1 = ["e"] /\ written l1 = ["a"] /\
   In (LReturn 1) (snd (step (wcfg KConsole false) s1 (MThread 1 (CGo false))))).
Proof. vm_compute. intuition discriminate. Qed.
