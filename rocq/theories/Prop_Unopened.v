(** * Property C99: a log file that can be opened only later

    [reach C false n s ls]: the sink was made while its file could not be opened; [LReopen t r]
    is an attempt to open it again in consequence of rotate(), [ROFail] one without success. *)

From Coq Require Import Ascii String NArith Arith List Bool Lia.
From Verif Require Import Base LevelModel SinkModel SinkSpec SinkProps SinkRotate SinkUnopened SinkWitness.
Import ListNotations.
Open Scope string_scope.
Open Scope list_scope.

(** Until it is opened nothing is written: what is flushed is lost, the rest is kept. *)
Theorem C99_before :
  forall (E : Type) (C : cfg E) n s ls,
    sizes_ok C -> c_kind C = KFile -> reach C false n s ls ->
    (forall t r, In (LReopen t r) ls -> r = ROFail) ->
    written ls = [] /\ accepted ls = lost ls ++ pending s /\ concat (files s) = [].
Proof.
  intros E C n s ls sz K R H. pose proof (before_open C n s ls K R H) as W.
  destruct (output_unopened C n s ls sz K R) as [A B]. rewrite W in A, B. cbn in A, B. auto.
Qed.
Print Assumptions C99_before.

(** After rotate() the next completed flush() of anybody tries to open it. *)
Theorem C99_next_flush_opens_partial :
  forall (E : Type) (C : cfg E) (sz : sizes_ok C) (file : c_kind C = KFile) n
      s ls m s1 l1 t ms s2 l2 u a b c,
    reach C false n s ls -> step C s m = (s1, l1) -> In (LRotate t) l1 ->
    exec C s1 ms = (s2, l2) -> existsb spurious ms = false ->
    l2 = a ++ LLock u :: b ++ LUnlock u :: c -> exists v r, In (LReopen v r) (a ++ b).
Proof. intros E C sz file n. exact (@rotation_carried_out E C sz file false n). Qed.
Print Assumptions C99_next_flush_opens_partial.

(** Once it has been opened nothing is lost any more. *)
Theorem C99_once_open :
  forall (E : Type) (C : cfg E) op n s ls m s1 l1 t r ms s2 l2,
    reach C op n s ls -> step C s m = (s1, l1) -> In (LReopen t r) l1 -> r <> ROFail ->
    exec C s1 ms = (s2, l2) -> lost l2 = [].
Proof. exact @once_open. Qed.
Print Assumptions C99_once_open.

(** But there is no worker, even then: the destructor writes nothing (with a worker it writes
    everything, C22). *)
Theorem C99_destructor_writes_nothing :
  forall (E : Type) (C : cfg E) n s ls t ms s' l,
    c_lat0 C = false -> reach C false n s ls ->
    t <> 0 -> nth_error (thr s) t = Some Idle -> clients_idle s = true ->
    exec C s (MThread t CDestroy :: ms) = (s', l) ->
    written l = [] /\ map (@q_ev E) (q s') = map (@q_ev E) (q s).
Proof. exact @destructor_writes_nothing. Qed.
Print Assumptions C99_destructor_writes_nothing.

(** "a" is lost, the file is opened, "b" is written, "c" and "d" are still in the queue. *)
Definition w99 : list (move string) :=
  push 1 INFO "a" ++ go 1 4 ++ [MThread 1 CFlush] ++ go 1 7 ++
  [MThread 1 CRotate] ++ go 1 2 ++
  [MThread 1 CFlush] ++ go 1 4 ++ [MThread 1 (COpen ROSame)] ++ go 1 1 ++
  push 1 INFO "b" ++ go 1 4 ++ [MThread 1 CFlush] ++ go 1 8 ++
  push 1 INFO "c" ++ go 1 4 ++ push 2 INFO "d" ++ go 2 4.
Definition ex99 := exec (wcfg KFile false) (init (wcfg KFile false) false 2) w99.
Example C99_nonvacuous :
  lost (snd ex99) = ["a"] /\ written (snd ex99) = ["b"] /\ In (LReopen 1 ROSame) (snd ex99) /\
  In (LRotate 1) (snd ex99) /\ opened (fst ex99) = true /\ pending (fst ex99) = ["c"; "d"] /\
  nth_error (thr (fst ex99)) 1 = Some Idle /\ clients_idle (fst ex99) = true /\
  concat (files (fst ex99)) = bs "b" ++ [newline].
Proof. vm_compute. auto 20. Qed.

(** Destruction loses accepted events although the file is open: false as stated. *)
Theorem C99_destruction_refuted :
  exists (C : cfg string) s ls, c_kind C = KFile /\ c_lat0 C = false /\ sizes_ok C /\ reach C false 2 s ls /\
    In (LDestroyed 1) ls /\ In (LReopen 1 ROSame) ls /\ opened s = true /\
    lost ls = ["a"] /\ written ls = ["b"] /\ accepted ls = ["a"; "b"; "c"; "d"].
Proof.
  destruct (exec (wcfg KFile false) (init (wcfg KFile false) false 2) (w99 ++ [MThread 1 CDestroy] ++ go 1 4)) as [s ls] eqn:H.
  exists (wcfg KFile false), s, ls. split; [reflexivity|]. split; [reflexivity|]. split; [apply wsizes|].
  split; [eexists; exact H|]. vm_compute in H. injection H as <- <-. vm_compute. split; [tauto|]. split; [tauto|]. auto.
Qed.
Print Assumptions C99_destruction_refuted.
