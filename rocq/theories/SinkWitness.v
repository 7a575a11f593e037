(** * Witnesses for the sink properties *)
From Coq Require Import Ascii String NArith Arith List Bool Lia.
From Verif Require Import Base LevelModel SinkModel SinkSpec SinkProofs SinkLabels SinkLife SinkProps
  SinkProgress SinkReturn SinkSolo SinkZero SinkRotate SinkMore.
Import ListNotations.
Open Scope string_scope.
Open Scope list_scope.

(** Events are texts; a record is the text and a newline. *)
Definition wcfg (k : sink_kind) (lat0 : bool) : cfg string :=
  mkCfg k 4 lat0 1000 INFO (fun e => N.of_nat (Nat.min 100 (String.length e))) (fun e => bs e ++ [newline]).
Lemma wsizes k b : sizes_ok (wcfg k b).
Proof.
  intros e. cbn [wcfg c_msize]. assert (Nat.min 100 (String.length e) <= 100) by apply Nat.le_min_l.
  apply N.le_lt_trans with 100%N; [lia|reflexivity].
Qed.

(** [n] steps of thread [t]. *)
Definition go (t n : nat) : list (move string) := repeat (MThread t (CGo false)) n.
Definition push (t : nat) (l : level) (e : string) : list (move string) := [MThread t (CPush l e)].

Definition run (C : cfg string) (n : nat) (ms : list (move string)) := exec C (init C true n) ms.
Lemma run_reach C n ms s ls : run C n ms = (s, ls) -> reach C true n s ls.
Proof. intros H. exists ms. exact H. Qed.

Ltac rest := unfold at_rest; cbn [fip thr q]; split; [reflexivity|]; split;
  repeat (apply Forall_cons; [cbn; auto|]); apply Forall_nil.

(** Two events accepted while another thread is in flush(); then destruction. *)
Definition w23 : list (move string) :=
  push 1 INFO "one" ++ go 1 5 ++ push 2 INFO "two" ++ go 2 5 ++ push 2 INFO "three" ++ go 2 5 ++
  go 1 6 ++ [MThread 1 CDestroy] ++ go 1 8.

Lemma C23_witness k : k = KFile \/ k = KConsole ->
  exists (C : cfg string) n s ls t, c_kind C = k /\ c_lat0 C = true /\ sizes_ok C /\
    reach C true n s ls /\ In (LDestroyed t) ls /\
    accepted ls = ["one"; "two"; "three"] /\ written ls = ["one"; "two"].
Proof.
  intros Hk. destruct (run (wcfg k true) 2 w23) as [s ls] eqn:Hr.
  exists (wcfg k true), 2, s, ls, 1. split; [reflexivity|]. split; [reflexivity|]. split; [apply wsizes|].
  split; [eapply run_reach; exact Hr|].
  destruct Hk as [-> | ->]; vm_compute in Hr; injection Hr as <- <-; split; try (vm_compute; tauto);
    split; reflexivity.
Qed.

(** flush() with two events queued, nobody else active. *)
Definition w25 : list (move string) := push 1 INFO "one" ++ go 1 4 ++ push 1 INFO "two" ++ go 1 4.
Definition w25f : list (move string) := go 1 7.
Lemma C25_witness k : k = KFile \/ k = KConsole ->
  exists (C : cfg string) n s ls t ms s' ls', c_kind C = k /\ sizes_ok C /\ reach C true n s ls /\
    at_rest s /\ nth_error (thr s) t = Some Idle /\ only t ms /\
    exec C s (MThread t CFlush :: ms) = (s', ls') /\ In (LReturn t) ls' /\ at_rest s' /\ q s' <> [].
Proof.
  intros Hk. destruct (run (wcfg k false) 1 w25) as [s ls] eqn:Hr.
  destruct (exec (wcfg k false) s (MThread 1 CFlush :: w25f)) as [s' ls'] eqn:Hf.
  exists (wcfg k false), 1, s, ls, 1, w25f, s', ls'.
  split; [reflexivity|]. split; [apply wsizes|]. split; [eapply run_reach; exact Hr|].
  destruct Hk as [-> | ->]; vm_compute in Hr; injection Hr as <- <-; vm_compute in Hf; injection Hf as <- <-;
    (split; [rest|]);
    (split; [reflexivity|]); (split; [repeat constructor|]); (split; [reflexivity|]);
    (split; [vm_compute; tauto|]); (split; [rest|discriminate]).
Qed.

(** With zero latency: the second thread's push() returns while the first is in flush(). *)
Definition w26 : list (move string) :=
  push 1 INFO "one" ++ go 1 5 ++ push 2 INFO "two" ++ go 2 5.
Lemma C26_witness k :
  exists (C : cfg string) n s ls t, c_kind C = k /\ c_lat0 C = true /\ sizes_ok C /\ reach C true n s ls /\
    nth_error (thr s) t = Some Idle /\ accepted_by t ls = ["two"] /\ ~ In "two" (written ls).
Proof.
  destruct (run (wcfg k true) 2 w26) as [s ls] eqn:Hr.
  exists (wcfg k true), 2, s, ls, 2. split; [reflexivity|]. split; [reflexivity|]. split; [apply wsizes|].
  split; [eapply run_reach; exact Hr|].
  destruct k; vm_compute in Hr; injection Hr as <- <-; (split; [reflexivity|]); (split; [reflexivity|]);
    vm_compute; intuition discriminate.
Qed.

(** critical(): push() and then flush() (logger.hpp:43-55), by the only thread there is. *)
Definition w29 (lat0 : bool) : list (move string) := go 1 (if lat0 then 11 else 4).
Lemma C29_witness k lat0 : k = KFile \/ k = KConsole ->
  exists (C : cfg string) ms1 s1 l1 ms2 s2 l2, c_kind C = k /\ c_lat0 C = lat0 /\ sizes_ok C /\
    only 1 ms1 /\ exec C (init C true 1) (MThread 1 (CPush CRITICAL "dead") :: ms1) = (s1, l1) /\
    In (LReturn 1) l1 /\ accepted l1 = ["dead"] /\
    only 1 ms2 /\ exec C s1 (MThread 1 CFlush :: ms2) = (s2, l2) /\ In (LReturn 1) l2 /\
    at_rest s2 /\ disk s2 = [[]].
Proof.
  intros Hk. exists (wcfg k lat0), (w29 lat0).
  destruct (exec (wcfg k lat0) (init (wcfg k lat0) true 1) (MThread 1 (CPush CRITICAL "dead") :: w29 lat0)) as [s1 l1] eqn:H1.
  exists s1, l1, (go 1 7).
  destruct (exec (wcfg k lat0) s1 (MThread 1 CFlush :: go 1 7)) as [s2 l2] eqn:H2.
  exists s2, l2. split; [reflexivity|]. split; [reflexivity|]. split; [apply wsizes|].
  split; [destruct lat0; repeat constructor|].
  destruct Hk as [-> | ->]; destruct lat0; vm_compute in H1; injection H1 as <- <-;
    vm_compute in H2; injection H2 as <- <-;
    (split; [reflexivity|]); (split; [vm_compute; tauto|]); (split; [reflexivity|]);
    (split; [repeat constructor|]); (split; [reflexivity|]); (split; [vm_compute; tauto|]);
    (split; [rest|reflexivity]).
Qed.
