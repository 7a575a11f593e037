(** * Properties C64, C65: numbers and names of threads

    [h]: a history, who does what in which order; [l]: the same with what was returned;
    [start name0]: no thread has used the library, [name0] are their names. *)
From Coq Require Import Ascii String NArith Arith List.
From Verif Require Import Base LevelModel EventModel UtilModel UtilSpec UtilProofs.
Import ListNotations.
Local Open Scope N_scope.

(** ** C64 *)
(** The i-th thread that asks gets the number i; always; no other thread gets it. *)
Theorem C64_numbers :
  forall name0 h s l, run (start name0) h = (s, l) -> N.of_nat (length (firsts h)) < 2 ^ 64 ->
  (forall t o n, In (t, o, RNumber n) l -> exists i, nth_error (firsts h) i = Some t /\ n = N.of_nat i + 1) /\
  (forall t o n o' m, In (t, o, RNumber n) l -> In (t, o', RNumber m) l -> n = m) /\
  (forall t o u o' n, In (t, o, RNumber n) l -> In (u, o', RNumber n) l -> t = u).
Proof. exact thread_numbers. Qed.
Print Assumptions C64_numbers.

(** The second step of a thread in getThreadNumber returns, whatever others do meanwhile. *)
Theorem C64_returns :
  forall name0 h s l t h2 s2 l2 s3 r,
  run (start name0) h = (s, l) -> In (t, ONumber) h -> (forall o, ~ In (t, o) h2) -> run s h2 = (s2, l2) ->
  step s2 t ONumber = (s3, r) -> exists n, r = RNumber n.
Proof. exact number_returns. Qed.
Print Assumptions C64_returns.

(** Thread 7 is first to ask, thread 4 first to get an answer. *)
Example C64_nonvacuous :
  let h := [(7%nat, ONumber); (4%nat, ONumber); (4%nat, ONumber); (7%nat, ONumber); (4%nat, ONumber); (9%nat, ONumber)] in
  map snd (snd (run (start (fun _ => bs "app")) h)) = [RNone; RNone; RNumber 2; RNumber 1; RNumber 2; RNone] /\
  firsts h = [7; 4; 9]%nat.
Proof. vm_compute. split; reflexivity. Qed.

(** ** C65 *)
(** Whatever names a thread is given later: the name it had when it was asked for its name
    first is the one that is returned, and the one events carry. *)
Theorem C65_first_name_partial :
  forall name0 h0 h1 s l t,
  (forall u, os_name (name0 u)) -> sane (h0 ++ (t, OName) :: h1) -> no_name t h0 ->
  run (start name0) (h0 ++ (t, OName) :: h1) = (s, l) ->
  exists b, called name0 t h0 b /\ os_name b /\
    forall r, In (t, OName, r) l -> r = RName (b ++ repeat nul (16 - length b)).
Proof. exact name_of_first_use. Qed.
Print Assumptions C65_first_name_partial.

(** So it is the current name if the thread is not renamed after that. *)
Theorem C65_current_name_partial :
  forall name0 h0 h1 s l t r,
  (forall u, os_name (name0 u)) -> sane (h0 ++ (t, OName) :: h1) -> no_name t h0 ->
  run (start name0) (h0 ++ (t, OName) :: h1) = (s, l) ->
  (forall o, In (t, o) h1 -> o = ONumber \/ o = OName) ->
  In (t, OName, r) l ->
  exists b, called name0 t (h0 ++ (t, OName) :: h1) b /\ r = RName (b ++ repeat nul (16 - length b)).
Proof. exact current_name. Qed.
Print Assumptions C65_current_name_partial.

(** [called] determines the name. *)
Theorem C65_one_name :
  forall name0 t h b b', called name0 t h b -> called name0 t h b' -> b = b'.
Proof. exact called_one. Qed.
Print Assumptions C65_one_name.

Theorem C65_event_partial :
  forall name0 h0 h1 s l t n b',
  (forall u, os_name (name0 u)) -> sane (h0 ++ (t, OName) :: h1) -> no_name t h0 ->
  run (start name0) (h0 ++ (t, OName) :: h1) = (s, l) -> N.of_nat (length (firsts (h0 ++ (t, OName) :: h1))) < 2 ^ 64 ->
  In (t, ONumber, RNumber n) l -> In (t, OName, RName b') l ->
  exists b i, called name0 t h0 b /\ nth_error (firsts (h0 ++ (t, OName) :: h1)) i = Some t /\ name_string b' = b /\
  forall m p name lvl max now fr ft, now < 2 ^ 64 -> p + sizeof_Event < 2 ^ 64 -> N.of_nat max < 2 ^ 64 ->
  let e := view (construct m p name TI_NAME lvl max now b' n fr ft) p in
  e_thread_number e = N.of_nat i + 1 /\ e_thread_name e = b.
Proof. exact event_thread. Qed.
Print Assumptions C65_event_partial.

Definition ex_renames : list (nat * op) :=
  [(0%nat, OSet (bs "network thread 17")); (0%nat, OName); (0%nat, OSet (bs "idle")); (0%nat, OName)].

(** The thread renames itself; its events keep the old name. *)
Theorem C65_stale_refuted :
  (forall u : nat, os_name (bs "app")) /\ sane ex_renames /\ called (fun _ => bs "app") 0 ex_renames (bs "idle") /\
  map snd (snd (run (start (fun _ => bs "app")) ex_renames)) =
    [RNone; RName (bs "network thread " ++ [nul]); RNone; RName (bs "network thread " ++ [nul])].
Proof.
  split; [intros u; split; [vm_compute; repeat constructor|cbn; intros H; repeat (destruct H as [H|H]; [discriminate|]); exact H]|].
  split; [intros t b H; cbn in H; repeat (destruct H as [H|H]; [discriminate|]); destruct H|].
  split; [|vm_compute; reflexivity]. unfold ex_renames.
  change [(0%nat, OSet (bs "network thread 17")); (0%nat, OName); (0%nat, OSet (bs "idle")); (0%nat, OName)]
    with ([(0%nat, OSet (bs "network thread 17")); (0%nat, OName); (0%nat, OSet (bs "idle"))] ++ [(0%nat, OName)]).
  apply ca_other; [|auto].
  change [(0%nat, OSet (bs "network thread 17")); (0%nat, OName); (0%nat, OSet (bs "idle"))]
    with ([(0%nat, OSet (bs "network thread 17")); (0%nat, OName)] ++ [(0%nat, OSet (bs "idle"))]).
  apply ca_set. exact (c_str_cut (bs "idle")).
Qed.
Print Assumptions C65_stale_refuted.

Example C65_nonvacuous :
  exists h0 h1, ex_renames = h0 ++ (0%nat, OName) :: h1 /\ no_name 0 h0.
Proof.
  exists [(0%nat, OSet (bs "network thread 17"))], [(0%nat, OSet (bs "idle")); (0%nat, OName)]. split; [reflexivity|].
  intros [H|[]]. discriminate.
Qed.
