(** * Property C106: exceptions of other kinds thrown while a message is formatted

    [texec C ndebug w ms]: the moves [ms] of the threads, [TThrow t] being a throw of something
    that is no std::exception by the formatting of the event thread [t] is just constructing
    ([constructing s t k e]: [e] has got the [k]-th place).  [plain l]: what is observed of the
    sink. *)

From Coq Require Import Ascii String NArith Arith List Bool Lia.
From Verif Require Import Base LevelModel SinkModel SinkSpec SinkProps SinkWitness ThrowModel ThrowSpec ThrowProofs.
Import ListNotations.
Open Scope string_scope.
Open Scope list_scope.

(** What is true of the claim: nothing happens to the others while only std::exceptions are
    thrown (they become events, C08): the sink is that of the other properties. *)
Theorem C106_std_only_partial :
  forall (E : Type) (C : cfg E) ndebug ms s w l,
    texec C ndebug (mkT s false) ms = (w, l) -> no_throw ms ->
    exec C s (moves_of ms) = (base w, plain l) /\ over w = false.
Proof. exact @no_throw_same. Qed.
Print Assumptions C106_std_only_partial.

(** From its construction on such a sink does what the sink of the other properties does, and all
    of that. *)
Theorem C106_from_the_start :
  forall (E : Type) (C : cfg E) ndebug op n,
  (forall ms w l, texec C ndebug (tinit C op n) ms = (w, l) -> no_throw ms -> reach C op n (base w) (plain l) /\ over w = false) /\
  (forall s ls, reach C op n s ls -> exists ms w l, texec C ndebug (tinit C op n) ms = (w, l) /\ no_throw ms /\ base w = s /\ plain l = ls).
Proof. exact @from_the_start. Qed.
Print Assumptions C106_from_the_start.

(** Built without NDEBUG: after the throw only events accepted before the one that threw are
    ever written, in order, and fewer than the capacity are accepted from then on; whatever
    anybody does. *)
Theorem C106_jams :
  forall (E : Type) (C : cfg E) n s ls t k e ms w l,
    sizes_ok C -> reach C true n s ls -> constructing s t k e ->
    texec C false (mkT s false) (TThrow t :: ms) = (w, l) ->
    exists A R B, accepted ls = A ++ e :: B /\ length A = k /\
      A = written ls ++ written (plain l) ++ R /\
      length B + length (accepted (plain l)) < c_cap C.
Proof. exact @jams. Qed.
Print Assumptions C106_jams.

(** Once those are written, no flush() that begins ends. *)
Theorem C106_flush_hangs :
  forall (E : Type) (C : cfg E) n s ls t k e ms w l ms' w' l' u,
    sizes_ok C -> reach C true n s ls -> constructing s t k e ->
    texec C false (mkT s false) (TThrow t :: ms) = (w, l) ->
    length (written ls ++ written (plain l)) = k -> fip (base w) = false ->
    texec C false w ms' = (w', l') -> ~ In (TL (LUnlock u)) l'.
Proof. exact @flush_hangs. Qed.
Print Assumptions C106_flush_hangs.

(** A sink with a worker is never destroyed: its destructor waits for ever. *)
Theorem C106_never_destroyed :
  forall (E : Type) (C : cfg E) n s ls t k e ms w l u,
    sizes_ok C -> c_lat0 C = false -> reach C true n s ls -> constructing s t k e ->
    texec C false (mkT s false) (TThrow t :: ms) = (w, l) -> ~ In (TL (LDestroyed u)) l.
Proof. exact @never_destroyed. Qed.
Print Assumptions C106_never_destroyed.

(** Built with NDEBUG: the process ends, with whatever is queued. *)
Theorem C106_release_ends :
  forall (E : Type) (C : cfg E) s t k e ms w l, constructing s t k e ->
    texec C true (mkT s false) (TThrow t :: ms) = (w, l) -> l = [TTerminate t] /\ base w = s.
Proof. exact @release_ends. Qed.
Print Assumptions C106_release_ends.

(** ** The claim is false *)
Definition tgo (t n : nat) : list (tmove string) := map (@TMove string) (go t n).

(** "one" is logged; the formatting of "bad" is in progress. *)
Definition before : list (move string) := push 1 INFO "one" ++ go 1 4 ++ push 2 INFO "bad" ++ go 2 1.
(** "bad" throws; "two" is logged by the thread that logged "one", and the sink is flushed. *)
Definition afterwards : list (tmove string) :=
  [TThrow 2] ++ map (@TMove string) (push 1 INFO "two") ++ tgo 1 4 ++
  [TMove (MThread 1 CFlush)] ++ tgo 1 7.

(** "two" was accepted, its call has returned, and whatever happens then, it is never written
    and the sink is never destroyed (debug builds); release builds end without writing "one",
    whose call has returned. *)
Theorem C106_others_refuted :
  forall kind, exists (C : cfg string) n s ls w l,
    c_kind C = kind /\ sizes_ok C /\ reach C true n s ls /\ constructing s 2 1 "bad" /\
    texec C false (mkT s false) afterwards = (w, l) /\
    accepted (plain l) = ["two"] /\ nth_error (thr (base w)) 2 = Some Idle /\
    In (TL (LReturn 1)) l /\
    (forall ms w' l' u, texec C false w ms = (w', l') ->
       ~ In (TL (LWrite u "two")) l' /\ ~ In (TL (LDestroyed u)) l') /\
    (exists w1, texec C true (mkT s false) afterwards = (w1, [TTerminate 2]) /\ pending (base w1) = ["one"; "bad"]).
Proof.
  intros kind. destruct (run (wcfg kind false) 2 before) as [s ls] eqn:Hr.
  destruct (texec (wcfg kind false) false (mkT s false) afterwards) as [w l] eqn:He.
  assert (R : reach (wcfg kind false) true 2 s ls) by (eapply run_reach; exact Hr).
  assert (P : constructing s 2 1 "bad") by (destruct kind; vm_compute in Hr; injection Hr as <- <-; reflexivity).
  assert (AL : accepted ls = ["one"; "bad"]) by (destruct kind; vm_compute in Hr; injection Hr as <- <-; reflexivity).
  exists (wcfg kind false), 2, s, ls, w, l.
  split; [reflexivity|]. split; [apply wsizes|]. split; [exact R|]. split; [exact P|].
  split; [exact He|].
  split; [destruct kind; vm_compute in Hr; injection Hr as <- <-; vm_compute in He; injection He as <- <-; reflexivity|].
  split; [destruct kind; vm_compute in Hr; injection Hr as <- <-; vm_compute in He; injection He as <- <-; reflexivity|].
  split; [destruct kind; vm_compute in Hr; injection Hr as <- <-; vm_compute in He; injection He as <- <-; vm_compute; tauto|].
  split.
  - intros ms w' l' u H'.
    assert (T : texec (wcfg kind false) false (mkT s false) (TThrow 2 :: (tl afterwards ++ ms)) = (w', l ++ l')).
    { change (TThrow 2 :: (tl afterwards ++ ms)) with (afterwards ++ ms). rewrite texec_app, He, H'. reflexivity. }
    split.
    + destruct (C106_jams string (wcfg kind false) 2 s ls 2 1 "bad" _ _ _ (wsizes _ _) R P T) as (A & R' & B & H1 & H2 & H3 & _).
      rewrite AL in H1. destruct A as [|x [|y A]]; cbn in H2; try discriminate. injection H1 as <- <-.
      intros X. assert (Y : In "two" ["one"]).
      { rewrite H3. apply in_app_iff. right. apply in_app_iff. left. unfold written. apply in_flat_map.
        exists (LWrite u "two"). split; [|left; reflexivity]. unfold plain. apply in_flat_map. exists (TL (LWrite u "two")).
        split; [apply in_app_iff; right; exact X|left; reflexivity]. }
      destruct Y as [Y|[]]. discriminate.
    + intros X. apply (C106_never_destroyed string (wcfg kind false) 2 s ls 2 1 "bad" _ _ _ u (wsizes _ _) eq_refl R P T).
      apply in_app_iff. right. exact X.
  - destruct (texec (wcfg kind false) true (mkT s false) afterwards) as [w1 l1] eqn:Ht. exists w1.
    destruct kind; vm_compute in Hr; injection Hr as <- <-; vm_compute in Ht; injection Ht as <- <-; split; reflexivity.
Qed.
Print Assumptions C106_others_refuted.

(** In the case above the hypotheses of C106_flush_hangs are met: "one" has been written and
    nobody is in flush(). *)
Example C106_hangs_case :
  exists s ls w l, run (wcfg KFile false) 2 before = (s, ls) /\ constructing s 2 1 "bad" /\
    texec (wcfg KFile false) false (mkT s false) afterwards = (w, l) /\
    length (written ls ++ written (plain l)) = 1 /\ fip (base w) = false /\
    nth_error (thr (base (fst (texec (wcfg KFile false) false w (TMove (MThread 1 CFlush) :: tgo 1 100))))) 1 = Some (FGet KReturn).
Proof.
  destruct (run (wcfg KFile false) 2 before) as [s ls] eqn:Hr.
  destruct (texec (wcfg KFile false) false (mkT s false) afterwards) as [w l] eqn:He.
  exists s, ls, w, l. vm_compute in Hr. injection Hr as <- <-. vm_compute in He. injection He as <- <-.
  repeat split; vm_compute; reflexivity.
Qed.
