(** * Properties C83-C85: logging while other threads reconfigure the system

    Model: LogModel; vocabulary: LogSpec. *)
From Coq Require Import String List Arith Bool Lia.
From Verif Require Import Base LevelModel SysModel SysSpec SysBase SysProps SysWitness LogModel LogSpec LogProofs LogWitness.
Import ListNotations.
Open Scope string_scope.

(** ** C83: an event is judged by a level, and goes to a sink, the logger had during the call *)

(** Inside a sink: at some moment of the call the level let the event pass, and at some
    moment the logger had this sink; nothing but the event given is pushed. *)
Theorem C83_delivered_as_configured :
  forall ord dbg ok t i lv a sts b k,
    during ord dbg ok t i lv a sts b -> inside b t k ->
    (exists s l, In s sts /\ has_level s i l /\ passes l lv) /\
    (exists s, In s sts /\ has_sink s i (Some k)) /\
    (forall j l, pushing b t j l k -> j = i /\ l = lv).
Proof. exact as_configured. Qed.
Print Assumptions C83_delivered_as_configured.

(** A call that ended without a push: at some moment of it the level did not let the event
    pass. *)
Theorem C83_kept_back_as_configured :
  forall ord dbg ok t i lv a sts b m c,
    during ord dbg ok t i lv a sts b -> lstep ord dbg ok b m c -> pc c t = LIdle ->
    (forall s k, In s sts -> ~ pushing s t i lv k) ->
    exists s l, In s sts /\ has_level s i l /\ ~ passes l lv.
Proof. exact kept_back. Qed.
Print Assumptions C83_kept_back_as_configured.

(** With level and sink unchanged during the call: pushed if and only if it passes, then
    flushed unless the logger is off, and only that sink is used. *)
Theorem C83_undisturbed :
  forall ord dbg ok t i lv a sts b m c l k,
    during ord dbg ok t i lv a sts b -> lstep ord dbg ok b m c -> pc c t = LIdle ->
    (forall s, In s sts -> has_level s i l /\ has_sink s i (Some k)) ->
    ((exists s, In s sts /\ pushing s t i lv k) <-> passes l lv) /\
    ((exists s, In s sts /\ flushing s t k) <-> passes l lv /\ lcode CRITICAL <= lcode l) /\
    (forall s k', In s sts -> inside s t k' -> k' = k).
Proof. exact undisturbed. Qed.
Print Assumptions C83_undisturbed.

(** But the sink flushed need not be the one the event was pushed to. *)
Theorem C83_same_sink_refuted :
  ~ (forall ord dbg t i lv a sts b k k',
       lreach ord dbg usual_sinks a -> during ord dbg usual_sinks t i lv a sts b -> flushing b t k' ->
       (exists s, In s sts /\ pushing s t i lv k) -> k = k').
Proof.
  intros H.
  assert (E : 1 = 2); [|discriminate].
  refine (H idord true 0 0 INFO _ _ _ 1 2 (at_start_reach idord true) (moved_during idord true) _ _).
  - exists 0. reflexivity.
  - exists (lgo idord true (at_start idord true) [Go 0; Go 0]). split; [right; right; left; reflexivity|reflexivity].
Qed.
Print Assumptions C83_same_sink_refuted.

Example C83_nonvacuous :
  forall ord dbg, lreach ord dbg usual_sinks (at_start ord dbg) /\
    during ord dbg usual_sinks 0 0 INFO (at_start ord dbg) (lstates ord dbg (at_start ord dbg) moved) (lgo ord dbg (at_start ord dbg) moved) /\
    inside (lgo ord dbg (at_start ord dbg) moved) 0 2.
Proof. intros ord dbg. split; [apply at_start_reach|]. split; [apply moved_during|]. right. exists 0. reflexivity. Qed.

Example C83_undisturbed_nonvacuous :
  forall ord dbg, let a := at_start ord dbg in
    during ord dbg usual_sinks 0 0 INFO a (lstates ord dbg a calm) (lgo ord dbg a calm) /\
    lstep ord dbg usual_sinks (lgo ord dbg a calm) (Go 0) (lmake ord dbg (lgo ord dbg a calm) (Go 0)) /\
    pc (lmake ord dbg (lgo ord dbg a calm) (Go 0)) 0 = LIdle /\
    (forall s, In s (lstates ord dbg a calm) -> has_level s 0 INFO /\ has_sink s 0 (Some 1)) /\ passes INFO INFO.
Proof.
  intros ord dbg a. destruct (calm_during ord dbg) as (H1 & H2 & H3). split; [exact H1|]. split; [constructor|]. split; [exact H3|].
  split; [exact H2|]. repeat split; [apply le_n|discriminate|discriminate].
Qed.

(** ** C84: a sink is not destroyed while a thread is inside it *)

(** As stated: false; replacing a sink by one of the same name can destroy the old one
    while a thread is inside its push. *)
Theorem C84_alive_refuted :
  ~ (forall ord dbg a t k, lreach ord dbg usual_sinks a -> inside a t k -> sink_owned a k).
Proof.
  intros H. apply (replaced_lost idord true), (H idord true _ 0 1 (replaced_reach idord true)).
  left. exists 0, INFO. apply replaced_inside.
Qed.
Print Assumptions C84_alive_refuted.

(** True if no name of a sink is used twice. *)
Theorem C84_alive_partial :
  forall ord, rearranges ord -> forall dbg a t k,
    lreach ord dbg usual_new a -> inside a t k -> sink_owned a k.
Proof. exact alive_inside. Qed.
Print Assumptions C84_alive_partial.

(** And, in any history, as long as the logger has it. *)
Theorem C84_alive_while_set_partial :
  forall ord dbg ok a t i k,
    lreach ord dbg ok a -> in_logger (pc a t) = Some i -> has_sink a i (Some k) -> sink_owned a k.
Proof. exact sink_kept_alive. Qed.
Print Assumptions C84_alive_while_set_partial.

Example C84_nonvacuous :
  forall ord dbg, lreach ord dbg usual_new (at_renamed ord dbg) /\ inside (at_renamed ord dbg) 0 1 /\
    has_sink (at_renamed ord dbg) 0 (Some 2) /\ ~ In 1 (held (at_renamed ord dbg)).
Proof.
  intros ord dbg. split; [apply renamed_reach|]. split; [left; exists 0, INFO; apply renamed_inside|]. split; [eexists; split; reflexivity|].
  cbn. intros [H|[]]; discriminate.
Qed.

(** ** C85: logging never dereferences a null sink *)
Theorem C85_never_null :
  forall ord, rearranges ord -> forall dbg a,
    lreach ord dbg usual_sinks a -> forall t i, pc a t <> LNull i.
Proof. intros ord H dbg a R t. exact (proj2 (never_null ord H dbg a R t)). Qed.
Print Assumptions C85_never_null.

(** Roots made without a sink must be excluded. *)
Example C85_guard :
  forall ord dbg, lreach ord dbg usual (at_bare ord dbg) /\ pc (at_bare ord dbg) 0 = LNull 0.
Proof. intros ord dbg. split; [apply bare_run_reach|apply bare_null]. Qed.
Example C85_nonvacuous :
  forall ord dbg, lreach ord dbg usual_sinks (at_replaced ord dbg) /\ pc (at_replaced ord dbg) 0 = LPushing 0 INFO 1.
Proof. intros ord dbg. split; [apply replaced_reach|reflexivity]. Qed.
