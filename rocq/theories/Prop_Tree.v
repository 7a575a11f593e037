(** * Properties C32-C35, C37-C40 *)

From Coq Require Import Ascii String NArith Arith List Bool Lia.
From Verif Require Import Base LevelModel EventModel TreeModel TreeSpec TreeProofs.
From Verif Require CircModel.
Import ListNotations.

(** A composite with nested composite, one leaf used twice; leaf 3 admits only errors. *)
Definition ex_tree : tree :=
  Multi DEBUG [Leaf 1 INFO; Multi WARN [Leaf 2 TRACE; Leaf 3 ERROR; Leaf 1 INFO]; Nowhere 4].

(** ** C32 *)
(** The event is put once for each path on which every level admits it, in
    declaration order, and nothing else happens. *)
Theorem C32_delivery :
  forall (E : Type) t l (e : E), ~ In None (reached l t) ->
    push t l e =
    Done (flat_map (fun p => match p with Some id => [Put id l e] | None => [] end) (reached l t)).
Proof. exact @push_exact. Qed.
Print Assumptions C32_delivery.

(** If every composite has members the hypothesis holds. *)
Theorem C32_populated :
  forall t l, populated t = true -> ~ In None (reached l t).
Proof. exact populated_reached. Qed.
Print Assumptions C32_populated.

Theorem C32_admits :
  forall l lv, passes l lv <-> passes_b l lv = true.
Proof. exact passes_iff. Qed.
Print Assumptions C32_admits.

Example C32_nonvacuous :
  populated ex_tree = true /\
  reached INFO ex_tree = [Some 1] /\ reached WARN ex_tree = [Some 1; Some 2; Some 1] /\
  reached CRITICAL ex_tree = [Some 1; Some 2; Some 3; Some 1] /\ reached TRACE ex_tree = [] /\
  push ex_tree WARN "e"%string = Done [Put 1 WARN "e"%string; Put 2 WARN "e"%string; Put 1 WARN "e"%string].
Proof. vm_compute. auto 10. Qed.

(** ** C33 *)
Theorem C33_flush :
  forall (E : Type) t,
    flushed (@flush E t) = leaves t /\ putted (@flush E t) = [] /\ rotated (@flush E t) = [].
Proof. exact @flush_leaves. Qed.
Print Assumptions C33_flush.

Theorem C33_rotate :
  forall (E : Type) t, @rotate E t = map Rotate (leaves t).
Proof. exact @rotate_leaves. Qed.
Print Assumptions C33_rotate.

Example C33_nonvacuous :
  leaves ex_tree = [1; 2; 3; 1; 4] /\
  @flush nat ex_tree = [Async 1; Async 4; Flush 1; Async 2; Async 3; Async 1; Flush 2; Flush 3; Flush 1; Flush 4].
Proof. vm_compute. auto. Qed.

(** ** C34 *)
(** False: an admitted event is put into a queue without nodes. *)
Theorem C34_empty_composite_refuted :
  forall (E : Type) lv l (e : E),
    push (Multi lv []) l e = if passes_b l lv then UB else Done [].
Proof. exact @empty_push. Qed.
Print Assumptions C34_empty_composite_refuted.

Theorem C34_zero_capacity_put_refuted :
  forall (A : Type) (a : A),
    CircModel.exec 0 (@CircModel.init A)
      [(0, CircModel.CPut a); (0, CircModel.CGet); (0, CircModel.CGet); (0, CircModel.CGet)] =
    CircModel.Bad CircModel.OutOfBounds.
Proof. exact zero_capacity_put. Qed.
Print Assumptions C34_zero_capacity_put_refuted.

(** So is every push that an open path leads to such a composite. *)
Theorem C34_reached_refuted :
  forall (E : Type) t l (e : E), In None (reached l t) -> push t l e = UB.
Proof. exact @push_ub. Qed.
Print Assumptions C34_reached_refuted.

Example C34_nonvacuous : reached ERROR (Multi INFO [Leaf 1 INFO; Multi WARN []]) = [Some 1; None].
Proof. reflexivity. Qed.

(** ** C35 *)
Theorem C35_swallows :
  forall (E : Type) l (e : E), push (Nowhere 0) l e = Done [].
Proof. exact @nowhere_rejects. Qed.
Print Assumptions C35_swallows.

Theorem C35_always_empty :
  forall (E : Type) (ops : list (@nop E)), fold_left nstep ops (Some []) = Some [].
Proof. exact @nowhere_empty. Qed.
Print Assumptions C35_always_empty.

(** Even with events in the queue flush() would return and leave it empty. *)
Theorem C35_flush_ends :
  forall (E : Type) (s : nowhere E) fuel, length s <= fuel -> nowhere_flush fuel s = Some [].
Proof. exact @nowhere_flush_ends. Qed.
Print Assumptions C35_flush_ends.

Example C35_nonvacuous :
  fold_left nstep [NPush CRITICAL 1; NFlush; NPush OFF 2; NRotate; NAsync] (Some []) = Some [].
Proof. reflexivity. Qed.

(** ** C37 *)
Theorem C37_rejected :
  forall (E : Type) lv t l (e : E), passes_b l lv = false -> logger_push lv t l e = Done [].
Proof. exact @logger_rejects. Qed.
Print Assumptions C37_rejected.

Theorem C37_passed_and_flushed :
  forall (E : Type) lv t l (e : E), passes_b l lv = true ->
    logger_push lv t l e = andthen (push t l e) (Done (flush t)).
Proof. exact @logger_passes. Qed.
Print Assumptions C37_passed_and_flushed.

Example C37_nonvacuous :
  logger_push INFO (Leaf 7 WARN) WARN 5 = Done [Put 7 WARN 5; Flush 7] /\
  logger_push INFO (Leaf 7 WARN) INFO 5 = Done [Flush 7] /\
  logger_push INFO (Leaf 7 WARN) DEBUG 5 = Done [] /\
  logger_push TRACE (Leaf 7 TRACE) IGNORE 5 = Done [] /\
  logger_push TRACE (Leaf 7 TRACE) OFF 5 = Done [].
Proof. vm_compute. auto. Qed.

(** ** C38 *)
(** Holds if the event could be formatted, or the sink shows errors. *)
Theorem C38_level_shown_partial :
  forall m p name ti lvl max now tname tnum fr ft lv,
    length tname = 16 -> (now < 2 ^ 64)%N -> (tnum < 2 ^ 64)%N ->
    (p + sizeof_Event < 2 ^ 64)%N -> (N.of_nat max < 2 ^ 64)%N ->
    passes lvl lv -> (exists text, fr = FmtOk text) \/ lcode ERROR <= lcode lv ->
    (e_level_code (view (construct m p name ti lvl max now tname tnum fr ft) p) <= N.of_nat (lcode lv))%N.
Proof. exact shown_level. Qed.
Print Assumptions C38_level_shown_partial.

(** A critical event that cannot be formatted appears, as error, in a sink of level CRITICAL. *)
Theorem C38_format_error_refuted :
  forall m p name ti max now tname tnum partial what ft,
    length tname = 16 -> (now < 2 ^ 64)%N -> (tnum < 2 ^ 64)%N ->
    (p + sizeof_Event < 2 ^ 64)%N -> (N.of_nat max < 2 ^ 64)%N ->
    passes CRITICAL CRITICAL /\
    (N.of_nat (lcode CRITICAL) <
       e_level_code (view (construct m p name ti CRITICAL max now tname tnum (FmtThrow partial what) ft) p))%N.
Proof. exact shown_level_refuted. Qed.
Print Assumptions C38_format_error_refuted.

Example C38_nonvacuous : passes WARN INFO /\ ~ passes DEBUG INFO /\ ~ passes OFF INFO.
Proof. unfold passes. cbn. intuition (try discriminate; lia). Qed.

(** ** C39 *)
(** First component: are the message arguments evaluated. *)
Theorem C39_macro_is_method :
  forall (E : Type) wt wd df m lv t (e : E),
    (m = MTrace -> wt = false) -> (m = MDebug -> wd = false) ->
    sl_named wt wd df m lv t e = (Nat.leb (lcode (named_level m)) (lcode lv), method lv t m e).
Proof. exact @macro_is_method. Qed.
Print Assumptions C39_macro_is_method.

Theorem C39_sl_log :
  forall (E : Type) df lv t l (e : E),
    sl_log df lv t l e = (Nat.leb (lcode l) (lcode lv), log lv t l e).
Proof. exact @sl_log_is_log. Qed.
Print Assumptions C39_sl_log.

Example C39_nonvacuous :
  sl_named false false false MInfo WARN (Leaf 1 TRACE) 5 = (false, Done []) /\
  sl_named false false true MError WARN (Leaf 1 TRACE) 5 = (true, Done [Put 1 ERROR 5; Flush 1]).
Proof. vm_compute. auto. Qed.

(** ** C40 *)
(** WITHOUT_TRACE removes the trace macros only; WITHOUT_DEBUG removes the debug
    macros only together with WITHOUT_TRACE, and never the trace macros. *)
Theorem C40_options_partial :
  forall (E : Type) wt wd df m lv t (e : E),
    sl_named wt wd df m lv t e =
    (if (match m with MTrace => wt | MDebug => wd && wt | _ => false end) then (false, Done [])
     else (Nat.leb (lcode (named_level m)) (lcode lv), method lv t m e)).
Proof. exact @options. Qed.
Print Assumptions C40_options_partial.

(** Alone it removes nothing. *)
Example C40_without_debug_refuted :
  sl_named false true false MDebug TRACE (Leaf 1 TRACE) 5 = (true, Done [Put 1 DEBUG 5; Flush 1]) /\
  sl_named false true false MTrace TRACE (Leaf 1 TRACE) 5 = (true, Done [Put 1 TRACE 5; Flush 1]).
Proof. vm_compute. auto. Qed.
