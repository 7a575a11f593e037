(** * Vocabulary for the properties of sinks (C18-C30)

    Reads an execution of [SinkModel] from outside: the trace of labels, and in a
    state the queue, the destination and where each thread is. *)

From Coq Require Import List Arith NArith Bool.
From Verif Require Import Base LevelModel SinkModel.
Import ListNotations.

Section Spec.
Context {E : Type}.

(** ** Reading the trace *)

(** Accepted events, with the thread that pushed them, in order. *)
Definition accepts (ls : list (label E)) : list (nat * E) :=
  flat_map (fun l => match l with LAccept t e => [(t, e)] | _ => [] end) ls.
Definition accepted (ls : list (label E)) : list E := map snd (accepts ls).
Definition accepted_by (t : nat) (ls : list (label E)) : list E :=
  map snd (filter (fun x => Nat.eqb (fst x) t) (accepts ls)).

(** Events handed to the destination, in order. *)
Definition written (ls : list (label E)) : list E :=
  flat_map (fun l => match l with LWrite _ e => [e] | _ => [] end) ls.

(** Events "written" while no file was open. *)
Definition lost (ls : list (label E)) : list E :=
  flat_map (fun l => match l with LLost _ e => [e] | _ => [] end) ls.

(** Calls of push() by thread [t], with their levels. *)
Definition pushes_by (t : nat) (ls : list (label E)) : list (level * E) :=
  flat_map (fun l => match l with LPush u lv e => if Nat.eqb u t then [(lv, e)] else [] | _ => [] end) ls.

(** Files started by rotation. *)
Definition fresh_files (ls : list (label E)) : nat :=
  length (flat_map (fun l => match l with LReopen _ ROFresh => [tt] | _ => [] end) ls).

(** An event of level [l] is for a sink of level [lv]. *)
Definition for_sink (lv l : level) : bool :=
  match l with OFF | IGNORE => false | _ => Nat.leb (lcode l) (lcode lv) end.
Definition for_sink_by (lv : level) (t : nat) (ls : list (label E)) : list E :=
  map snd (filter (fun x => for_sink lv (fst x)) (pushes_by t ls)).

(** ** Reading a state *)

(** Accepted and not yet handed over: the event a flusher is formatting, then the queue. *)
Definition in_hand (p : pc E) : list E :=
  match p with FSub _ e => [e] | FWrite _ (Some e) => [e] | _ => [] end.
Definition pending (s : state E) : list E := flat_map in_hand (thr s) ++ map (@q_ev E) (q s).

(** Contents of the destination files: as written by the program, and as far as
    the operating system has them (what survives a crash of the process). *)
Definition files (s : state E) : list bytes := closed s ++ [cur s ++ obuf s].
Definition disk (s : state E) : list bytes := closed s ++ [cur s].

(** Thread [t] is at a point where it uses the output buffer or the stream. *)
Definition uses_output (p : pc E) : bool :=
  match p with
  | FGet _ | FSub _ _ | FWrite _ _ | FCasFlush _ | FStream _ | FNtf _ | FCasRot _ | FReopen _
  | FClear _ | DClose => true
  | _ => false
  end.

(** Thread [t] has called push(e) and put() has not yet taken the event. *)
Definition trying (p : pc E) : list E :=
  match p with
  | PPut e => [e]
  | FTas (KRetry e) | FGet (KRetry e) | FSub (KRetry e) _ | FWrite (KRetry e) _
  | FCasFlush (KRetry e) | FStream (KRetry e) | FNtf (KRetry e) | FCasRot (KRetry e)
  | FReopen (KRetry e) | FClear (KRetry e) => [e]
  | _ => []
  end.

(** Accounted by push() and not yet discounted by flush(). *)
Definition counted (s : state E) : list E :=
  flat_map (fun p => match p with FSub _ e => [e] | _ => [] end) (thr s) ++
  flat_map (fun x => match q_stage x with Reserved => [] | _ => [q_ev x] end) (q s).

Definition total (f : E -> N) (l : list E) : N := fold_right N.add 0%N (map f l).

(** No call is running and the worker, if any, is waiting. *)
Definition at_rest (s : state E) : Prop :=
  fip s = false /\ Forall (fun p => p = Idle \/ p = WWait \/ p = WDone) (thr s) /\
  Forall (fun x => q_stage x = Published) (q s).

(** Moves of one thread only (the operating system may take bytes meanwhile). *)
Definition only (t : nat) (ms : list (move E)) : Prop :=
  Forall (fun m => match m with MThread u _ => u = t | MDrain _ => True end) ms.

(** Thread [t] is inside put(): the event has its place in the queue, as number [n], and its
    message is being formatted; it is the oldest event in the queue. *)
Definition formats_oldest (s : state E) (t n : nat) (e : E) : Prop :=
  nth_error (thr s) t = Some (PAdd n e) /\ exists r, q s = mkEntry n e Reserved :: r.

(** Thread [t] does not move. *)
Definition away (t : nat) (ms : list (move E)) : Prop :=
  Forall (fun m => match m with MThread u _ => u <> t | MDrain _ => True end) ms.

(** A compare_exchange_weak that fails spuriously, or a load that returns an old value. *)
Definition spurious (m : move E) : bool := match m with MThread _ (CGo true) => true | _ => false end.

(** The number of flushes of a trace that begin and end in it ([inside]: one that began in
    it is going on). *)
Fixpoint whole_flushes (inside : bool) (l : list (label E)) : nat :=
  match l with
  | [] => 0
  | LLock _ :: l' => whole_flushes true l'
  | LUnlock _ :: l' => (if inside then 1 else 0) + whole_flushes false l'
  | _ :: l' => whole_flushes inside l'
  end.

Definition is_prefix {A} (a b : list A) : Prop := exists c, b = a ++ c.

(** Reachable by an execution with trace [ls]. *)
Definition reach (C : cfg E) (op : bool) (clients : nat) (s : state E) (ls : list (label E)) : Prop :=
  exists ms, exec C (init C op clients) ms = (s, ls).

(** Sizes the code can have: size_t. *)
Definition sizes_ok (C : cfg E) : Prop := forall e, (c_msize C e < 2 ^ 64)%N.

(** A file sink, or console/syslog, whose destination is there from the start. *)
Definition has_dest (C : cfg E) (op : bool) : Prop := c_kind C = KFile \/ op = true.

End Spec.

(** [advances C t s ms k]: executing [ms] from [s], thread [t] moves [k] times
    (moves in which it only waits do not count). *)
Inductive advances {E} (C : cfg E) (t : nat) : state E -> list (move E) -> nat -> Prop :=
| adv_nil s : advances C t s [] 0
| adv_move s m ms k : nth_error (thr (fst (step C s m))) t <> nth_error (thr s) t ->
    advances C t (fst (step C s m)) ms k -> advances C t s (m :: ms) (S k)
| adv_wait s m ms k : nth_error (thr (fst (step C s m))) t = nth_error (thr s) t ->
    advances C t (fst (step C s m)) ms k -> advances C t s (m :: ms) k.

(** Thread [t] can move. *)
Definition can_move {E} (C : cfg E) (t : nat) (s : state E) : Prop :=
  exists c, nth_error (thr (fst (step C s (MThread t c)))) t <> nth_error (thr s) t.

(** What thread [t] does, as seen in a trace, and how often it moves. *)
Definition label_by {E} (l : label E) : nat :=
  match l with
  | LPush t _ _ | LAccept t _ | LReturn t | LLock t | LWrite t _ | LLost t _ | LRotate t | LReopen t _
  | LUnlock t | LDestroyed t => t
  end.
Definition labels_of {E} (t : nat) (ls : list (label E)) : list (label E) :=
  filter (fun l => Nat.eqb (label_by l) t) ls.
Definition own_moves {E} (t : nat) (ms : list (move E)) : nat :=
  length (filter (fun m => match m with MThread u _ => Nat.eqb u t | MDrain _ => false end) ms).
