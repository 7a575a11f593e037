(** * Vocabulary for C125: the model in time beside the model with threads and a clock *)
From Coq Require Import List Arith NArith Bool.
From Verif Require Import Base LevelModel SinkModel SinkSpec ClockModel ClockSpec.
From Verif Require TimeModel TimeSpec.
Import ListNotations.

Section Spec.
Context {E : Type}.

(** The same file or console sink with a worker, given to both models. *)
Record same_sink (c : TimeModel.cfg E) (T : tcfg E) : Prop := {
  k_time : TimeModel.c_kind c = TimeModel.Buffered;
  k_sink : c_kind (t_sink T) <> KSyslog;
  k_lat0 : c_lat0 (t_sink T) = false;
  k_lat : t_lat T = TimeModel.c_latency c;
  k_tiny : t_tiny T = TimeModel.c_tiny c;
  k_cap : c_cap (t_sink T) = TimeModel.c_capacity c;
  k_place : 1 <= TimeModel.c_capacity c;
  k_threshold : c_threshold (t_sink T) = N.of_nat (TimeModel.c_threshold c);
  k_size : forall e, c_msize (t_sink T) e = N.of_nat (TimeModel.c_size c e);
  k_level : exists l, admits (c_level (t_sink T)) l = true
}.

(** What a full queue holds is counted in a size_t. *)
Definition countable (c : TimeModel.cfg E) : Prop := forall e, (N.of_nat (TimeModel.c_capacity c * TimeModel.c_size c e) < 2 ^ 64)%N.

(** What was accepted, and what was handed to the destination, with the times. *)
Definition accepted_at (tr : list (nat * label E)) : list (nat * E) :=
  flat_map (fun x => match snd x with LAccept _ e => [(fst x, e)] | _ => [] end) tr.
Definition written_at (tr : list (nat * label E)) : list (nat * E) :=
  flat_map (fun x => match snd x with LWrite _ e => [(fst x, e)] | _ => [] end) tr.

(** The same situation: clock, next_flush_, flags, queue, what the operating system has, what the worker does. *)
Record same_state (T : tcfg E) (s : TimeModel.state E) (x : cstate E) : Prop := {
  s_now : now x = TimeModel.now s;
  s_next : next x = TimeModel.next s;
  s_queue : map (@q_ev E) (q (base x)) = map (@TimeModel.i_event E) (TimeModel.queue s);
  s_ntf : ntf (base x) = TimeModel.must_flush s;
  s_fin : fin (base x) = TimeModel.finalize s;
  s_file : cur (base x) = flat_map (fun i => c_render (t_sink T) (TimeModel.i_event (fst i))) (firstn (TimeModel.durable s) (TimeModel.written s));
  s_stream : obuf (base x) = flat_map (fun i => c_render (t_sink T) (TimeModel.i_event (fst i))) (skipn (TimeModel.durable s) (TimeModel.written s));
  s_free : fip (base x) = false;
  s_worker : match TimeModel.work s with
    | TimeModel.Waiting _ u => nth_error (thr (base x)) 0 = Some WWait /\ until x = Some u
    | TimeModel.Running => nth_error (thr (base x)) 0 = Some (FTas KWorker)
    | TimeModel.Stopped => nth_error (thr (base x)) 0 = Some WDone
    end;
  s_client : nth_error (thr (base x)) 1 = Some (if TimeModel.finalize s then DJoin else Idle)
}.

(** A file or console sink with a worker that admits some level, with messages of such sizes. *)
Definition usable (T : tcfg E) : Prop :=
  c_kind (t_sink T) <> KSyslog /\ c_lat0 (t_sink T) = false /\ (exists l, admits (c_level (t_sink T)) l = true) /\
  forall e, (N.of_nat (c_cap (t_sink T)) * c_msize (t_sink T) e < 2 ^ 64)%N.

End Spec.
