(** * Vocabulary for statements about a sink with threads and a clock *)

From Coq Require Import List Arith NArith Bool.
From Verif Require Import SinkModel SinkSpec ClockModel.
Import ListNotations.

Section Spec.
Context {E : Type}.

(** The machine is fast: time passes only while nobody is in flush() and the worker sleeps,
    and not beyond the time it waits for (or the worker has ended). *)
Definition calm (x : cstate E * event E) : Prop :=
  match snd x with
  | Tick d =>
      d = 0 \/
      (fip (base (fst x)) = false /\
       match nth_error (thr (base (fst x))) 0, until (fst x) with
       | Some WWait, Some u => now (fst x) + d <= u
       | Some WDone, _ => True
       | _, _ => False
       end)
  | _ => True
  end.

Definition quick (h : list (cstate E * event E)) : Prop := Forall calm h.

(** When the events were handed to the destination, in order. *)
Definition write_times (tr : list (nat * label E)) : list nat :=
  flat_map (fun x => match snd x with LWrite _ _ => [fst x] | _ => [] end) tr.

(** The observations without their times. *)
Definition labels (tr : list (nat * label E)) : list (label E) := map snd tr.

(** How often the wait ended because its time had come. *)
Definition wakes_now (x : cstate E * event E) : bool :=
  match nth_error (thr (base (fst x))) 0, snd x with
  | Some WWait, Move (MThread 0 (CWake true)) => true
  | _, _ => false
  end.
Definition wakes (h : list (cstate E * event E)) : nat := length (filter wakes_now h).

(** The worker calls flush() and is turned away, because somebody else is inside. *)
Definition turned_now (x : cstate E * event E) : bool :=
  match nth_error (thr (base (fst x))) 0, snd x with
  | Some (FTas KWorker), Move (MThread 0 _) => fip (base (fst x))
  | _, _ => false
  end.
Definition turned_away (h : list (cstate E * event E)) : nat := length (filter turned_now h).

(** run() sees need_to_finalize_ once it is set (its load is not of an old value). *)
Definition sees_end (x : cstate E * event E) : Prop :=
  match nth_error (thr (base (fst x))) 0, snd x with
  | Some WFin, Move (MThread 0 (CGo true)) => False
  | _, _ => True
  end.

(** No compare_exchange_weak fails spuriously and no load returns an old value. *)
Definition steady (h : list (cstate E * event E)) : Prop :=
  Forall (fun x => match snd x with Move m => spurious m = false | _ => True end) h.

(** The event notifies the worker: rotate() and async_flush() (file 112-119), push() when the
    buffer is four fifths full (sink.hpp:145-149), the destructor (file 101-102). *)
Definition notifies (C : cfg E) (x : cstate E * event E) : bool :=
  match snd x with
  | Move (MThread t _) =>
      match nth_error (thr (base (fst x))) t with
      | Some RAsync | Some DNtf => true
      | Some PDecide => N.leb (c_threshold C) (size (base (fst x)))
      | _ => false
      end
  | _ => false
  end.

(** The worker is inside wait_until. *)
Definition asleep (s : cstate E) : bool :=
  match nth_error (thr (base s)) 0, until s with Some WWait, Some _ => true | _, _ => false end.

(** The worker was notified in its sleep and has not yet left wait_until. *)
Definition told (C : cfg E) (h : list (cstate E * event E)) : bool :=
  fold_left (fun b x =>
    if asleep (fst x) then
      match snd x with
      | Move (MThread 0 _) => false
      | _ => b || notifies C x
      end
    else false) h false.

(** No time passes between the notification and the end of the wait. *)
Definition prompt (C : cfg E) (h : list (cstate E * event E)) : Prop :=
  forall h1 s d h2, h = h1 ++ (s, Tick d) :: h2 -> 0 < d -> told C h1 = false.

(** No attempt to re-open the file. *)
Definition no_reopen (tr : list (nat * label E)) : Prop := forall t th r, ~ In (t, LReopen th r) tr.

End Spec.
