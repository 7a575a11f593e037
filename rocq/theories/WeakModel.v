(** * Model of a leaf sink whose request flags have weak memory orders
      (src/impl/sink_to_file.cpp:99-120, 204-277, src/impl/sink_to_console.cpp:160-180,
      300-349, src/impl/sink_to_syslog.cpp:105-128, 246-282)

    need_to_flush_, need_to_rotate_ and need_to_finalize_ are accessed with
    memory_order release, acquire, acq_rel and relaxed.  Everything else a sink's
    threads share is accessed with the default (sequentially consistent) order: size_
    (sink.hpp:136), flush_in_progress_ (sink_to_file.cpp:122, 243) and the queue
    (circular_buffer.hpp), so for it the steps of [SinkModel] are kept.

    Each of the three flags is the set of all values ever stored in it, in the order
    of the stores here; nothing is assumed about C++'s modification order:
    - a load returns the value of any store so far (or the initial value);
    - a compare_exchange_weak fails, whatever is stored; or it succeeds, reading a
      store of [true] no other compare_exchange has read (two read-modify-writes of an
      atomic object never read the same value in its modification order);
    - a store adds a value.
    This allows everything C++ allows for these operations and more (a thread may even
    read older values than it has read before).  The two relaxed loads
    (sink_to_file.cpp:263-264) only decide whether the worker flushes now.  The acquire
    load (272) reads a release store, so that the queue's size read next is not older
    than the destructor's call: this is what keeping the queue's steps means. *)

From Coq Require Import List Arith NArith Bool.
From Verif Require Import Base LevelModel SinkModel.
Import ListNotations.

Set Implicit Arguments.

(** A store to a flag: its value, and whether a compare_exchange has read it. *)
Record msg := mkMsg { m_val : bool; m_read : bool }.

Record wstate (E : Type) := mkW {
  w_base : state E;             (* its ntf, ntr and fin are not used *)
  w_ntf : list msg;             (* need_to_flush_, oldest store first *)
  w_ntr : list msg;             (* need_to_rotate_ *)
  w_fin : list msg              (* need_to_finalize_ *)
}.

Section Weak.
Context {E : Type}.

Inductive wchoice :=
| WPlain (c : choice E)          (* no flag is involved *)
| WLoad (i j : nat)              (* what the loads of need_to_flush_ and need_to_finalize_ read *)
| WCas (i : option nat).         (* compare_exchange_weak: fails, or reads store i *)

Inductive wmove :=
| WThread (t : nat) (c : wchoice)
| WDrain (n : nat).

(** store *)
Definition stored (b : bool) (h : list msg) : list msg := h ++ [mkMsg b false].

(** compare_exchange_weak(true, false), successful, reading store [i] *)
Fixpoint take (i : nat) (h : list msg) : option (list msg) :=
  match h, i with
  | [], _ => None
  | m :: h', O => if m_val m && negb (m_read m) then Some (mkMsg true true :: h') else None
  | m :: h', S i' => option_map (cons m) (take i' h')
  end.

Definition w_goto (w : wstate E) (t : nat) (p : pc E) : wstate E :=
  mkW (s_thr (w_base w) t p) (w_ntf w) (w_ntr w) (w_fin w).
Definition w_setf (w : wstate E) (h : list msg) : wstate E := mkW (w_base w) h (w_ntr w) (w_fin w).
Definition w_setr (w : wstate E) (h : list msg) : wstate E := mkW (w_base w) (w_ntf w) h (w_fin w).
Definition w_setx (w : wstate E) (h : list msg) : wstate E := mkW (w_base w) (w_ntf w) (w_ntr w) h.

Section Step.
Variable C : cfg E.

(** A step that involves no flag: as in [SinkModel]. *)
Definition plain (w : wstate E) (t : nat) (c : wchoice) (p : pc E) : wstate E * list (label E) :=
  match c with
  | WPlain c => let '(s, l) := step_thread C (w_base w) t c p in
                (mkW s (w_ntf w) (w_ntr w) (w_fin w), l)
  | _ => (w, [])
  end.

Definition wstep_thread (w : wstate E) (t : nat) (c : wchoice) (p : pc E)
  : wstate E * list (label E) :=
  match p with
  | PDecide =>                                  (* sink.hpp:145-149, sink_to_file.cpp:112-119 *)
      if c_lat0 C then (w_goto w t (FTas KReturn), [])
      else if N.leb (c_threshold C) (size (w_base w))
           then (w_goto (w_setf w (stored true (w_ntf w))) t Idle, [LReturn t])
           else (w_goto w t Idle, [LReturn t])
  | RStore =>                                   (* sink_to_file.cpp:247 *)
      (w_goto (w_setr w (stored true (w_ntr w))) t RAsync, [LRotate t])
  | RAsync =>                                   (* sink_to_file.cpp:248 *)
      if c_lat0 C then (w_goto w t (FTas KReturn), [])
      else (w_goto (w_setf w (stored true (w_ntf w))) t Idle, [LReturn t])
  | FCasFlush k =>                              (* file 213-216, console 309-312 *)
      let next := match c_kind C with KFile => FCasRot k | _ => FClear k end in
      match c with
      | WCas None => (w_goto w t next, [])
      | WCas (Some i) =>
          match take i (w_ntf w) with
          | Some h => (w_goto (w_setf w (stored false h)) t (FStream k), [])
          | None => (w, [])
          end
      | _ => (w, [])
      end
  | FNtf k => (w_goto (w_setf w (stored false (w_ntf w))) t (FClear k), [])   (* syslog 248 *)
  | FCasRot k =>                                (* file 224-226 *)
      match c with
      | WCas None => (w_goto w t (FClear k), [])
      | WCas (Some i) =>
          match take i (w_ntr w) with
          | Some h => (w_goto (w_setr w (stored false h)) t (FReopen k), [])
          | None => (w, [])
          end
      | _ => (w, [])
      end
  | WWait =>                                    (* file 258-268, console 330-340, syslog 263-273 *)
      match c with
      | WPlain (CWake true) => (w_goto w t (FTas KWorker), [])
      | WLoad i j =>                            (* woken: loads of both flags *)
          match nth_error (w_ntf w) i, nth_error (w_fin w) j with
          | Some a, Some b => (if m_val a || m_val b then w_goto w t (FTas KWorker) else w, [])
          | _, _ => (w, [])
          end
      | _ => (w, [])
      end
  | WFin =>                                     (* file 272, console 344, syslog 277 *)
      match c with
      | WLoad _ j =>
          match nth_error (w_fin w) j with
          | Some b => (w_goto w t (if m_val b then WSize else WWait), [])
          | None => (w, [])
          end
      | _ => (w, [])
      end
  | DStore => (w_goto (w_setx w (stored true (w_fin w))) t DNtf, [])   (* file 101, console 162, syslog 107 *)
  | DNtf => (w_goto (w_setf w (stored true (w_ntf w))) t DJoin, [])    (* file 102, 114-115 *)
  | _ => plain w t c p
  end.

Definition wstep (w : wstate E) (m : wmove) : wstate E * list (label E) :=
  match m with
  | WDrain n => let '(s, l) := step C (w_base w) (MDrain n) in
                (mkW s (w_ntf w) (w_ntr w) (w_fin w), l)
  | WThread t c =>
      match nth_error (thr (w_base w)) t with
      | Some p => wstep_thread w t c p
      | None => (w, [])
      end
  end.

Fixpoint wexec (w : wstate E) (ms : list wmove) : wstate E * list (label E) :=
  match ms with
  | [] => (w, [])
  | m :: ms' => let '(w1, l1) := wstep w m in
                let '(w2, l2) := wexec w1 ms' in (w2, l1 ++ l2)
  end.

(** After construction; the flags' initial value (sink_to_file.hpp:58-60) counts as a store. *)
Definition winit (op : bool) (clients : nat) : wstate E :=
  mkW (init C op clients) [mkMsg false false] [mkMsg false false] [mkMsg false false].

End Step.
End Weak.

Arguments wchoice : clear implicits.
Arguments wmove : clear implicits.
