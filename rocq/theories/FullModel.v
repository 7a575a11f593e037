(** * Model of a sink together with its circular buffer
      (include/soralog/sink.hpp:116-155, include/soralog/circular_buffer.hpp:106-206,
      src/impl/sink_to_file.cpp:90-277, src/impl/sink_to_console.cpp:155-349,
      src/impl/sink_to_syslog.cpp:92-282)

    SinkModel without its first simplification: the events are in the circular buffer of
    CircModel.  A call of put(), get() or size() is the sequence of its atomic operations,
    interleaved with everything else; the code holds a reference to the slot until the
    NodeRef is destroyed, and reads the event through it.  What a thread does outside the
    buffer is as in SinkModel (those steps do not look at the queue). *)

From Coq Require Import List Arith NArith Bool.
From Verif Require CircSpec CircModel.
From Verif Require Import Base LevelModel SinkModel.
Import ListNotations.

Set Implicit Arguments.

Section Full.
Context {E : Type}.

(** Control points.  Inside the buffer the position is in the ring. *)
Inductive fpc :=
| At (p : pc E)               (* outside the buffer, as in SinkModel *)
| InPut (e : E)               (* sink.hpp:127 *)
| Add (i : nat)               (* sink.hpp:136: size_ += node->message().size() *)
| Rel (i : nat)               (* sink.hpp:138: ~NodeRef *)
| InGet (k : cont E)          (* file 136, console 197, syslog 143 *)
| Sub (k : cont E) (i : nat)  (* file 136-202, console 197-298, syslog 144-245: formatting, size_ -= ... *)
| Free (k : cont E) (e : E) (i : nat)  (* ~NodeRef: file 202, console 298, syslog 252 *)
| InSize.                     (* file 273, console 345, syslog 278 *)

Record fstate := mkF {
  ring : CircModel.state E;   (* events_ *)
  rest : state E;             (* all other members and the history; its [q] and [thr] are not used *)
  pcs : list fpc              (* 0: worker; then the clients *)
}.

(** All of a SinkModel state but queue and threads. *)
Definition strip (a : state E) : state E :=
  mkSt [] (size a) (fip a) (ntf a) (ntr a) (fin a) (opened a) (closed a) (cur a) (obuf a)
       [] (acc a) (h_closed a) (h_cur a) (h_drop a).

(** Where a thread is, for the questions "is it idle?", "is it destroying the sink?" and
    "has the worker returned?". *)
Definition show (p : fpc) : pc E :=
  match p with
  | At p => p
  | InPut e => PPut e
  | Add _ | Rel _ => PDecide
  | InGet k | Sub k _ | Free k _ _ => FGet k
  | InSize => WSize
  end.
Definition outside (s : fstate) : state E :=
  let a := rest s in
  mkSt [] (size a) (fip a) (ntf a) (ntr a) (fin a) (opened a) (closed a) (cur a) (obuf a)
       (map show (pcs s)) (acc a) (h_closed a) (h_cur a) (h_drop a).

Fixpoint fupd (l : list fpc) (i : nat) (p : fpc) : list fpc :=
  match l, i with
  | [], _ => []
  | _ :: l', O => p :: l'
  | x :: l', S i' => x :: fupd l' i' p
  end.

Variable C : cfg E.

(** Thread [t] calls a function of the buffer. *)
Definition call (s : fstate) (t : nat) (c : CircModel.choice E) (p : fpc) : option (fstate * list (label E)) :=
  match CircModel.step (c_cap C) (ring s) t c with
  | CircModel.Ok r _ => Some (mkF r (rest s) (fupd (pcs s) t p), [])
  | CircModel.Bad _ => None
  end.

(** History: the event of the put() that has just taken effect. *)
Definition taken (r : CircModel.state E) (t : nat) (e : E) (a : state E) : state E * list (label E) :=
  match CircModel.t_pc (CircModel.thr r t) with
  | CircModel.PInc _ _ => (s_acc a (acc a ++ [(t, e)]), [LAccept t e])
  | _ => (a, [])
  end.

(** [None]: undefined behaviour. *)
Definition fstep_thread (s : fstate) (t : nat) (c : choice E) (p : fpc) : option (fstate * list (label E)) :=
  match p with
  | At (PPut e) => call s t (CircModel.CPut e) (InPut e)
  | At (FGet k) => call s t (@CircModel.CGet E) (InGet k)
  | At WSize => call s t (@CircModel.CQuery E CircSpec.QSize) InSize
  | At p =>
      let '(a, ls) := step_thread C (outside s) t c p in
      Some (mkF (ring s) (strip a) (fupd (pcs s) t (At (nth t (thr a) Idle))), ls)
  (* ---- push ---- *)
  | InPut e =>
      match CircModel.step (c_cap C) (ring s) t (@CircModel.CGet E) with
      | CircModel.Ok r [CircSpec.LRet _ (CircSpec.RRef i)] => Some (mkF r (rest s) (fupd (pcs s) t (Add i)), [])
      | CircModel.Ok r [CircSpec.LRet _ _] => Some (mkF r (rest s) (fupd (pcs s) t (At (FTas (KRetry e)))), [])
      | CircModel.Ok r [CircSpec.LLin _] => let '(a, ls) := taken r t e (rest s) in Some (mkF r a (pcs s), ls)
      | CircModel.Ok r _ => Some (mkF r (rest s) (pcs s), [])
      | CircModel.Bad _ => None
      end
  | Add i =>
      match CircModel.step (c_cap C) (ring s) t (@CircModel.CRead E i) with
      | CircModel.Ok r [CircSpec.LRead _ _ e] =>
          Some (mkF r (s_q (rest s) [] ((size (rest s) + c_msize C e) mod M64)%N) (fupd (pcs s) t (Rel i)), [])
      | _ => None
      end
  | Rel i =>
      match CircModel.step (c_cap C) (ring s) t (@CircModel.CRel E i) with
      | CircModel.Ok r _ => Some (mkF r (rest s) (fupd (pcs s) t (At PDecide)), [])
      | CircModel.Bad _ => None
      end
  (* ---- flush ---- *)
  | InGet k =>
      match CircModel.step (c_cap C) (ring s) t (@CircModel.CGet E) with
      | CircModel.Ok r [CircSpec.LRet _ (CircSpec.RRef i)] => Some (mkF r (rest s) (fupd (pcs s) t (Sub k i)), [])
      | CircModel.Ok r [CircSpec.LRet _ _] =>
          Some (mkF r (rest s) (fupd (pcs s) t (At (match c_kind C with KSyslog => FNtf k | _ => FWrite k None end))), [])
      | CircModel.Ok r _ => Some (mkF r (rest s) (pcs s), [])
      | CircModel.Bad _ => None
      end
  | Sub k i =>
      match CircModel.step (c_cap C) (ring s) t (@CircModel.CRead E i) with
      | CircModel.Ok r [CircSpec.LRead _ _ e] =>
          let a := rest s in
          let a := s_q a [] ((size a + (M64 - c_msize C e)) mod M64)%N in
          match c_kind C with
          | KSyslog => Some (mkF r (s_out a (opened a) (closed a) (cur a) (obuf a ++ c_render C e)
                                          (h_closed a) (h_cur a ++ [e]) (h_drop a))
                                 (fupd (pcs s) t (Free k e i)), [LWrite t e])
          | _ => Some (mkF r a (fupd (pcs s) t (Free k e i)), [])
          end
      | _ => None
      end
  | Free k e i =>
      match CircModel.step (c_cap C) (ring s) t (@CircModel.CRel E i) with
      | CircModel.Ok r _ =>
          Some (mkF r (rest s) (fupd (pcs s) t (At (match c_kind C with KSyslog => FGet k | _ => FWrite k (Some e) end))), [])
      | CircModel.Bad _ => None
      end
  (* ---- run ---- *)
  | InSize =>
      match CircModel.step (c_cap C) (ring s) t (@CircModel.CGet E) with
      | CircModel.Ok r [CircSpec.LRet _ (CircSpec.RNum n)] =>
          Some (mkF r (rest s) (fupd (pcs s) t (At (if Nat.eqb n 0 then WDone else WWait))), [])
      | CircModel.Ok r _ => Some (mkF r (rest s) (pcs s), [])
      | CircModel.Bad _ => None
      end
  end.

Definition fstep (s : fstate) (m : move E) : option (fstate * list (label E)) :=
  match m with
  | MDrain n => Some (mkF (ring s) (strip (fst (step C (rest s) (@MDrain E n)))) (pcs s), [])
  | MThread t c =>
      match nth_error (pcs s) t with
      | Some p => fstep_thread s t c p
      | None => Some (s, [])
      end
  end.

Fixpoint fexec (s : fstate) (ms : list (move E)) : option (fstate * list (label E)) :=
  match ms with
  | [] => Some (s, [])
  | m :: ms' =>
      match fstep s m with
      | None => None
      | Some (s1, l1) =>
          match fexec s1 ms' with
          | None => None
          | Some (s2, l2) => Some (s2, l1 ++ l2)
          end
      end
  end.

(** After construction, see [SinkModel.init]. *)
Definition finit (op : bool) (clients : nat) : fstate :=
  mkF CircModel.init (strip (init C op clients)) (map At (thr (init C op clients))).

End Full.
Arguments fpc : clear implicits.
Arguments fstate : clear implicits.
