(** * Model of a leaf sink under concurrency: push, flush, background worker,
      rotation, destruction
      (include/soralog/sink.hpp:116-155, src/impl/sink_to_file.cpp:90-277,
      src/impl/sink_to_console.cpp:155-349, src/impl/sink_to_syslog.cpp:92-282)

    One step per operation on shared state; any number of client threads; the
    sink's own worker is thread 0.  The flags need_to_flush_, need_to_rotate_ and
    need_to_finalize_ are accessed with weaker memory orders than the rest: what that
    adds to sequential consistency is in the choices [CGo true], [CKeep] and [CWake]
    (proved in C86 to be enough).

    Simplifications:
    - The event queue is the abstract FIFO proved for CircularBuffer (C01): put()
      takes effect in one step and its NodeRef keeps the entry unavailable until
      it is released; get() waits while the oldest entry is held.  (That put()
      may also have to wait for the reader of the slot it reuses only delays it.)
    - Formatting is a function [render] of the event (C11, C14: exact, in bounds).
    - Input/output does not fail, except that opening the file may.
    - wait_until may wake at any time, with either result; notify_one is a no-op. *)

From Coq Require Import List Arith NArith Bool.
From Verif Require Import Base LevelModel.
Import ListNotations.

Set Implicit Arguments.

Inductive sink_kind := KFile | KConsole | KSyslog.

(** Settings fixed at construction. *)
Record cfg (E : Type) := mkCfg {
  c_kind : sink_kind;
  c_cap : nat;                  (* capacity of events_ *)
  c_lat0 : bool;                (* latency_ == 0 *)
  c_threshold : N;              (* max_buffer_size_ * 4 / 5, sink.hpp:147 *)
  c_level : level;              (* level_ *)
  c_msize : E -> N;             (* message().size() *)
  c_render : E -> bytes         (* the record *)
}.

(** max_buffer_size_ * 4 / 5 in size_t (sink.hpp:147). *)
Definition threshold_of (max_buffer_size : N) : N := (max_buffer_size * 4 mod 2 ^ 64 / 5)%N.

Section Sink.
Context {E : Type}.

(** Entry of the queue: reserved and being accounted, accounted but still held by
    the NodeRef of push, available. *)
Inductive stage := Reserved | Sized | Published.
Record entry := mkEntry { q_no : nat; q_ev : E; q_stage : stage }.

(** Who called flush(), i.e. what follows it. *)
Inductive cont :=
| KRetry (e : E)   (* push: sink.hpp:142, try to put again *)
| KReturn          (* last action of a client call *)
| KWorker          (* run() *)
| KDestroy.        (* destructor, zero latency *)

Inductive pc :=
| Idle
(* Sink::push, sink.hpp:116-155 *)
| PPut (e : E)               (* 127: events_.put *)
| PAdd (n : nat) (e : E)     (* 136: size_ += node->message().size() *)
| PRel (n : nat) (e : E)     (* 138: ~NodeRef *)
| PDecide                    (* 145-149 *)
(* rotate, sink_to_file.cpp:246-249 *)
| RStore                     (* 247 *)
| RAsync                     (* 248, or a call of async_flush: file 112-119, console 173-180, syslog 120-127 *)
(* flush *)
| FTas (k : cont)            (* file 122, console 183, syslog 130 *)
| FGet (k : cont)            (* file 136, console 197, syslog 143 *)
| FSub (k : cont) (e : E)    (* formatting and size_ -=: file 136-202, console 197-298, syslog 144-245 *)
| FWrite (k : cont) (oe : option E)  (* file 204-211, console 300-307 *)
| FCasFlush (k : cont)       (* file 213-216, console 309-312 *)
| FStream (k : cont)         (* file 217, console 313: stream.flush() *)
| FNtf (k : cont)            (* syslog 248: need_to_flush_ = false *)
| FCasRot (k : cont)         (* file 224-226 *)
| FReopen (k : cont)         (* file 227-240 *)
| FClear (k : cont)          (* file 243, console 320, syslog 253 *)
(* run() *)
| WWait                      (* file 258-268, console 330-340, syslog 263-273 *)
| WFin                       (* file 272, console 344, syslog 277: load need_to_finalize_ *)
| WSize                      (* file 273, console 345, syslog 278: events_.size() == 0 *)
| WDone                      (* returned, or there is no worker *)
(* destructor *)
| DStore                     (* file 101, console 162, syslog 107: need_to_finalize_ = true *)
| DNtf                       (* file 102, 114-115, console 163, syslog 108: need_to_flush_ = true; notify *)
| DJoin                      (* file 103-106, console 164-167, syslog 109-112 *)
| DClose                     (* members destroyed: the ofstream is closed *)
| Dead.

Record state := mkSt {
  q : list entry;            (* events_, oldest first *)
  size : N;                  (* size_ *)
  fip : bool;                (* flush_in_progress_ *)
  ntf : bool;                (* need_to_flush_ *)
  ntr : bool;                (* need_to_rotate_ *)
  fin : bool;                (* need_to_finalize_ *)
  opened : bool;             (* out_.is_open() *)
  closed : list bytes;       (* files left behind by rotation *)
  cur : bytes;               (* the current file as the OS has it *)
  obuf : bytes;              (* written to the stream, not yet given to the OS *)
  thr : list pc;             (* 0: worker; then the clients *)
  (* history, not part of the program *)
  acc : list (nat * E);      (* accepted events with the pushing thread *)
  h_closed : list (list E);  (* events written to the files left behind *)
  h_cur : list E;            (* events written to the current file *)
  h_drop : list E            (* events written while no file was open *)
}.

(** Scheduler's and environment's choices. *)
Inductive reopen := ROFail | ROSame | ROFresh.
Inductive choice :=
| CPush (l : level) (e : E)
| CFlush
| CAsync                            (* async_flush(), e.g. by Multisink::flush, multisink.cpp:22-24 *)
| CRotate
| CDestroy
| CGo (spurious : bool)            (* a compare_exchange_weak fails spuriously, or a load
                                      returns an old value *)
| CKeep                            (* a compare_exchange_weak answers one of several stores;
                                      another one is still to be answered *)
| CWake (timeout : bool)           (* result of wait_until *)
| COpen (r : reopen).

Inductive move :=
| MThread (t : nat) (c : choice)
| MDrain (n : nat).                (* the stream gives n bytes to the OS *)

(** What can be observed from outside. *)
Inductive label :=
| LPush (t : nat) (l : level) (e : E)
| LAccept (t : nat) (e : E)      (* put() delivered a node *)
| LReturn (t : nat)              (* a client's call returns *)
| LLock (t : nat)                (* flush() begins its work *)
| LWrite (t : nat) (e : E)       (* the record is handed to the destination *)
| LLost (t : nat) (e : E)        (* ... while no file is open *)
| LRotate (t : nat)              (* rotation requested *)
| LReopen (t : nat) (r : reopen)
| LUnlock (t : nat)              (* flush() has done its work *)
| LDestroyed (t : nat).

Fixpoint upd (l : list pc) (i : nat) (p : pc) : list pc :=
  match l, i with
  | [], _ => []
  | _ :: l', O => p :: l'
  | x :: l', S i' => x :: upd l' i' p
  end.

Definition set_stage (n : nat) (st : stage) (l : list entry) : list entry :=
  map (fun x => if Nat.eqb (q_no x) n then mkEntry (q_no x) (q_ev x) st else x) l.

Definition s_thr (s : state) (t : nat) (p : pc) : state :=
  mkSt (q s) (size s) (fip s) (ntf s) (ntr s) (fin s) (opened s) (closed s) (cur s) (obuf s)
       (upd (thr s) t p) (acc s) (h_closed s) (h_cur s) (h_drop s).
Definition s_q (s : state) (q' : list entry) (size' : N) : state :=
  mkSt q' size' (fip s) (ntf s) (ntr s) (fin s) (opened s) (closed s) (cur s) (obuf s)
       (thr s) (acc s) (h_closed s) (h_cur s) (h_drop s).
Definition s_acc (s : state) (a : list (nat * E)) : state :=
  mkSt (q s) (size s) (fip s) (ntf s) (ntr s) (fin s) (opened s) (closed s) (cur s) (obuf s)
       (thr s) a (h_closed s) (h_cur s) (h_drop s).
Definition s_flags (s : state) (fip' ntf' ntr' fin' : bool) : state :=
  mkSt (q s) (size s) fip' ntf' ntr' fin' (opened s) (closed s) (cur s) (obuf s)
       (thr s) (acc s) (h_closed s) (h_cur s) (h_drop s).
Definition s_out (s : state) (op : bool) (cl : list bytes) (cu ob : bytes)
    (hcl : list (list E)) (hc hd : list E) : state :=
  mkSt (q s) (size s) (fip s) (ntf s) (ntr s) (fin s) op cl cu ob
       (thr s) (acc s) hcl hc hd.

Definition is_idle (p : pc) : bool := match p with Idle => true | _ => false end.

(** A client may start a call while nobody destroys the sink; the destructor may
    start when every other client is idle (requirement of C++). *)
Definition destroying (p : pc) : bool :=
  match p with
  | DStore | DNtf | DJoin | DClose | Dead => true
  | FTas KDestroy | FGet KDestroy | FSub KDestroy _ | FWrite KDestroy _ | FCasFlush KDestroy
  | FStream KDestroy | FNtf KDestroy | FCasRot KDestroy | FReopen KDestroy | FClear KDestroy => true
  | _ => false
  end.
Definition alive (s : state) : bool := forallb (fun p => negb (destroying p)) (tl (thr s)).
Definition clients_idle (s : state) : bool := forallb is_idle (tl (thr s)).

(** Return of flush() to its caller. *)
Definition after_flush (k : cont) : pc :=
  match k with
  | KRetry e => PPut e
  | KReturn => Idle
  | KWorker => WFin
  | KDestroy => DClose
  end.

Definition ret_label (t : nat) (k : cont) : list label :=
  match k with KReturn => [LReturn t] | _ => [] end.

(** The test of Sink::push (sink.hpp:121). *)
Definition admits (sink_level l : level) : bool :=
  negb (llt sink_level l || leqb l OFF || leqb l IGNORE).

Section Step.
Variable C : cfg E.

Definition M64 : N := (2 ^ 64)%N.

(** One step of thread [t], whose control point is [p].  async_flush
    (sink_to_file.cpp:112-119) is inlined where it is called. *)
Definition step_thread (s : state) (t : nat) (c : choice) (p : pc) : state * list label :=
  match p with
  | Idle =>
      match c with
      | CPush l e =>
          if alive s && negb (Nat.eqb t 0) then
            if admits (c_level C) l then (s_thr s t (PPut e), [LPush t l e])
            else (s, [LPush t l e; LReturn t])
          else (s, [])
      | CFlush => if alive s && negb (Nat.eqb t 0) then (s_thr s t (FTas KReturn), []) else (s, [])
      | CAsync => if alive s && negb (Nat.eqb t 0) then (s_thr s t RAsync, []) else (s, [])
      | CRotate =>
          if alive s && negb (Nat.eqb t 0) then
            match c_kind C with
            | KFile => (s_thr s t RStore, [])
            | _ => (s, [LReturn t])       (* empty: sink_to_console.hpp:44, sink_to_syslog.hpp:38 *)
            end
          else (s, [])
      | CDestroy =>
          if clients_idle s && negb (Nat.eqb t 0)
          then (s_thr s t (if c_lat0 C then FTas KDestroy else DStore), []) else (s, [])
      | _ => (s, [])
      end
  (* ---- push ---- *)
  | PPut e =>
      if Nat.ltb (length (q s)) (c_cap C) then
        let n := length (acc s) in
        (s_thr (s_acc (s_q s (q s ++ [mkEntry n e Reserved]) (size s)) (acc s ++ [(t, e)]))
               t (PAdd n e), [LAccept t e])
      else (s_thr s t (FTas (KRetry e)), [])
  | PAdd n e =>
      (s_thr (s_q s (set_stage n Sized (q s)) ((size s + c_msize C e) mod M64)%N) t (PRel n e), [])
  | PRel n e => (s_thr (s_q s (set_stage n Published (q s)) (size s)) t PDecide, [])
  | PDecide =>
      if c_lat0 C then (s_thr s t (FTas KReturn), [])
      else if N.leb (c_threshold C) (size s)
           then (s_thr (s_flags s (fip s) true (ntr s) (fin s)) t Idle, [LReturn t])
           else (s_thr s t Idle, [LReturn t])
  (* ---- rotate ---- *)
  | RStore => (s_thr (s_flags s (fip s) (ntf s) true (fin s)) t RAsync, [LRotate t])
  | RAsync =>
      if c_lat0 C then (s_thr s t (FTas KReturn), [])
      else (s_thr (s_flags s (fip s) true (ntr s) (fin s)) t Idle, [LReturn t])
  (* ---- flush ---- *)
  | FTas k =>
      if fip s then (s_thr s t (after_flush k), ret_label t k)
      else (s_thr (s_flags s true (ntf s) (ntr s) (fin s)) t (FGet k), [LLock t])
  | FGet k =>
      match q s with
      | [] => (s_thr s t (match c_kind C with KSyslog => FNtf k | _ => FWrite k None end), [])
      | x :: rest =>
          match q_stage x with
          | Published => (s_thr (s_q s rest (size s)) t (FSub k (q_ev x)), [])
          | _ => (s, [])                 (* get() spins: the entry is still held *)
          end
      end
  | FSub k e =>
      let s' := s_q s (q s) ((size s + (M64 - c_msize C e)) mod M64)%N in
      match c_kind C with
      | KSyslog => (s_thr (s_out s' (opened s) (closed s) (cur s) (obuf s ++ c_render C e)
                                 (h_closed s) (h_cur s ++ [e]) (h_drop s)) t (FGet k), [LWrite t e])
      | _ => (s_thr s' t (FWrite k (Some e)), [])
      end
  | FWrite k (Some e) =>
      if opened s then
        (s_thr (s_out s (opened s) (closed s) (cur s) (obuf s ++ c_render C e)
                      (h_closed s) (h_cur s ++ [e]) (h_drop s)) t (FCasFlush k), [LWrite t e])
      else
        (s_thr (s_out s (opened s) (closed s) (cur s) (obuf s)
                      (h_closed s) (h_cur s) (h_drop s ++ [e])) t (FCasFlush k), [LLost t e])
  | FWrite k None =>                     (* possibly a write of zero bytes *)
      (s_thr s t (match c_kind C with KFile => FCasRot k | _ => FClear k end), [])
  | FCasFlush k =>
      let next := match c_kind C with KFile => FCasRot k | _ => FClear k end in
      match c with
      | CGo false => if ntf s then (s_thr (s_flags s (fip s) false (ntr s) (fin s)) t (FStream k), [])
                     else (s_thr s t next, [])
      | CGo true => (s_thr s t next, [])
      | CKeep => if ntf s then (s_thr s t (FStream k), []) else (s, [])
      | _ => (s, [])
      end
  | FStream k =>
      (s_thr (s_out s (opened s) (closed s) (cur s ++ obuf s) [] (h_closed s) (h_cur s) (h_drop s))
             t (match c_kind C with KFile => FCasRot k | _ => FClear k end), [])
  | FNtf k => (s_thr (s_flags s (fip s) false (ntr s) (fin s)) t (FClear k), [])
  | FCasRot k =>
      match c with
      | CGo false => if ntr s then (s_thr (s_flags s (fip s) (ntf s) false (fin s)) t (FReopen k), [])
                     else (s_thr s t (FClear k), [])
      | CGo true => (s_thr s t (FClear k), [])
      | CKeep => if ntr s then (s_thr s t (FReopen k), []) else (s, [])
      | _ => (s, [])
      end
  | FReopen k =>
      match c with
      | COpen ROFail => (s_thr s t (FClear k), [LReopen t ROFail])
      | COpen ROSame =>
          (* swapped in; the old stream is destroyed, which flushes it *)
          (s_thr (s_out s true (closed s) (cur s ++ obuf s) [] (h_closed s) (h_cur s) (h_drop s))
                 t (FClear k), [LReopen t ROSame])
      | COpen ROFresh =>
          if opened s then
            (s_thr (s_out s true (closed s ++ [cur s ++ obuf s]) [] []
                          (h_closed s ++ [h_cur s]) [] (h_drop s))
                   t (FClear k), [LReopen t ROFresh])
          else
            (s_thr (s_out s true (closed s) (cur s) (obuf s) (h_closed s) (h_cur s) (h_drop s))
                   t (FClear k), [LReopen t ROFresh])
      | _ => (s, [])
      end
  | FClear k => (s_thr (s_flags s false (ntf s) (ntr s) (fin s)) t (after_flush k), LUnlock t :: ret_label t k)
  (* ---- run ---- *)
  | WWait =>
      match c with
      | CWake true => (s_thr s t (FTas KWorker), [])
      | CWake false => if ntf s || fin s then (s_thr s t (FTas KWorker), []) else (s, [])
      | _ => (s, [])
      end
  | WFin =>
      match c with
      | CGo true => (s_thr s t WWait, [])
      | _ => (s_thr s t (if fin s then WSize else WWait), [])
      end
  | WSize => (s_thr s t (match q s with [] => WDone | _ => WWait end), [])
  | WDone => (s, [])
  (* ---- destructor ---- *)
  | DStore => (s_thr (s_flags s (fip s) (ntf s) (ntr s) true) t DNtf, [])
  | DNtf => (s_thr (s_flags s (fip s) true (ntr s) (fin s)) t DJoin, [])
  | DJoin => match nth_error (thr s) 0 with
             | Some WDone => (s_thr s t DClose, [])
             | _ => (s, [])               (* join() waits *)
             end
  | DClose =>
      match c_kind C with
      | KFile => (s_thr (s_out s (opened s) (closed s) (cur s ++ obuf s) [] (h_closed s) (h_cur s) (h_drop s))
                        t Dead, [LDestroyed t])
      | _ => (s_thr s t Dead, [LDestroyed t])   (* stream_ belongs to somebody else *)
      end
  | Dead => (s, [])
  end.

Definition step (s : state) (m : move) : state * list label :=
  match m with
  | MDrain n => (s_out s (opened s) (closed s) (cur s ++ firstn n (obuf s)) (skipn n (obuf s))
                       (h_closed s) (h_cur s) (h_drop s), [])
  | MThread t c =>
      match nth_error (thr s) t with
      | Some p => step_thread s t c p
      | None => (s, [])
      end
  end.

Fixpoint exec (s : state) (ms : list move) : state * list label :=
  match ms with
  | [] => (s, [])
  | m :: ms' => let '(s1, l1) := step s m in
                let '(s2, l2) := exec s1 ms' in (s2, l1 ++ l2)
  end.

(** After construction (sink_to_file.cpp:90-97, sink_to_console.cpp:155-157,
    sink_to_syslog.cpp:100-102): [op] tells whether the file could be opened; the
    worker exists if latency is not zero (and the file is open). *)
Definition init (op : bool) (clients : nat) : state :=
  mkSt [] 0%N false false false false op [] [] []
       ((if c_lat0 C then WDone else if op then WWait else WDone) :: repeat Idle clients)
       [] [] [] [].

End Step.
End Sink.

Arguments entry : clear implicits.
Arguments cont : clear implicits.
Arguments pc : clear implicits.
Arguments state : clear implicits.
Arguments choice : clear implicits.
Arguments move : clear implicits.
Arguments label : clear implicits.
