(** * Model of include/soralog/util.hpp

    Threads are numbered by their identity: an operating system may use the identifier of
    an ended thread again, the thread-local objects of the new thread are new ones.  The
    branches for platforms other than Linux and macOS are not modelled. *)
From Coq Require Import Ascii String NArith Arith List Bool.
From Verif Require Import Base.
Import ListNotations.
Local Open Scope N_scope.

(** static thread_local size_t tid (util.hpp:18): not initialised, the increment is done
    but the initialisation is not, initialised *)
Inductive tid := TNone | TBusy (n : N) | TDone (n : N).

(** The thread-local objects (util.hpp:18, 36-37) and the name the operating system keeps
    for the thread: a text of at most 15 bytes, none of them zero. *)
Record thread := mkThread {
  t_tid : tid;
  t_cache : option bytes;     (* thr_name, once [initialized] *)
  t_os : bytes
}.
(** static std::atomic_size_t tid_counter (util.hpp:17) *)
Record state := mkState { counter : N; thr : nat -> thread }.

Definition upd (s : state) (t : nat) (x : thread) : state :=
  mkState (counter s) (fun u => if Nat.eqb u t then x else thr s u).

(** memcpy of at most 15 bytes into 16 zero bytes (util.hpp:23-24). *)
Definition set_buff (name : bytes) : bytes :=
  let n := Nat.min (length name) 15 in firstn n name ++ repeat nul (16 - n).
(** The C string in an array. *)
Fixpoint c_str (l : bytes) : bytes :=
  match l with
  | [] => []
  | b :: l' => if Ascii.eqb b nul then [] else b :: c_str l'
  end.
(** pthread_getname_np into an array of 16 zero bytes (util.hpp:36-39). *)
Definition get_buff (os : bytes) : bytes := os ++ repeat nul (16 - length os).

(** What a thread does.  [ONumber]: one step of getThreadNumber (util.hpp:16-20): the
    increment of the counter, if [tid] is not initialised, else the end of the
    initialisation and the return; [OName]: getThreadName (util.hpp:35-51);
    [OSet]: setThreadName (util.hpp:22-33); [OOther]: something outside of the library
    gives the thread a name. *)
Inductive op := ONumber | OName | OSet (name : bytes) | OOther (os : bytes).
Inductive ret := RNone | RNumber (n : N) | RName (buff : bytes).

Definition size_t (n : N) : N := n mod 2 ^ 64.

Definition step (s : state) (t : nat) (o : op) : state * ret :=
  let x := thr s t in
  match o with
  | ONumber =>
      match t_tid x with
      | TNone => let c := size_t (counter s + 1) in
                 (upd (mkState c (thr s)) t (mkThread (TBusy c) (t_cache x) (t_os x)), RNone)
      | TBusy n => (upd s t (mkThread (TDone n) (t_cache x) (t_os x)), RNumber n)
      | TDone n => (s, RNumber n)
      end
  | OName =>
      match t_cache x with
      | None => let b := get_buff (t_os x) in
                (upd s t (mkThread (t_tid x) (Some b) (t_os x)), RName b)
      | Some b => (s, RName b)
      end
  | OSet name => (upd s t (mkThread (t_tid x) (t_cache x) (c_str (set_buff name))), RNone)
  | OOther os => (upd s t (mkThread (t_tid x) (t_cache x) os), RNone)
  end.

(** getThreadName() (util.hpp:53-57) *)
Definition name_string (buff : bytes) : bytes := c_str buff.

(** The threads run: who does what. *)
Fixpoint run (s : state) (h : list (nat * op)) : state * list (nat * op * ret) :=
  match h with
  | [] => (s, [])
  | (t, o) :: h' => let '(s', r) := step s t o in let '(s2, l) := run s' h' in (s2, (t, o, r) :: l)
  end.

(** At first no thread has used the library; [name0]: the names the threads start with. *)
Definition start (name0 : nat -> bytes) : state := mkState 0 (fun t => mkThread TNone None (name0 t)).
