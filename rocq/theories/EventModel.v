(** * Model of the constructor and accessors of Event (include/soralog/event.hpp)

    Memory is a map from addresses to bytes; the constructor is the sequence of
    the stores it performs.  Field offsets are those of the Itanium C++ ABI on a
    64-bit little-endian platform (event.hpp:156-167): sizeof(Event) = 104,
    alignment 8, and the message area starts right behind the object
    (event.hpp:165).

    Simplifications: exceptions that do not derive from std::exception are not
    modelled; the second format call (event.hpp:99-104) does not throw. *)

From Coq Require Import Ascii String NArith Arith List.
From Verif Require Import Base LevelModel.
Import ListNotations.
Local Open Scope N_scope.

Definition mem := N -> byte.

(** Store a run of bytes. *)
Fixpoint store (m : mem) (a : N) (l : bytes) : mem :=
  match l with
  | [] => m
  | b :: l' => store (fun x => if N.eqb x a then b else m x) (a + 1) l'
  end.

(** Load [n] bytes. *)
Fixpoint load (m : mem) (a : N) (n : nat) : bytes :=
  match n with
  | O => []
  | S n' => m a :: load m (a + 1) n'
  end.

(** Little-endian integers of [k] bytes. *)
Fixpoint le (k : nat) (n : N) : bytes :=
  match k with
  | O => []
  | S k' => ascii_of_N (n mod 256) :: le k' (n / 256)
  end.

Fixpoint unle (l : bytes) : N :=
  match l with
  | [] => 0
  | b :: l' => N_of_ascii b + 256 * unle l'
  end.

(** Field offsets (event.hpp:156-166). *)
Definition off_timestamp : N := 0.
Definition off_thread_number : N := 8.
Definition off_thread_name : N := 16.
Definition off_thread_name_size : N := 32.
Definition off_name : N := 40.
Definition off_name_size : N := 72.
Definition off_level : N := 80.
Definition off_message_data : N := 88.
Definition off_message_size : N := 96.
Definition sizeof_Event : N := 104.
Definition name_capacity : nat := 32.
Definition thread_name_capacity : nat := 16.

(** Sink::ThreadInfoType (sink.hpp:49-53). *)
Inductive thread_info := TI_NONE | TI_NAME | TI_ID.

(** Result of the first format call (event.hpp:90-98): the text, or an
    exception after some output. *)
Inductive fmt_result :=
| FmtOk (text : bytes)
| FmtThrow (partial : bytes) (what : bytes).

(** ::strnlen(p, 15) on the 16-byte array (event.hpp:56). *)
Fixpoint strnlen (l : bytes) (n : nat) : nat :=
  match n, l with
  | S n', b :: l' => if Ascii.eqb b nul then 0%nat else S (strnlen l' n')
  | _, _ => 0%nat
  end.

(** fmt::format_to_n through the iterator over message_data_ (event.hpp:90-104):
    stores at most [max] bytes, returns the untruncated size. *)
Definition format_to_n (m : mem) (a : N) (max : nat) (text : bytes) : mem * N :=
  (store m a (firstn max text), N.of_nat (length text)).

(** Event::Event (event.hpp:46-112).  [p]: address of the object; [now]: the
    clock; [tname]: the 16 bytes util::getThreadName delivers; [tnum]: the
    number util::getThreadNumber delivers; [fr]: what formatting does;
    [fmt_text]: the format string. *)
Definition construct (m : mem) (p : N) (name : bytes) (ti : thread_info) (lvl : level)
    (max : nat) (now : N) (tname : bytes) (tnum : N) (fr : fmt_result) (fmt_text : bytes)
    : mem :=
  (* member initialisers, lines 52, 157-166 *)
  let m := store m (p + off_timestamp) (le 8 now) in
  let m := store m (p + off_thread_number) (le 8 0) in
  let m := store m (p + off_thread_name_size) (le 8 0) in
  let m := store m (p + off_level) [ascii_of_nat (lcode lvl)] in
  let m := store m (p + off_message_data) (le 8 (p + sizeof_Event)) in
  (* switch, lines 53-63 *)
  let m := match ti with
           | TI_NAME =>
               let m := store m (p + off_thread_name) tname in
               let m := store m (p + off_thread_name_size) (le 8 (N.of_nat (strnlen tname 15))) in
               store m (p + off_thread_number) (le 8 tnum)
           | TI_ID => store m (p + off_thread_number) (le 8 tnum)
           | TI_NONE => m
           end in
  (* formatting, lines 90-107 *)
  let it := p + sizeof_Event in
  match fr with
  | FmtOk text =>
      let '(m, size) := format_to_n m it max text in
      (* lines 109-111 *)
      let m := store m (p + off_message_size) (le 8 (N.min (N.of_nat max) size)) in
      let nsize := Nat.min (length name) name_capacity in
      let m := store m (p + off_name_size) (le 8 (N.of_nat nsize)) in
      store m (p + off_name) (firstn nsize name)
  | FmtThrow partial what =>
      let m := store m it (firstn max partial) in
      let '(m, size) := format_to_n m it max
           (bs "Format error: " ++ what ++ bs "; Format: " ++ fmt_text) in
      let name := bs "Soralog" in
      let m := store m (p + off_level) [ascii_of_nat (lcode ERROR)] in
      let m := store m (p + off_message_size) (le 8 (N.min (N.of_nat max) size)) in
      let nsize := Nat.min (length name) name_capacity in
      let m := store m (p + off_name_size) (le 8 (N.of_nat nsize)) in
      store m (p + off_name) (firstn nsize name)
  end.

(** The accessors (event.hpp:114-154), reading the object back. *)
Record event := mkEvent {
  e_time : N;
  e_thread_number : N;
  e_thread_name : bytes;
  e_name : bytes;
  e_level_code : N;
  e_message : bytes
}.

Definition view (m : mem) (p : N) : event :=
  {| e_time := unle (load m (p + off_timestamp) 8);
     e_thread_number := unle (load m (p + off_thread_number) 8);
     e_thread_name := load m (p + off_thread_name)
                           (N.to_nat (unle (load m (p + off_thread_name_size) 8)));
     e_name := load m (p + off_name) (N.to_nat (unle (load m (p + off_name_size) 8)));
     e_level_code := N_of_ascii (m (p + off_level));
     e_message := load m (unle (load m (p + off_message_data) 8))
                       (N.to_nat (unle (load m (p + off_message_size) 8))) |}.
