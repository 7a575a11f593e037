(** * Model of include/soralog/level.hpp *)

From Coq Require Import Ascii String NArith List.
From Verif Require Import Base.
Import ListNotations.

(** enum class Level (level.hpp:19-29). *)
Inductive level :=
| OFF | CRITICAL | ERROR | WARN | INFO | VERBOSE | DEBUG | TRACE | IGNORE.

(** Underlying values (level.hpp:20-28). *)
Definition lcode (l : level) : nat :=
  match l with
  | OFF => 0 | CRITICAL => 1 | ERROR => 2 | WARN => 3 | INFO => 4
  | VERBOSE => 5 | DEBUG => 6 | TRACE => 7 | IGNORE => 8
  end.

(** Relational operators on the enum compare the underlying values. *)
Definition lle (a b : level) : bool := Nat.leb (lcode a) (lcode b).
Definition llt (a b : level) : bool := Nat.ltb (lcode a) (lcode b).
Definition leqb (a b : level) : bool := Nat.eqb (lcode a) (lcode b).

(** level_to_str_map / levelToStr (level.hpp:32-45, 59-62). *)
Definition levelToStr (l : level) : bytes :=
  match l with
  | OFF => bs "?Off"
  | CRITICAL => bs "Critical"
  | ERROR => bs "Error"
  | WARN => bs "Warning"
  | INFO => bs "Info"
  | VERBOSE => bs "Verbose"
  | DEBUG => bs "Debug"
  | TRACE => bs "Trace"
  | IGNORE => bs "?Ignore"
  end.

(** levelToChar (level.hpp:51-54): the first character of the name. *)
Definition levelToChar (l : level) : byte := hd nul (levelToStr l).
