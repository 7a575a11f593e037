(** * Bytes, decimal numbers and small list helpers (no code of the repository) *)

From Coq Require Import Ascii String NArith Arith List.
Import ListNotations.

Definition byte := ascii.
Definition bytes := list ascii.

(** The bytes of a literal. *)
Definition bs (s : string) : bytes := list_ascii_of_string s.

Definition nul : byte := ascii_of_nat 0.
Definition newline : byte := ascii_of_nat 10.
Definition esc : byte := ascii_of_nat 27.
Definition space : byte := " "%char.

(** Decimal digits of a number, as std::to_string or fmt's "{}" print it. *)
Definition digit (n : N) : byte := ascii_of_N (48 + n).

Fixpoint dec_fuel (f : nat) (n : N) : bytes :=
  match f with
  | O => []
  | S f' => if N.ltb n 10 then [digit n]
            else dec_fuel f' (n / 10)%N ++ [digit (n mod 10)%N]
  end.

Definition dec (n : N) : bytes := dec_fuel (S (N.size_nat n)) n.

(** Reading decimal digits back. *)
Definition undec (l : bytes) : N :=
  fold_left (fun a c => (10 * a + (N_of_ascii c - 48))%N) l 0%N.

(** Padding to a width, as fmt's "{:0>w}" (left) and "{:<w}" (right). *)
Definition pad_left (c : byte) (w : nat) (s : bytes) : bytes :=
  repeat c (w - length s) ++ s.
Definition pad_right (c : byte) (w : nat) (s : bytes) : bytes :=
  s ++ repeat c (w - length s).
