(** * Model of how the message of a logging call is put together
      (logger.hpp:69-185, macro.hpp:23-128, event.hpp:90-107)

    What a logging call is given first can be a value or a format; which of the two depends
    on the overload the compiler chooses (methods) or on the entry point (macros).

    Simplifications:
    - Of fmt, formatting without arguments and with the format "{}" is modelled; all other
      formatting is a parameter.
    - A null pointer as C string is not modelled. *)

From Coq Require Import Ascii String List Bool.
From Verif Require Import Base EventModel UtilModel.
Import ListNotations.

(** An expression given to a logging call, by its type. *)
Inductive arg :=
| TArray (l : bytes)      (* char[N], a literal or not: its N bytes *)
| TPointer (l : bytes)    (* const char *: the bytes before the first zero *)
| TString (l : bytes)     (* std::string *)
| TView (l : bytes)       (* std::string_view *)
| TValue (t : bytes).     (* something else, which "{}" prints as [t] *)

(** What "{}" prints for it; arrays of characters and pointers are C strings. *)
Definition printed (a : arg) : bytes :=
  match a with
  | TArray l => c_str l
  | TPointer l | TString l | TView l | TValue l => l
  end.

(** Conversion to std::string_view; an array decays to a pointer first. *)
Definition as_view (a : arg) : option bytes :=
  match a with
  | TArray l => Some (c_str l)
  | TPointer l | TString l | TView l => Some l
  | TValue _ => None
  end.

(** fmt::detail_exported::compile_string_to_view<char> (event.hpp:94): of an array all bytes
    but a zero at its end. *)
Definition as_format (a : arg) : option bytes :=
  match a with
  | TArray l => Some (match rev l with
                      | c :: l' => if Ascii.eqb c nul then rev l' else l
                      | [] => l
                      end)
  | TPointer l | TString l | TView l => Some l
  | TValue _ => None
  end.

(** Format and arguments handed to Logger::push; [None]: it does not compile. *)
Definition request := option (bytes * list arg).

(** trace(...), ..., critical(...) (logger.hpp:77-185): two templates for each.  With further
    arguments only (std::string_view format, const Args &...args) is viable.  With one
    argument (const Arg &arg) is the better match, except for a std::string_view: then both
    match exactly, and the former is the more specialized one. *)
Definition method_request (a : arg) (args : list arg) : request :=
  match args with
  | [] => match a with
          | TView l => Some (l, [])
          | _ => Some (bs "{}", [a])
          end
  | _ => match as_view a with Some f => Some (f, args) | None => None end
  end.

(** log(level, format, args...) (logger.hpp:69-72), called by all macros (macro.hpp:28). *)
Definition log_request (a : arg) (args : list arg) : request :=
  match as_format a with Some f => Some (f, args) | None => None end.

Definition lbrace : byte := "{"%char.
Definition rbrace : byte := "}"%char.

Section Fmt.
Variable what : bytes -> bytes.                          (* text of the exception *)
Variable general : bytes -> list arg -> fmt_result.      (* the rest of fmt *)

(** Formatting without arguments: doubled braces give one; any other brace is an error,
    since a replacement field has no argument to refer to. *)
Fixpoint plain (whole f out : bytes) : fmt_result :=
  match f with
  | [] => FmtOk out
  | c :: r =>
      if Ascii.eqb c lbrace then
        match r with
        | d :: r' => if Ascii.eqb d lbrace then plain whole r' (out ++ [lbrace]) else FmtThrow out (what whole)
        | [] => FmtThrow out (what whole)
        end
      else if Ascii.eqb c rbrace then
        match r with
        | d :: r' => if Ascii.eqb d rbrace then plain whole r' (out ++ [rbrace]) else FmtThrow out (what whole)
        | [] => FmtThrow out (what whole)
        end
      else plain whole r (out ++ [c])
  end.

(** fmt::vformat_to_n (event.hpp:91-96), the text before it is cut. *)
Definition vformat (f : bytes) (args : list arg) : fmt_result :=
  match args with
  | [] => plain f f []
  | a :: _ => if list_eq_dec Ascii.ascii_dec f (bs "{}") then FmtOk (printed a) else general f args
  end.

Definition formatted (r : request) : option fmt_result :=
  match r with Some (f, args) => Some (vformat f args) | None => None end.

End Fmt.
