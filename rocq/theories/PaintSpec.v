(** * What a terminal shows for a coloured record

    A terminal that understands ESC [ parameters m (select graphic rendition) with
    the parameters 0 (plain), 1 (bold), 3 (italic) and 38;2;r;g;b (foreground).
    Independent of the code. *)

From Coq Require Import Ascii String NArith Arith List Bool.
From Verif Require Import Base LevelModel EventModel RecordModel RecordSpec.
Import ListNotations.

Record attr := mkAttr { a_color : option (N * N * N); a_bold : bool; a_italic : bool }.
Definition plain_attr : attr := mkAttr None false false.

(** Numbers between semicolons. *)
Fixpoint params (cur l : bytes) : list N :=
  match l with
  | [] => [undec cur]
  | c :: l' => if Ascii.eqb c ";"%char then undec cur :: params [] l' else params (cur ++ [c]) l'
  end.

Definition sgr (p : bytes) (a : attr) : attr :=
  match p with
  | c :: p' =>
      if Ascii.eqb c "["%char then
        match params [] p' with
        | [n] => if N.eqb n 0 then plain_attr
                 else if N.eqb n 1 then mkAttr (a_color a) true (a_italic a)
                 else if N.eqb n 3 then mkAttr (a_color a) (a_bold a) true
                 else a
        | [n; k; r; g; b] =>
            if N.eqb n 38 && N.eqb k 2 then mkAttr (Some (r, g, b)) (a_bold a) (a_italic a) else a
        | _ => a
        end
      else a
  | [] => a
  end.

(** Visible characters with their attributes; [seq]: inside an escape sequence. *)
Fixpoint paint (a : attr) (seq : option bytes) (l : bytes) : list (byte * attr) :=
  match l with
  | [] => []
  | c :: l' =>
      match seq with
      | None => if Ascii.eqb c esc then paint a (Some []) l' else (c, a) :: paint a None l'
      | Some p => if Ascii.eqb c "m"%char then paint (sgr p a) None l' else paint a (Some (p ++ [c])) l'
      end
  end.
Definition screen (l : bytes) : list (byte * attr) := paint plain_attr None l.

Definition in_attr (a : attr) (s : bytes) : list (byte * attr) := map (fun c => (c, a)) s.

(** The colour of each level: brown, red, orange red, orange, forest green, dark
    green, medium blue, gray. *)
Definition rgb (l : level) : N * N * N :=
  match l with
  | OFF => (165, 42, 42)
  | CRITICAL => (255, 0, 0)
  | ERROR => (255, 69, 0)
  | WARN => (255, 165, 0)
  | INFO => (34, 139, 34)
  | VERBOSE => (0, 100, 0)
  | DEBUG => (0, 0, 205)
  | TRACE | IGNORE => (128, 128, 128)
  end%N.

(** Messages: bold up to ERROR, italic from DEBUG on. *)
Definition message_attr (l : level) : attr :=
  match l with
  | OFF | CRITICAL | ERROR => mkAttr None true false
  | WARN | INFO | VERBOSE => plain_attr
  | DEBUG | TRACE | IGNORE => mkAttr None false true
  end.

(** How a record should look. *)
Definition painted (lt : N -> tm) (ti : thread_info) (e : ev) : list (byte * attr) :=
  in_attr plain_attr (shown_datetime lt e) ++
  in_attr (mkAttr (Some (128, 128, 128)%N) false false) ("."%char :: six (v_time e mod 1000000000 / 1000)%N) ++
  in_attr plain_attr (bs "  " ++ thread_part_line ti e) ++
  in_attr (mkAttr (Some (rgb (v_level e))) true false) (pad_right space 8 (levelToStr (v_level e))) ++
  in_attr plain_attr (bs "  ") ++
  in_attr (mkAttr None true false) (v_name e) ++
  in_attr plain_attr (bs "  ") ++
  in_attr (message_attr (v_level e)) (v_msg e) ++
  in_attr plain_attr [newline].

(** A thread name as C strings go: up to the first zero byte, at most 15 bytes. *)
Fixpoint before_nul (s : bytes) : bytes :=
  match s with
  | [] => []
  | c :: s' => if Ascii.eqb c nul then [] else c :: before_nul s'
  end.
Definition shown_thread_name (e : ev) : ev :=
  mkEv (v_time e) (v_tnum e) (firstn 15 (before_nul (v_tname e))) (v_level e) (v_name e) (v_msg e).
