(** * What a log line looks like, and how a reader takes it apart

    Independent of the code: written from the documented layout
    "yy.mm.dd HH:MM:SS.uuuuuu  [thread  ]LEVEL     name  message\n". *)

From Coq Require Import Ascii String NArith Arith List Bool.
From Verif Require Import Base LevelModel EventModel RecordModel.
Import ListNotations.

(** Two decimal digits. *)
Definition d2 (n : N) : bytes := [digit (n / 10)%N; digit (n mod 10)%N].

Definition six (n : N) : bytes :=
  [digit (n / 100000 mod 10)%N; digit (n / 10000 mod 10)%N; digit (n / 1000 mod 10)%N;
   digit (n / 100 mod 10)%N; digit (n / 10 mod 10)%N; digit (n mod 10)%N].

Definition tm_ok (t : tm) : Prop :=
  (tm_yy t < 100 /\ tm_mm t < 100 /\ tm_dd t < 100 /\ tm_h t < 100 /\ tm_m t < 100 /\ tm_s t < 100)%N.

Definition datetime_line (t : tm) : bytes :=
  d2 (tm_yy t) ++ ["."%char] ++ d2 (tm_mm t) ++ ["."%char] ++ d2 (tm_dd t) ++ [" "%char] ++
  d2 (tm_h t) ++ [":"%char] ++ d2 (tm_m t) ++ [":"%char] ++ d2 (tm_s t).

(** Thread field without the separator. *)
Definition thread_field (ti : thread_info) (e : ev) : bytes :=
  match ti with
  | TI_NONE => []
  | TI_NAME => pad_right space 15 (v_tname e)
  | TI_ID => bs "T:" ++ pad_right space 6 (dec (v_tnum e))
  end.

Definition thread_part_line (ti : thread_info) (e : ev) : bytes :=
  match ti with TI_NONE => [] | _ => thread_field ti e ++ bs "  " end.

(** Everything up to the newline; [dt] is the date and time. *)
Definition body_at (dt : bytes) (ti : thread_info) (e : ev) : bytes :=
  dt ++ ["."%char] ++
  six (v_time e mod 1000000000 / 1000)%N ++ bs "  " ++
  thread_part_line ti e ++
  pad_right space 8 (levelToStr (v_level e)) ++ bs "  " ++
  v_name e ++ bs "  " ++ v_msg e.

Definition line_body (lt : N -> tm) (ti : thread_info) (e : ev) : bytes :=
  body_at (datetime_line (lt (v_time e / 1000000000)%N)) ti e.

Definition line (lt : N -> tm) (ti : thread_info) (e : ev) : bytes :=
  line_body lt ti e ++ [newline].

(** What the code prints as date and time: nothing but zero bytes for events of
    the very first second of 1970 (see C15). *)
Definition shown_datetime (lt : N -> tm) (e : ev) : bytes :=
  if N.eqb (v_time e / 1000000000) 0 then repeat nul 17
  else datetime_line (lt (v_time e / 1000000000)%N).

Definition shown_line (lt : N -> tm) (ti : thread_info) (e : ev) : bytes :=
  body_at (shown_datetime lt e) ti e ++ [newline].

(** Events the sinks can meet (see C07, C10): name at most 32 bytes, thread name
    at most 15 bytes without zero bytes. *)
Definition ev_ok (e : ev) : Prop :=
  length (v_name e) <= 32 /\ length (v_tname e) <= 15 /\
  Forall (fun b => b <> nul) (v_tname e) /\ (v_tnum e < 2 ^ 64)%N.

(** Removing terminal escape sequences ESC ... m. *)
Fixpoint strip_from (inside : bool) (l : bytes) : bytes :=
  match l with
  | [] => []
  | c :: l' =>
      if inside then strip_from (negb (Ascii.eqb c "m"%char)) l'
      else if Ascii.eqb c esc then strip_from true l' else c :: strip_from false l'
  end.
Definition strip (l : bytes) : bytes := strip_from false l.

(** ** A reader *)

Record parsed := mkParsed {
  p_datetime : bytes; p_usec : N; p_thread : bytes; p_level : option level;
  p_name : bytes; p_msg : bytes
}.

(** Split at the first double space. *)
Fixpoint split2 (l : bytes) : bytes * bytes :=
  match l with
  | [] => ([], [])
  | c :: l' =>
      match l' with
      | d :: l'' => if Ascii.eqb c space && Ascii.eqb d space then ([], l'')
                    else let '(a, b) := split2 l' in (c :: a, b)
      | [] => ([c], [])
      end
  end.

Definition bytes_eqb (a b : bytes) : bool := if list_eq_dec ascii_dec a b then true else false.

Definition read_level (l : bytes) : option level :=
  find (fun x => bytes_eqb (pad_right space 8 (levelToStr x)) l) all_levels.

(** The thread field: 15 bytes for a name; for a number everything up to the two
    spaces that follow at least six positions. *)
Fixpoint digits_of (l : bytes) : bytes :=
  match l with
  | c :: l' => if (N.leb 48 (N_of_ascii c) && N.leb (N_of_ascii c) 57)%bool
               then c :: digits_of l' else []
  | [] => []
  end.

Definition thread_width (ti : thread_info) (l : bytes) : nat :=
  match ti with
  | TI_NONE => 0
  | TI_NAME => 15
  | TI_ID => 2 + Nat.max 6 (length (digits_of (skipn 2 l)))
  end.

Definition parse (ti : thread_info) (l : bytes) : parsed :=
  let rest := skipn 26 l in
  let w := thread_width ti rest in
  let rest2 := skipn (match ti with TI_NONE => 0 | _ => w + 2 end) rest in
  let rest3 := skipn 10 rest2 in
  let '(name, msg) := split2 rest3 in
  {| p_datetime := firstn 17 l;
     p_usec := undec (firstn 6 (skipn 18 l));
     p_thread := firstn w rest;
     p_level := read_level (firstn 8 rest2);
     p_name := name;
     p_msg := firstn (length msg - 1) msg |}.

(** What the reader should get. *)
Definition parts (lt : N -> tm) (ti : thread_info) (e : ev) : parsed :=
  {| p_datetime := datetime_line (lt (v_time e / 1000000000)%N);
     p_usec := (v_time e mod 1000000000 / 1000)%N;
     p_thread := thread_field ti e;
     p_level := Some (v_level e);
     p_name := v_name e;
     p_msg := v_msg e |}.

(** Splitting a file into its lines (a last line without newline is dropped). *)
Fixpoint lines_from (cur : bytes) (l : bytes) : list bytes :=
  match l with
  | [] => []
  | c :: l' => if Ascii.eqb c newline then cur :: lines_from [] l'
               else lines_from (cur ++ [c]) l'
  end.
Definition lines (l : bytes) : list bytes := lines_from [] l.

Definition no_byte (b : byte) (l : bytes) : Prop := ~ In b l.

(** A name with no double space inside and no space at the end. *)
Definition readable_name (n : bytes) : Prop :=
  (forall a b, n <> a ++ [space; space] ++ b) /\ (forall a, n <> a ++ [space]).
