(** * Model of the formatting half of flush()
      (src/impl/sink_to_file.cpp, src/impl/sink_to_console.cpp)

    A call of flush() of these sinks formats at most one event into [buff_]
    (the loop always ends after one round).  Plain stores through [ptr] beyond
    the end of [buff_] are undefined behaviour ([None]); fmt::format_to_n cuts.

    Parameters: [lt] is fmt::localtime (tm_year % 100, tm_mon + 1, ... already
    taken).  Time stamps are nanoseconds since the epoch, not negative. *)

From Coq Require Import Ascii String NArith Arith List Bool.
From Verif Require Import Base LevelModel EventModel.
Import ListNotations.

(** An event as the accessors show it (event.hpp:114-154), level decoded. *)
Record ev := mkEv {
  v_time : N;
  v_tnum : N;
  v_tname : bytes;
  v_level : level;
  v_name : bytes;
  v_msg : bytes
}.

Definition all_levels : list level :=
  [OFF; CRITICAL; ERROR; WARN; INFO; VERBOSE; DEBUG; TRACE; IGNORE].

Definition level_of_code (n : N) : option level :=
  find (fun l => N.eqb (N.of_nat (lcode l)) n) all_levels.

Definition to_ev (e : event) : option ev :=
  match level_of_code (e_level_code e) with
  | Some l => Some (mkEv (e_time e) (e_thread_number e) (e_thread_name e) l (e_name e) (e_message e))
  | None => None
  end.

(** Broken-down local time: the six numbers printed. *)
Record tm := mkTm { tm_yy : N; tm_mm : N; tm_dd : N; tm_h : N; tm_m : N; tm_s : N }.

(** "{:0>2}.{:0>2}.{:0>2} {:0>2}:{:0>2}:{:0>2}" (sink_to_file.cpp:145-153,
    sink_to_console.cpp:206-214, sink_to_syslog.cpp:153-161). *)
Definition two (n : N) : bytes := pad_left "0"%char 2 (dec n).
Definition datetime_format (t : tm) : bytes :=
  two (tm_yy t) ++ bs "." ++ two (tm_mm t) ++ bs "." ++ two (tm_dd t) ++ bs " " ++
  two (tm_h t) ++ bs ":" ++ two (tm_m t) ++ bs ":" ++ two (tm_s t).

Definition sec_of (time : N) : N := (time / 1000000000)%N.
Definition usec_of (time : N) : N := (time mod 1000000000 / 1000)%N.

(** State of the local variables psec and datetime (sink_to_file.cpp:130-132). *)
Definition stamp_state := (N * bytes)%type.
Definition stamp_init : stamp_state := (0%N, repeat nul 17).

(** [if (psec != sec) ...] (sink_to_file.cpp:143-155, sink_to_console.cpp:204-216,
    sink_to_syslog.cpp:151-163). *)
Definition stamp (lt : N -> tm) (st : stamp_state) (sec : N) : stamp_state :=
  if N.eqb (fst st) sec then st
  else (sec, firstn 17 (datetime_format (lt sec)) ++ skipn (length (datetime_format (lt sec))) (snd st)).

(** Stores through [ptr]; [out] is what is between begin and ptr. *)
Definition raw (cap : nat) (out l : bytes) : option bytes :=
  if Nat.leb (length out + length l) cap then Some (out ++ l) else None.

(** fmt::format_to_n(ptr, end - ptr, ...).out. *)
Definition fmtn (cap : nat) (out l : bytes) : option bytes :=
  Some (out ++ firstn (cap - length out) l).

Definition bind (x : option bytes) (f : bytes -> option bytes) : option bytes :=
  match x with Some o => f o | None => None end.
Notation "x >>= f" := (bind x f) (at level 50, left associativity).

(** separator (sink_to_file.cpp:24-30, sink_to_console.cpp:24-27, 89-93). *)
Definition separator : bytes := bs "  ".

(** put_level (sink_to_file.cpp:32-41, sink_to_console.cpp:95-104). *)
Definition put_level (cap : nat) (l : level) (out : bytes) : option bytes :=
  raw cap out (levelToStr l) >>= fun o => raw cap o (repeat space (8 - length (levelToStr l))).

(** put_string with width (sink_to_file.cpp:54-69, sink_to_console.cpp:117-132). *)
Fixpoint width_text (s : bytes) (width : nat) : bytes :=
  match s, width with
  | c :: s', S w' => if Ascii.eqb c nul then repeat space width else c :: width_text s' w'
  | _, _ => repeat space width
  end.

(** Thread part (sink_to_file.cpp:168-183, sink_to_console.cpp:243-258). *)
Definition put_thread (cap : nat) (ti : thread_info) (e : ev) (out : bytes) : option bytes :=
  match ti with
  | TI_NAME => raw cap out (width_text (v_tname e) 15) >>= fun o => raw cap o separator
  | TI_ID => fmtn cap out (bs "T:" ++ pad_right space 6 (dec (v_tnum e))) >>= fun o =>
             raw cap o separator
  | TI_NONE => Some out
  end.

(** Body of SinkToFile::flush (sink_to_file.cpp:136-202) for one event; [cap] is
    buff_.size(). *)
Definition file_format (cap : nat) (lt : N -> tm) (ti : thread_info) (e : ev) : option bytes :=
  let '(_, datetime) := stamp lt stamp_init (sec_of (v_time e)) in
  raw cap [] datetime >>= fun o =>
  fmtn cap o (bs "." ++ pad_left "0"%char 6 (dec (usec_of (v_time e)))) >>= fun o =>
  raw cap o separator >>= fun o =>
  put_thread cap ti e o >>= fun o =>
  put_level cap (v_level e) o >>= fun o =>
  raw cap o separator >>= fun o =>
  raw cap o (v_name e) >>= fun o =>
  raw cap o separator >>= fun o =>
  raw cap o (v_msg e) >>= fun o =>
  raw cap o [newline].

(** Escape sequences.  fmt's make_foreground_color gives ESC [38;2;RRR;GGG;BBBm,
    make_emphasis ESC [1m (bold) and ESC [3m (italic); reset_color is
    sink_to_console.cpp:29-30. *)
Definition escape (s : string) : bytes := esc :: bs s.
Definition reset_color : bytes := escape "[0m".
Definition bold : bytes := escape "[1m".
Definition italic : bytes := escape "[3m".
Definition gray : bytes := escape "[38;2;128;128;128m".

(** level_to_color_map (sink_to_console.cpp:32-42): no entry for IGNORE. *)
Definition level_color (l : level) : option bytes :=
  match l with
  | OFF => Some (escape "[38;2;165;042;042m")
  | CRITICAL => Some (escape "[38;2;255;000;000m")
  | ERROR => Some (escape "[38;2;255;069;000m")
  | WARN => Some (escape "[38;2;255;165;000m")
  | INFO => Some (escape "[38;2;034;139;034m")
  | VERBOSE => Some (escape "[38;2;000;100;000m")
  | DEBUG => Some (escape "[38;2;000;000;205m")
  | TRACE => Some gray
  | IGNORE => None
  end.

(** [if (with_color_) ...] *)
Definition styled (with_color : bool) (cap : nat) (style : bytes) (out : bytes) : option bytes :=
  if with_color then raw cap out style else Some out.

(** put_level_style (sink_to_console.cpp:68-74).  The two styles are arguments of
    one call (line 59), so C++ leaves their order open: [fg_first]. *)
Definition put_level_style (with_color fg_first : bool) (cap : nat) (l : level) (out : bytes)
    : option bytes :=
  if with_color then
    match level_color l with
    | None => None
    | Some c => if fg_first then raw cap out c >>= fun o => raw cap o bold
                else raw cap out bold >>= fun o => raw cap o c
    end
  else Some out.

(** put_text_style (sink_to_console.cpp:80-87). *)
Definition text_style (l : level) : bytes :=
  if lle l ERROR then bold else if lle DEBUG l then italic else [].

(** Body of SinkToConsole::flush (sink_to_console.cpp:197-298) for one event. *)
Definition console_format (with_color fg_first : bool) (cap : nat) (lt : N -> tm)
    (ti : thread_info) (e : ev) : option bytes :=
  let '(_, datetime) := stamp lt stamp_init (sec_of (v_time e)) in
  raw cap [] datetime >>= fun o =>
  styled with_color cap gray o >>= fun o =>
  fmtn cap o (bs "." ++ pad_left "0"%char 6 (dec (usec_of (v_time e)))) >>= fun o =>
  styled with_color cap reset_color o >>= fun o =>
  raw cap o separator >>= fun o =>
  put_thread cap ti e o >>= fun o =>
  put_level_style with_color fg_first cap (v_level e) o >>= fun o =>
  put_level cap (v_level e) o >>= fun o =>
  styled with_color cap reset_color o >>= fun o =>
  raw cap o separator >>= fun o =>
  styled with_color cap bold o >>= fun o =>
  raw cap o (v_name e) >>= fun o =>
  styled with_color cap reset_color o >>= fun o =>
  raw cap o separator >>= fun o =>
  styled with_color cap (text_style (v_level e)) o >>= fun o =>
  raw cap o (v_msg e) >>= fun o =>
  styled with_color cap reset_color o >>= fun o =>
  raw cap o [newline].
