(** * What can be read in a log file (C95) *)

From Coq Require Import Ascii String NArith List.
From Verif Require Import Base LevelModel EventModel RecordModel RecordSpec PaintSpec EndModel.
Import ListNotations.

(** What a call logs: its text, or a complaint about the format. *)
Definition says_text (e : logged) : bytes :=
  match g_result e with
  | FmtOk t => t
  | FmtThrow _ what => bs "Format error: " ++ what ++ bs "; Format: " ++ g_format e
  end.
Definition says_level (e : logged) : level :=
  match g_result e with FmtOk _ => g_level e | FmtThrow _ _ => ERROR end.
Definition says_name (e : logged) : bytes :=
  match g_result e with FmtOk _ => g_name e | FmtThrow _ _ => bs "Soralog" end.

(** The thread, as the reader sees it. *)
Definition says_thread (ti : thread_info) (e : logged) : bytes :=
  match ti with
  | TI_NONE => []
  | TI_NAME => pad_right space 15 (firstn 15 (before_nul (g_tname e)))
  | TI_ID => bs "T:" ++ pad_right space 6 (dec (g_tnum e))
  end.

(** What the reader of the line gets: date and time, microseconds, thread, level, name (32
    bytes) and message (up to the limit). *)
Definition reads (F : fsettings) (e : logged) : parsed :=
  {| p_datetime := datetime_line (f_localtime F (g_time e / 1000000000)%N);
     p_usec := (g_time e mod 1000000000 / 1000)%N;
     p_thread := says_thread (f_thread F) e;
     p_level := Some (says_level e);
     p_name := firstn 32 (says_name e);
     p_msg := firstn (f_max F) (says_text e) |}.

(** What is in a file: every complete line, taken apart. *)
Definition read_file (F : fsettings) (file : bytes) : list parsed :=
  map (fun l => parse (f_thread F) (l ++ [newline])) (lines file).

(** Settings that occur: a buffer with room for a line (so it is for all sizes that can be
    configured in a document, and for all message limits from 95 on); an address; local times
    of two digits. *)
Definition settings_ok (F : fsettings) : Prop :=
  (N.of_nat (f_max F) + 95 <= N.max (f_buffer F) (2 * N.of_nat (f_max F)))%N /\ (N.of_nat (f_max F) < 2 ^ 63)%N /\
  (f_address F + sizeof_Event < 2 ^ 64)%N /\ (forall s, tm_ok (f_localtime F s)) /\
  1 <= f_capacity F.

(** Calls that occur: a time after the first second of 1970, a thread name in its array, a
    thread number. *)
Definition call_ok (e : logged) : Prop :=
  (1000000000 <= g_time e)%N /\ (g_time e < 2 ^ 64)%N /\ length (g_tname e) = 16 /\
  (g_tnum e < 2 ^ 64)%N.

(** Texts on one line, and a name without double spaces (nor a space at its end). *)
Definition legible (e : logged) : Prop :=
  no_byte newline (before_nul (g_tname e)) /\ no_byte newline (says_name e) /\
  no_byte newline (says_text e) /\ readable_name (firstn 32 (says_name e)).
