(** * What the syslog daemon should receive *)
From Coq Require Import Ascii String NArith Arith List.
From Verif Require Import Base LevelModel EventModel RecordModel RecordSpec.
Import ListNotations.

(** EMERG 0, ALERT 1, WARNING 4, NOTICE 5, INFO 6, DEBUG 7; other levels are not
    sent. *)
Definition sys_priorities (l : level) : list N :=
  match l with
  | CRITICAL => [0%N] | ERROR => [1%N] | WARN => [4%N]
  | INFO => [5%N] | VERBOSE => [6%N] | DEBUG => [7%N]
  | OFF | TRACE | IGNORE => []
  end.

Definition sys_thread_part (ti : thread_info) (e : ev) : bytes :=
  match ti with
  | TI_NONE => []
  | TI_NAME => v_tname e ++ bs "  "
  | TI_ID => bs "T:" ++ dec (v_tnum e) ++ bs "  "
  end.

(** The text of one event. *)
Definition sys_line (lt : N -> tm) (ti : thread_info) (e : ev) : bytes :=
  datetime_line (lt (v_time e / 1000000000)%N) ++ ["."%char] ++
  six (v_time e mod 1000000000 / 1000)%N ++ bs "  " ++
  sys_thread_part ti e ++ levelToStr (v_level e) ++ bs "  " ++ v_name e ++ bs "  " ++ v_msg e.
