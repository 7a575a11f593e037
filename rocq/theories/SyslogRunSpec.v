(** * What the syslog daemon receives in the course of an execution (C118) *)

From Coq Require Import Ascii String NArith List.
From Verif Require Import Base LevelModel EventModel RecordModel RecordSpec PaintSpec SyslogSpec SinkModel SinkSpec EndModel EndSpec.
Import ListNotations.

(** The text of a call: date, time, thread, level, name (32 bytes) and message (up to the limit). *)
Definition tells_thread (ti : thread_info) (e : logged) : bytes :=
  match ti with
  | TI_NONE => []
  | TI_NAME => firstn 15 (before_nul (g_tname e)) ++ bs "  "
  | TI_ID => bs "T:" ++ dec (g_tnum e) ++ bs "  "
  end.
Definition tells (F : fsettings) (e : logged) : bytes :=
  datetime_line (f_localtime F (g_time e / 1000000000)%N) ++ ["."%char] ++
  six (g_time e mod 1000000000 / 1000)%N ++ bs "  " ++ tells_thread (f_thread F) e ++
  levelToStr (says_level e) ++ bs "  " ++ firstn 32 (says_name e) ++ bs "  " ++ firstn (f_max F) (says_text e).

(** The priority of a call, if it is sent at all. *)
Definition urgency (e : logged) : list N := sys_priorities (says_level e).

(** The daemon gets a C string. *)
Definition sendable (F : fsettings) (e : logged) : Prop := call_ok e /\ no_byte nul (tells F e).

Section Spec.
Context {E : Type}.
(** What lies between the beginning of one flush() and that of the next. *)
Definition is_lock (x : label E) : bool := match x with LLock _ => true | _ => false end.
(** [between ls part]: [part] is a stretch of [ls] from a beginning (of a flush(), or of the
    execution) up to the next one, or the end of [ls]. *)
Definition between (ls part : list (label E)) : Prop :=
  exists a b, ls = a ++ part ++ b /\ forallb (fun x => negb (is_lock x)) part = true /\
    (a = [] \/ exists a' t, a = a' ++ [LLock t]) /\ (b = [] \/ exists t b', b = LLock t :: b').
End Spec.
