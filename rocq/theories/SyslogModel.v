(** * Model of SinkToSyslog: text, priorities, exclusivity
      (src/impl/sink_to_syslog.cpp)

    One call of flush() handles every event it finds.  [es] is the sequence of
    events the call gets from the queue (get() hands out one after the other,
    also those pushed while the call runs).  Stores beyond [buff_] are undefined
    behaviour ([None]). *)

From Coq Require Import Ascii String NArith Arith List Bool.
From Verif Require Import Base LevelModel EventModel RecordModel.
Import ListNotations.

(** put_level (sink_to_syslog.cpp:34-40): not padded. *)
Definition sys_put_level (cap : nat) (l : level) (out : bytes) : option bytes :=
  raw cap out (levelToStr l).

(** Thread part (sink_to_syslog.cpp:176-191): not padded. *)
Definition sys_put_thread (cap : nat) (ti : thread_info) (e : ev) (out : bytes) : option bytes :=
  match ti with
  | TI_NAME => raw cap out (v_tname e) >>= fun o => raw cap o separator
  | TI_ID => fmtn cap out (bs "T:" ++ dec (v_tnum e)) >>= fun o => raw cap o separator
  | TI_NONE => Some out
  end.

(** Formatting of one event behind what is already in the buffer: [ptr] is set to
    the beginning once per call (line 136), not once per event
    (sink_to_syslog.cpp:146-206).  Result: new psec/datetime, buffer up to ptr. *)
Definition sys_record (cap : nat) (lt : N -> tm) (ti : thread_info) (st : stamp_state)
    (out : bytes) (e : ev) : option (stamp_state * bytes) :=
  let st' := stamp lt st (sec_of (v_time e)) in
  match
    raw cap out (snd st') >>= fun o =>
    fmtn cap o (bs "." ++ pad_left "0"%char 6 (dec (usec_of (v_time e)))) >>= fun o =>
    raw cap o separator >>= fun o =>
    sys_put_thread cap ti e o >>= fun o =>
    sys_put_level cap (v_level e) o >>= fun o =>
    raw cap o separator >>= fun o =>
    raw cap o (v_name e) >>= fun o =>
    raw cap o separator >>= fun o =>
    raw cap o (v_msg e) >>= fun o =>
    raw cap o [nul]
  with
  | Some o => Some (st', o)
  | None => None
  end.

(** Priorities of <syslog.h>. *)
Definition LOG_EMERG : N := 0.
Definition LOG_ALERT : N := 1.
Definition LOG_WARNING : N := 4.
Definition LOG_NOTICE : N := 5.
Definition LOG_INFO : N := 6.
Definition LOG_DEBUG : N := 7.

(** The switch (sink_to_syslog.cpp:208-237); [None]: must_log is false. *)
Definition priority (l : level) : option N :=
  match l with
  | OFF => None
  | CRITICAL => Some LOG_EMERG
  | ERROR => Some LOG_ALERT
  | WARN => Some LOG_WARNING
  | INFO => Some LOG_NOTICE
  | VERBOSE => Some LOG_INFO
  | DEBUG => Some LOG_DEBUG
  | TRACE => None
  | IGNORE => None
  end.

(** The C string at the beginning of the buffer, as "%s" prints it (line 241). *)
Fixpoint c_string (l : bytes) : bytes :=
  match l with
  | [] => []
  | b :: l' => if Ascii.eqb b nul then [] else b :: c_string l'
  end.

(** The loop of flush() (sink_to_syslog.cpp:142-253): the messages given to
    syslog(3), oldest first. *)
Fixpoint sys_loop (cap : nat) (lt : N -> tm) (ti : thread_info) (st : stamp_state)
    (out : bytes) (es : list ev) : option (list (N * bytes)) :=
  match es with
  | [] => Some []
  | e :: es' =>
      match sys_record cap lt ti st out e with
      | None => None
      | Some (st', out') =>
          match sys_loop cap lt ti st' out' es' with
          | None => None
          | Some sent =>
              match priority (v_level e) with
              | Some p => Some ((p, c_string out') :: sent)
              | None => Some sent
              end
          end
      end
  end.

Definition sys_flush (cap : nat) (lt : N -> tm) (ti : thread_info) (es : list ev)
    : option (list (N * bytes)) :=
  sys_loop cap lt ti stamp_init [] es.

(** ** The process-wide flag syslog_is_opened_ (sink_to_syslog.cpp:73) *)

Inductive sys_op :=
| SNew        (* constructor *)
| SDelete.    (* destructor of the oldest live sink *)

Record sys_state := mkSys {
  sy_flag : bool;      (* syslog_is_opened_ *)
  sy_open : bool;      (* between openlog() and closelog() *)
  sy_live : nat        (* live sinks *)
}.

Definition sys_init : sys_state := mkSys false false 0.

Inductive sys_out := SOk | SThrow | SNothing.

(** Constructor (sink_to_syslog.cpp:92-98), destructor (lines 105-118; line 117
    stores [true]). *)
Definition sys_step (s : sys_state) (o : sys_op) : sys_state * sys_out :=
  match o with
  | SNew => if sy_flag s then (s, SThrow)
            else (mkSys true true (S (sy_live s)), SOk)
  | SDelete => match sy_live s with
               | O => (s, SNothing)
               | S n => (mkSys true false n, SOk)
               end
  end.

Fixpoint sys_run (s : sys_state) (l : list sys_op) : sys_state * list sys_out :=
  match l with
  | [] => (s, [])
  | o :: l' => let '(s1, r) := sys_step s o in
               let '(s2, rs) := sys_run s1 l' in (s2, r :: rs)
  end.
