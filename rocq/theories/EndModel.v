(** * A file sink from the logging call to the file
      (include/soralog/sink.hpp:116-155, include/soralog/event.hpp:46-154,
      src/impl/sink_to_file.cpp:75-277)

    [SinkModel] and [FullModel] leave open what an event is and how it is rendered.  Here an
    event is what a call hands to the constructor of Event, the queue holds the object it
    builds, and flush() renders what the accessors of that object return. *)

From Coq Require Import Ascii String NArith List.
From Verif Require Import Base LevelModel EventModel RecordModel SinkConfig SinkModel.
Import ListNotations.

(** What is known when the constructor runs (event.hpp:46-112). *)
Record logged := mkLogged {
  g_time : N;             (* the clock, nanoseconds *)
  g_tname : bytes;        (* util::getThreadName: 16 bytes *)
  g_tnum : N;             (* util::getThreadNumber *)
  g_level : level;
  g_name : bytes;         (* of the logger *)
  g_result : fmt_result;  (* what formatting does *)
  g_format : bytes        (* the format *)
}.

(** Settings of the sink (sink.hpp:62-81). *)
Record fsettings := mkFs {
  f_level : level;
  f_thread : thread_info;
  f_capacity : nat;
  f_max : nat;            (* max_message_length_ *)
  f_buffer : N;           (* the buffer size asked for *)
  f_lat0 : bool;          (* latency 0 *)
  f_localtime : N -> tm;  (* fmt::localtime *)
  f_memory : mem;         (* what is in the slot before; its address *)
  f_address : N
}.

(** The object the constructor builds, as the accessors show it (event.hpp:46-154). *)
Definition stored (F : fsettings) (e : logged) : event :=
  view (construct (f_memory F) (f_address F) (g_name e) (f_thread F) (g_level e) (f_max F)
          (g_time e) (g_tname e) (g_tnum e) (g_result e) (g_format e)) (f_address F).

(** buff_.size() (sink.hpp:77-81, sink_to_file.cpp:89). *)
Definition buff_size (F : fsettings) : N := auto_fix (N.of_nat (f_max F)) (f_buffer F).

(** What one round of flush() hands to out_.write (sink_to_file.cpp:136-207); [None]: it
    wrote past the end of buff_, or the level is no level. *)
Definition rendered (F : fsettings) (e : logged) : option bytes :=
  match to_ev (stored F e) with
  | Some v => file_format (N.to_nat (buff_size F)) (f_localtime F) (f_thread F) v
  | None => None
  end.

(** The sink: size_ counts the stored messages (sink.hpp:136, sink_to_file.cpp:201). *)
Definition file_sink (F : fsettings) : cfg logged :=
  mkCfg KFile (f_capacity F) (f_lat0 F) (threshold_of (buff_size F)) (f_level F)
    (fun e => N.of_nat (List.length (e_message (stored F e))))
    (fun e => match rendered F e with Some t => t | None => [] end).
