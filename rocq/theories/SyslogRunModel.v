(** * A syslog sink in use (src/impl/sink_to_syslog.cpp:75-282)

    Joins SinkModel (threads, queue, worker), EventModel and EndModel (what a call stores) and
    SyslogModel (the text one flush() gives to syslog(3)).  An execution of the sink shows the
    events each flush() takes from the queue; the messages follow from these.

    Simplification: the call of syslog(3) and the subtraction from size_ after it
    (sink_to_syslog.cpp:239-244) are one step, as in SinkModel. *)

From Coq Require Import Ascii String NArith List.
From Verif Require Import Base LevelModel EventModel RecordModel SinkConfig SinkModel SinkSpec EndModel SyslogModel.
Import ListNotations.

Section Run.
Context {E : Type}.
Variable call : E -> logged.       (* what an event is made of *)
Variable F : fsettings.

(** The sink (sink_to_syslog.cpp:75-103); [c_render] is not used, the messages are below. *)
Definition syslog_sink : cfg E :=
  mkCfg KSyslog (f_capacity F) (f_lat0 F) (threshold_of (buff_size F)) (f_level F)
    (fun e => N.of_nat (List.length (e_message (stored F (call e))))) (fun _ => []).

(** What the accessors of the queued objects return (event.hpp:114-154). *)
Fixpoint evs (es : list E) : option (list ev) :=
  match es with
  | [] => Some []
  | e :: es' =>
      match to_ev (stored F (call e)), evs es' with
      | Some v, Some vs => Some (v :: vs)
      | _, _ => None
      end
  end.

(** The messages of one flush() that took [es] (sink_to_syslog.cpp:129-253); [None]: it wrote
    past the end of buff_. *)
Definition sent_in (es : list E) : option (list (N * bytes)) :=
  match evs es with
  | Some vs => sys_flush (N.to_nat (buff_size F)) (f_localtime F) (f_thread F) vs
  | None => None
  end.

(** The execution, cut where a flush() begins its work (sink_to_syslog.cpp:130). *)
Fixpoint cut (part : list (label E)) (ls : list (label E)) : list (list (label E)) :=
  match ls with
  | [] => [part]
  | LLock _ :: ls' => part :: cut [] ls'
  | x :: ls' => cut (part ++ [x]) ls'
  end.
Definition flushes (ls : list (label E)) : list (list E) := map (@written E) (cut [] ls).

(** All messages so far. *)
Fixpoint all_sent (fs : list (list E)) : option (list (N * bytes)) :=
  match fs with
  | [] => Some []
  | es :: fs' =>
      match sent_in es, all_sent fs' with
      | Some a, Some b => Some (a ++ b)
      | _, _ => None
      end
  end.
Definition received (ls : list (label E)) : option (list (N * bytes)) := all_sent (flushes ls).
End Run.
