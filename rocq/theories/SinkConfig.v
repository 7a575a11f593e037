(** * Model of the size settings of a sink (include/soralog/sink.hpp:62-81) *)
From Coq Require Import NArith.
Local Open Scope N_scope.

Definition size_t_range : N := 2 ^ 64.

(** "Auto-fix buffer size" (sink.hpp:77-80); the product wraps.  The derived
    classes size [buff_] with the result (sink_to_file.cpp:89,
    sink_to_console.cpp:154, sink_to_syslog.cpp:91). *)
Definition auto_fix (max_message_length max_buffer_size : N) : N :=
  let twice := max_message_length * 2 mod size_t_range in
  if max_buffer_size <? twice then twice else max_buffer_size.

(** Defaults of the file sink (sink_to_file.cpp:84-87; the syslog sink has
    the same, sink_to_syslog.cpp:86-89) and of the console sink
    (sink_to_console.cpp:148-151). *)
Definition file_capacity_default : N := 2048.
Definition file_max_message_default : N := 1024.
Definition file_buffer_default : N := 4194304.
Definition file_latency_default : N := 1000.
Definition console_capacity_default : N := 64.
Definition console_max_message_default : N := 1024.
Definition console_buffer_default : N := 131072.
Definition console_latency_default : N := 200.
