(** * Property C58, continued: the sizes a sink works with

    [used_sizes]: what the constructors make of the sizes they are given; [given o x]: [x] unless
    something was given; [cfg_at ... (S j)]: the settings with which sink number [S j] of a system
    runs in the executions of C117, C121 and C126. *)

From Coq Require Import Ascii String NArith Arith List Bool Lia.
From Verif Require Import Base LevelModel SinkConfig SysModel YamlModel YamlActSpec SizesSpec DeployModel SizesProofs.
From Verif Require EventModel RecordModel SinkModel EndModel.
Import ListNotations.
Local Open Scope N_scope.

(** What is not given is the default: 2048 events, messages of 1024 bytes, a buffer of 4 MiB and a
    second for files and syslog; 64 events, 1024 bytes, 128 KiB and 200 ms on a console.  A buffer
    in which two messages have no place is enlarged. *)
Theorem C58_defaults :
  forall d z u, sizes_of d = Some z -> used_sizes (d_kind d) = Some u ->
  u_capacity u = given (z_capacity z) (if on_console (d_kind d) then 64 else 2048) /\
  u_message u = given (z_message z) 1024 /\
  u_latency u = given (z_latency z) (if on_console (d_kind d) then 200 else 1000) /\
  (u_message u < 2 ^ 63 ->
     u_buffer u = N.max (given (z_buffer z) (if on_console (d_kind d) then 131072 else 4194304)) (2 * u_message u)).
Proof. exact sizes_default. Qed.
Print Assumptions C58_defaults.

(** With these the sinks work: as many events are queued, a zero latency means no worker, and the
    worker is woken from four fifths of the buffer on. *)
Theorem C58_in_use :
  forall lt memory address fg_first ds j d u, nth_error ds j = Some d -> used_sizes (d_kind d) = Some u ->
  let C := cfg_at lt memory address fg_first ds (S j) in
  SinkModel.c_kind C = (match d_kind d with KConsole _ _ _ _ => SinkModel.KConsole | KSyslog _ _ _ => SinkModel.KSyslog | _ => SinkModel.KFile end) /\
  SinkModel.c_level C = d_level d /\
  N.of_nat (SinkModel.c_cap C) = u_capacity u /\
  SinkModel.c_lat0 C = (u_latency u =? 0) /\
  SinkModel.c_threshold C = (u_buffer u * 4 mod 2 ^ 64 / 5).
Proof. exact sizes_used. Qed.
Print Assumptions C58_in_use.

(** A console sink with a message length of its own that its default buffer cannot hold twice. *)
Definition big_messages : sink_desc :=
  mkDesc "c" INFO (KConsole STDOUT true EventModel.TI_NONE (mkSizes None (Some 100000) None None)).
Example C58_defaults_nonvacuous :
  used_sizes (d_kind big_messages) = Some (mkUsed 64 100000 200000 200) /\
  let C := cfg_at (fun _ => RecordModel.mkTm 24 2 29 12 0 0) (fun _ => "x"%char) 4096 true [big_messages] 1 in
  SinkModel.c_cap C = 64%nat /\ SinkModel.c_lat0 C = false /\ SinkModel.c_threshold C = 160000.
Proof. vm_compute. repeat split. Qed.
