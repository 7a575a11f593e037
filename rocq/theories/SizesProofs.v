(** * The sizes of the sinks (C58) *)
From Coq Require Import String NArith List Arith Bool Lia.
From Verif Require Import Base LevelModel SinkConfig SysModel YamlModel YamlActSpec SizesSpec DeployModel RecordProps.
From Verif Require EventModel RecordModel SinkModel EndModel.
Import ListNotations.
Local Open Scope N_scope.

Theorem sizes_default d z u : sizes_of d = Some z -> used_sizes (d_kind d) = Some u ->
  u_capacity u = given (z_capacity z) (if on_console (d_kind d) then 64 else 2048) /\
  u_message u = given (z_message z) 1024 /\
  u_latency u = given (z_latency z) (if on_console (d_kind d) then 200 else 1000) /\
  (u_message u < 2 ^ 63 -> u_buffer u = N.max (given (z_buffer z) (if on_console (d_kind d) then 131072 else 4194304)) (2 * u_message u)).
Proof.
  unfold sizes_of, used_sizes. destruct (d_kind d); intros Z U; try discriminate; injection Z as ->; injection U as <-; cbn [u_capacity u_message u_latency u_buffer on_console];
    (split; [reflexivity|]; split; [reflexivity|]; split; [reflexivity|]); intros H; apply auto_fix_max; exact H.
Qed.

Theorem sizes_used lt memory address fg_first ds j d u : nth_error ds j = Some d -> used_sizes (d_kind d) = Some u ->
  let C := cfg_at lt memory address fg_first ds (S j) in
  SinkModel.c_kind C = (match d_kind d with KConsole _ _ _ _ => SinkModel.KConsole | KSyslog _ _ _ => SinkModel.KSyslog | _ => SinkModel.KFile end) /\
  SinkModel.c_level C = d_level d /\
  N.of_nat (SinkModel.c_cap C) = u_capacity u /\
  SinkModel.c_lat0 C = (u_latency u =? 0) /\
  SinkModel.c_threshold C = (u_buffer u * 4 mod 2 ^ 64 / 5).
Proof.
  intros E U. cbn zeta. unfold cfg_at. rewrite E. unfold used_sizes in U. destruct (d_kind d); try discriminate; injection U as <-;
    cbn [SinkModel.c_kind SinkModel.c_level SinkModel.c_cap SinkModel.c_lat0 SinkModel.c_threshold u_capacity u_message u_latency u_buffer
         leaf_cfg EndModel.file_sink EndModel.f_level EndModel.f_capacity EndModel.f_lat0 file_settings console_settings];
    unfold EndModel.buff_size, SinkModel.threshold_of; cbn [EndModel.f_max EndModel.f_buffer file_settings console_settings];
    rewrite ?N2Nat.id; repeat split; reflexivity.
Qed.
