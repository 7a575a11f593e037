(** * Properties C15 (syslog), C16, C17, C36

    [sys_flush cap lt ti es] is the list of messages (priority, text) one call
    of flush() passes to syslog(3) if it finds the events [es] in the queue;
    [None] if it writes past its buffer of [cap] bytes. *)

From Coq Require Import Ascii String NArith Arith List Lia.
From Verif Require Import Base LevelModel EventModel RecordModel RecordSpec
  SyslogModel SyslogSpec SyslogProofs SyslogWitness.
Import ListNotations.

(** ** C16 *)
Theorem C16_priorities :
  forall cap lt ti es sent, sys_flush cap lt ti es = Some sent ->
    map fst sent = flat_map (fun e => sys_priorities (v_level e)) es.
Proof. exact flush_priorities. Qed.
Print Assumptions C16_priorities.

Definition ex_lt (s : N) : tm := mkTm 24 2 29 12 (s / 60 mod 60) (s mod 60).
Definition ex_ev l m : ev := mkEv 1709209055123456789 7 (bs "main") l (bs "core") (bs m).

Example C16_nonvacuous :
  sys_flush 500 ex_lt TI_NONE [ex_ev WARN "a"; ex_ev TRACE "b"; ex_ev CRITICAL "c"] =
  Some [(4%N, bs "24.02.29 12:17:35.123456  Warning  core  a");
        (0%N, bs "24.02.29 12:17:35.123456  Warning  core  a")].
Proof. vm_compute. reflexivity. Qed.

(** ** C17 *)
(** Proved only for calls that find a single event, and text without zero bytes
    (the daemon gets a C string). *)
Theorem C17_single_event_partial :
  forall cap lt ti e,
    tm_ok (lt (v_time e / 1000000000)%N) -> (1000000000 <= v_time e)%N ->
    length (sys_line lt ti e) < cap -> no_byte nul (sys_line lt ti e) ->
    sys_flush cap lt ti [e] = Some (map (fun p => (p, sys_line lt ti e)) (sys_priorities (v_level e))).
Proof. exact single_event. Qed.
Print Assumptions C17_single_event_partial.

(** In general every message of one call carries the text of the first event. *)
Theorem C17_all_first_text :
  forall cap lt ti e es sent,
    Forall (fun x => tm_ok (lt (v_time x / 1000000000)%N) /\ (1000000000 <= v_time x)%N) (e :: es) ->
    sys_flush cap lt ti (e :: es) = Some sent -> no_byte nul (sys_line lt ti e) ->
    Forall (fun m => snd m = sys_line lt ti e) sent.
Proof. exact all_first. Qed.
Print Assumptions C17_all_first_text.

Theorem C17_own_text_refuted :
  exists cap lt ti e1 e2 sent,
    Forall (fun x => tm_ok (lt (v_time x / 1000000000)%N) /\ (1000000000 <= v_time x)%N) [e1; e2] /\
    sys_flush cap lt ti [e1; e2] = Some sent /\
    map snd sent <> [sys_line lt ti e1; sys_line lt ti e2].
Proof. exact own_text_witness. Qed.
Print Assumptions C17_own_text_refuted.

(** The call stays inside its buffer exactly if all records of the call together
    fit, so it runs over as soon as enough events are found. *)
Theorem C17_fits_iff :
  forall cap lt ti es,
    Forall (fun x => tm_ok (lt (v_time x / 1000000000)%N) /\ (1000000000 <= v_time x)%N) es ->
    (sys_flush cap lt ti es <> None <->
     list_sum (map (fun e => length (sys_line lt ti e) + 1) es) <= cap).
Proof. exact flush_fits. Qed.
Print Assumptions C17_fits_iff.

Theorem C17_overrun_refuted :
  forall cap, exists lt ti es,
    Forall (fun x => ev_ok x /\ tm_ok (lt (v_time x / 1000000000)%N) /\ length (v_msg x) <= 1) es /\
    sys_flush cap lt ti es = None.
Proof. exact overrun_witness. Qed.
Print Assumptions C17_overrun_refuted.

Example C17_nonvacuous :
  sys_flush 100 ex_lt TI_ID [ex_ev ERROR "boom"] =
  Some [(1%N, bs "24.02.29 12:17:35.123456  T:7  Error  core  boom")].
Proof. vm_compute. reflexivity. Qed.

(** ** C36 *)
Theorem C109_exclusive :
  forall ops, let s := fst (sys_run sys_init ops) in
    sy_live s <= 1 /\ (sy_open s = true <-> sy_live s = 1) /\
    (sy_live s = 1 -> snd (sys_step s SNew) = SThrow /\ fst (sys_step s SNew) = s).
Proof. exact exclusive. Qed.
Print Assumptions C109_exclusive.

(** After the first construction none succeeds any more, destroyed or not. *)
Theorem C36_reopen_refuted :
  forall ops s rs, sys_run sys_init (SNew :: ops) = (s, rs) ->
    nth_error rs 0 = Some SOk /\
    forall i, nth_error ops i = Some SNew -> nth_error rs (S i) = Some SThrow.
Proof. exact never_again. Qed.
Print Assumptions C36_reopen_refuted.

Example C36_nonvacuous :
  sys_run sys_init [SNew; SDelete; SNew] = (mkSys true false 0, [SOk; SOk; SThrow]).
Proof. reflexivity. Qed.
