(** * Property C118: what the syslog daemon receives, in every schedule

    [syslog_sink call F]: a syslog sink with settings [F], used by [n] threads; an event [e] comes
    from the call [call e].  [received call F ls]: the messages (priority, text) given to
    syslog(3) in the execution [ls], or [None] if a flush() wrote past the end of its buffer.
    [urgency e]: the priority of a call, none for trace; [tells F e]: its text. *)

From Coq Require Import Ascii String NArith Arith List Bool Lia.
From Verif Require Import Base LevelModel EventModel RecordModel RecordSpec PaintSpec SinkModel SinkSpec EndModel EndSpec
  SyslogModel SyslogSpec SyslogRunModel SyslogRunSpec SyslogRunProofs SyslogRunWitness.
Import ListNotations.

(** The priorities of the messages are those of the first accepted events, in the order of
    acceptance; what is missing is still in the queue. *)
Theorem C118_priorities :
  forall (E : Type) (call : E -> logged) F n s ls sent, settings_ok F ->
    reach (syslog_sink call F) true n s ls -> Forall (fun e => call_ok (call e)) (accepted ls) ->
    received call F ls = Some sent ->
    exists k, map fst sent = flat_map (fun e => urgency (call e)) (firstn k (accepted ls)) /\
      length (accepted ls) <= k + f_capacity F + 1.
Proof. exact @priorities. Qed.
Print Assumptions C118_priorities.

(** After the destruction (of a sink with a worker) none is missing. *)
Theorem C118_destroyed :
  forall (E : Type) (call : E -> logged) F n s ls u sent, settings_ok F -> f_lat0 F = false ->
    reach (syslog_sink call F) true n s ls -> In (LDestroyed u) ls -> Forall (fun e => call_ok (call e)) (accepted ls) ->
    received call F ls = Some sent ->
    map fst sent = flat_map (fun e => urgency (call e)) (accepted ls).
Proof. exact @destroyed. Qed.
Print Assumptions C118_destroyed.

(** If no flush() finds more than one event, each comes with its own text. *)
Theorem C118_own_text :
  forall (E : Type) (call : E -> logged) F n s ls, settings_ok F ->
    reach (syslog_sink call F) true n s ls -> Forall (fun e => sendable F (call e)) (accepted ls) ->
    (forall part, between ls part -> length (written part) <= 1) ->
    received call F ls =
      Some (flat_map (fun e => map (fun p => (p, tells F (call e))) (urgency (call e))) (written ls)).
Proof. exact @own_text. Qed.
Print Assumptions C118_own_text.

(** In general the messages of a flush() carry the text of the first event it found (C17). *)
Theorem C118_texts :
  forall (E : Type) (call : E -> logged) F n s ls sent, settings_ok F ->
    reach (syslog_sink call F) true n s ls -> Forall (fun e => sendable F (call e)) (accepted ls) ->
    received call F ls = Some sent ->
    concat (flushes ls) = written ls /\
    sent = flat_map (fun es => match es with
                               | [] => []
                               | e :: _ => map (fun p => (p, tells F (call e))) (flat_map (fun e => urgency (call e)) es)
                               end) (flushes ls).
Proof.
  intros E call F n s ls sent HS HR HC H. split; [apply flushes_concat|exact (texts call F n s ls sent HS HR HC H)].
Qed.
Print Assumptions C118_texts.

(** A flush() finds at most what fits into the queue, one event, and what is accepted while it
    runs; so it stays inside its buffer if that many records of the greatest length fit. *)
Theorem C118_found :
  forall (E : Type) (call : E -> logged) F n s ls part,
    reach (syslog_sink call F) true n s ls -> between ls part ->
    length (written part) <= f_capacity F + 1 + length (accepted part).
Proof. exact @found. Qed.
Print Assumptions C118_found.

Theorem C118_within_buffer :
  forall (E : Type) (call : E -> logged) F n s ls, settings_ok F ->
    reach (syslog_sink call F) true n s ls -> Forall (fun e => sendable F (call e)) (accepted ls) ->
    (forall part, between ls part ->
       (f_capacity F + 1 + length (accepted part)) * (f_max F + 95) <= N.to_nat (buff_size F)) ->
    received call F ls <> None.
Proof. exact @fits. Qed.
Print Assumptions C118_within_buffer.

(** But whatever the size of the buffer: two threads, one in flush(), the other logging the same
    call again and again, and it is overrun (C17). *)
Theorem C17_overrun_schedules_refuted :
  forall (E : Type) (call : E -> logged) F, settings_ok F ->
  forall e l, for_sink (f_level F) l = true -> sendable F (call e) ->
    exists s ls, reach (syslog_sink call F) true 2 s ls /\
      Forall (fun x => x = e) (accepted ls) /\ received call F ls = None.
Proof.
  intros E call F HS e l HA HO. rewrite <- SinkLabels.admits_iff in HA.
  destruct (overrun_schedule call F HS e l HA HO) as (ms & s & ls & H1 & H2). exists s, ls. split; [exists ms; exact H1|exact H2].
Qed.
Print Assumptions C17_overrun_schedules_refuted.

(** Every record is handed over by a flush() that its thread began and that has not ended, for
    every kind of sink. *)
Theorem C118_own_flush :
  forall (E : Type) (C : cfg E) op n s ls a t e b, sizes_ok C -> has_dest C op ->
    reach C op n s ls -> ls = a ++ LWrite t e :: b ->
    exists a1 a2, a = a1 ++ LLock t :: a2 /\
      forallb (fun x => match x with LLock _ | LUnlock _ => false | _ => true end) a2 = true.
Proof. intros E C op n s ls a t e b HS HD HR H. exact (own_flush C op n HS HD s ls a t e b HR H). Qed.
Print Assumptions C118_own_flush.

(** Two threads: one event flushed alone, then two at once (the second with the text of the
    first), then one of level trace; then the sink is destroyed. *)
Definition ex118_F : fsettings :=
  mkFs TRACE TI_NAME 4 20 4096 false (fun s => mkTm 24 2 29 12 (s / 60 mod 60) (s mod 60)) (fun _ => "x"%char) 4096.
Definition ex118_call (tn : string) (lv : level) (r : fmt_result) : logged :=
  mkLogged 1709209055123456789 (bs tn ++ repeat nul (16 - String.length tn)) 7 lv (bs "core") r (bs "{:d}").
Definition e1 := ex118_call "main" INFO (FmtOk (bs "one")).
Definition e2 := ex118_call "side" WARN (FmtOk (bs "two")).
Definition e3 := ex118_call "main" DEBUG (FmtThrow [] (bs "bad")).
Definition e4 := ex118_call "side" TRACE (FmtOk (bs "four")).
Definition gg (t n : nat) : list (move logged) := repeat (MThread t (CGo false)) n.
Definition log118 (t : nat) (e : logged) : list (move logged) := MThread t (CPush (g_level e) e) :: gg t 6.
Definition round118 : list (move logged) := MThread 0 (CWake true) :: gg 0 16.
Definition ex118_part : list (move logged) := log118 1 e1 ++ round118.
Definition ex118_moves : list (move logged) :=
  ex118_part ++ log118 2 e2 ++ log118 1 e3 ++ round118 ++ log118 2 e4 ++
  [MThread 1 CDestroy] ++ gg 1 2 ++ round118 ++ round118 ++ gg 1 4.
Definition ex118 (ms : list (move logged)) := exec (syslog_sink (fun e => e) ex118_F) (init (syslog_sink (fun e => e) ex118_F) true 2) ms.

Example C118_nonvacuous :
  let ls := snd (ex118 ex118_moves) in
  In (LDestroyed 1) ls /\ accepted ls = [e1; e2; e3; e4] /\
  received (fun e => e) ex118_F ls =
    Some [(5%N, bs "24.02.29 12:17:35.123456  main  Info  core  one");
          (4%N, bs "24.02.29 12:17:35.123456  side  Warning  core  two");
          (1%N, bs "24.02.29 12:17:35.123456  side  Warning  core  two")].
Proof. vm_compute. repeat split. repeat (first [left; reflexivity | right]). Qed.

Example C118_hypotheses_met :
  settings_ok ex118_F /\ Forall (fun e => sendable ex118_F e) [e1; e2; e3; e4].
Proof.
  assert (NB : forall l, existsb (Ascii.eqb nul) l = false -> no_byte nul l).
  { intros l H Hi. assert (E : existsb (Ascii.eqb nul) l = true); [|congruence].
    apply existsb_exists. exists nul. split; [exact Hi|apply Ascii.eqb_refl]. }
  split.
  - split; [vm_compute; discriminate|]. split; [reflexivity|]. split; [reflexivity|]. split; [|cbn; lia].
    intros s. unfold tm_ok, ex118_F. cbn [f_localtime tm_yy tm_mm tm_dd tm_h tm_m tm_s].
    assert (forall x, x mod 60 < 100)%N by (intros x; apply N.lt_trans with 60%N; [apply N.mod_lt; discriminate|reflexivity]).
    repeat split; try reflexivity; auto.
  - repeat (apply Forall_cons; [split; [vm_compute; repeat split; discriminate|apply NB; vm_compute; reflexivity]|]). apply Forall_nil.
Qed.

(** The defaults (sink_to_syslog.cpp:86-89) leave room for 1699 events accepted during a flush(). *)
Example C118_default_room :
  let F := mkFs INFO TI_NONE (N.to_nat 2048) (N.to_nat 1024) 4194304 false (fun s => mkTm 24 2 29 12 0 0) (fun _ => "x"%char) 4096 in
  N.leb (N.of_nat (f_capacity F + 1 + 1699) * N.of_nat (f_max F + 95)) (buff_size F) = true.
Proof. vm_compute. reflexivity. Qed.

(** A stretch of an execution that has at most one event has at most one in any of its flushes,
    and four events leave room: (4 + 1 + 4) * (20 + 95) = 1035 bytes of 4096. *)
Example C118_own_text_met :
  let ls := snd (ex118 ex118_part) in
  (forall part, between ls part -> length (written part) <= 1) /\
  received (fun e => e) ex118_F ls = Some [(5%N, bs "24.02.29 12:17:35.123456  main  Info  core  one")].
Proof.
  split; [|vm_compute; reflexivity]. intros part (a & b & H & _).
  assert (L : length (written (snd (ex118 ex118_part))) = 1) by (vm_compute; reflexivity).
  rewrite H, !written_app, !app_length in L. lia.
Qed.
Example C118_within_buffer_met :
  let ls := snd (ex118 ex118_moves) in
  forall part, between ls part ->
    (f_capacity ex118_F + 1 + length (accepted part)) * (f_max ex118_F + 95) <= N.to_nat (buff_size ex118_F).
Proof.
  intros ls part (a & b & H & _).
  assert (L : length (accepted ls) = 4) by (vm_compute; reflexivity).
  rewrite H, !accepted_app, !app_length in L.
  change (f_capacity ex118_F) with 4. change (f_max ex118_F) with 20. 
  assert (B : N.to_nat (buff_size ex118_F) = 4096) by (vm_compute; reflexivity). rewrite B. lia.
Qed.
