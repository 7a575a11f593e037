(** * Properties C11-C15, C31: text of file and console records

    [file_format cap lt ti e] / [console_format colour fg_first cap lt ti e] is
    the text flush() produces for event [e] in a buffer of [cap] bytes, or
    [None] if it writes past the end of the buffer.  [lt] is localtime.  [line]
    is the documented layout, [shown_line] the same except that the date of the
    first second of 1970 is not printed (see C15).  [fg_first] is the order of
    two style sequences, which C++ leaves open. *)

From Coq Require Import Ascii String NArith Arith List Lia.
From Verif Require Import Base LevelModel EventModel RecordModel RecordSpec
  RecordProofs RecordRead SinkConfig RecordProps PaintSpec PaintProofs.
Import ListNotations.

(** ** C11 *)
Theorem C11_text :
  forall cap lt ti e,
    ev_ok e -> tm_ok (lt (v_time e / 1000000000)%N) -> (1000000000 <= v_time e)%N ->
    length (line lt ti e) <= cap ->
    file_format cap lt ti e = Some (line lt ti e) /\
    forall fg, console_format false fg cap lt ti e = Some (line lt ti e).
Proof. exact text_of_record. Qed.
Print Assumptions C11_text.

(** For any thread name: it is shown up to its first zero byte, at most 15 bytes. *)
Theorem C11_any_thread_name :
  forall cap lt ti e,
    length (v_name e) <= 32 -> (v_tnum e < 2 ^ 64)%N ->
    tm_ok (lt (v_time e / 1000000000)%N) -> (1000000000 <= v_time e)%N ->
    length (line lt ti (shown_thread_name e)) <= cap ->
    file_format cap lt ti e = Some (line lt ti (shown_thread_name e)) /\
    forall fg, console_format false fg cap lt ti e = Some (line lt ti (shown_thread_name e)).
Proof. exact any_thread_name. Qed.
Print Assumptions C11_any_thread_name.

(** From the logging call to the line. *)
Theorem C11_end_to_end :
  forall m p name ti lvl max now tname tnum text ft lt cap,
    length tname = 16 -> (1000000000 <= now)%N -> (now < 2 ^ 64)%N -> (tnum < 2 ^ 64)%N ->
    (p + sizeof_Event < 2 ^ 64)%N -> (N.of_nat max < 2 ^ 64)%N ->
    tm_ok (lt (now / 1000000000)%N) -> max + 95 <= cap ->
    exists e,
      to_ev (view (construct m p name ti lvl max now tname tnum (FmtOk text) ft) p) = Some e /\
      v_time e = now /\ v_level e = lvl /\ v_name e = firstn 32 name /\ v_msg e = firstn max text /\
      file_format cap lt ti e = Some (line lt ti e).
Proof. exact call_to_line. Qed.
Print Assumptions C11_end_to_end.

Definition ex_lt (s : N) : tm := mkTm 24 2 29 12 (s / 60 mod 60) (s mod 60).
Definition ex_ev : ev :=
  mkEv 1709209055123456789 7 (bs "main") WARN (bs "core") (bs "disk is 91% full").

Example C11_nonvacuous :
  file_format 200 ex_lt TI_NAME ex_ev =
  Some (bs "24.02.29 12:17:35.123456  main             Warning   core  disk is 91% full" ++ [newline]).
Proof. vm_compute. reflexivity. Qed.

Example C11_hypotheses_met :
  ev_ok ex_ev /\ tm_ok (ex_lt (v_time ex_ev / 1000000000)%N) /\ (1000000000 <= v_time ex_ev)%N.
Proof.
  split; [|split]; [|vm_compute; intuition reflexivity|vm_compute; discriminate].
  unfold ev_ok. split; [vm_compute; lia|]. split; [vm_compute; lia|].
  split; [|vm_compute; reflexivity]. repeat constructor; discriminate.
Qed.

Example C11_any_nonvacuous :
  v_tname (shown_thread_name (mkEv 1709209055123456789 7 (bs "ab" ++ [nul] ++ bs "cd") INFO (bs "n") (bs "x")))
  = bs "ab" /\
  v_tname (shown_thread_name (mkEv 1709209055123456789 7 (bs "0123456789abcdefgh") INFO (bs "n") (bs "x")))
  = bs "0123456789abcde".
Proof. vm_compute. auto. Qed.

(** ** C12 *)
Theorem C12_colour :
  forall cap lt ti e fg t,
    ev_ok e -> tm_ok (lt (v_time e / 1000000000)%N) ->
    no_byte esc (v_tname e) -> no_byte esc (v_name e) -> no_byte esc (v_msg e) ->
    console_format true fg cap lt ti e = Some t ->
    file_format cap lt ti e = Some (strip t).
Proof. exact colour_decorates. Qed.
Print Assumptions C12_colour.

(** The coloured record exists for every event the sinks accept. *)
Theorem C12_produced :
  forall cap lt ti e fg,
    ev_ok e -> tm_ok (lt (v_time e / 1000000000)%N) -> v_level e <> IGNORE ->
    length (v_msg e) + 161 <= cap ->
    exists t, console_format true fg cap lt ti e = Some t.
Proof. exact colour_produced. Qed.
Print Assumptions C12_produced.

(** What a terminal shows: which part of the record appears in which colour and
    style, and that the record leaves the terminal as it was. *)
Theorem C12_on_screen :
  forall cap lt ti e fg t rest,
    ev_ok e -> tm_ok (lt (v_time e / 1000000000)%N) ->
    no_byte esc (v_tname e) -> no_byte esc (v_name e) -> no_byte esc (v_msg e) ->
    console_format true fg cap lt ti e = Some t ->
    screen (t ++ rest) = painted lt ti e ++ screen rest.
Proof. exact on_screen. Qed.
Print Assumptions C12_on_screen.

Example C12_screen_nonvacuous :
  match console_format true false 300 ex_lt TI_ID ex_ev with
  | Some t => screen t = painted ex_lt TI_ID ex_ev /\ length (screen t) = 69 /\
      nth_error (screen t) 36 = Some ("W"%char, mkAttr (Some (255, 165, 0)%N) true false)
  | None => False
  end.
Proof. vm_compute. auto. Qed.

Example C12_nonvacuous :
  console_format true true 300 ex_lt TI_ID ex_ev =
  Some (bs "24.02.29 12:17:35" ++ esc :: bs "[38;2;128;128;128m.123456" ++ esc :: bs "[0m  T:7       " ++
        esc :: bs "[38;2;255;165;000m" ++ esc :: bs "[1mWarning " ++ esc :: bs "[0m  " ++
        esc :: bs "[1mcore" ++ esc :: bs "[0m  disk is 91% full" ++ esc :: bs "[0m" ++ [newline]).
Proof. vm_compute. reflexivity. Qed.

(** ** C13 *)
Theorem C13_readable :
  forall lt ti e, ev_ok e -> readable_name (v_name e) ->
    parse ti (line lt ti e) = parts lt ti e.
Proof. exact parse_line. Qed.
Print Assumptions C13_readable.

Theorem C13_injective :
  forall lt ti e1 e2,
    ev_ok e1 -> ev_ok e2 -> readable_name (v_name e1) -> readable_name (v_name e2) ->
    line lt ti e1 = line lt ti e2 ->
    datetime_line (lt (v_time e1 / 1000000000)%N) = datetime_line (lt (v_time e2 / 1000000000)%N) /\
    (v_time e1 mod 1000000000 / 1000 = v_time e2 mod 1000000000 / 1000)%N /\
    thread_field ti e1 = thread_field ti e2 /\
    v_level e1 = v_level e2 /\ v_name e1 = v_name e2 /\ v_msg e1 = v_msg e2.
Proof. exact line_injective. Qed.
Print Assumptions C13_injective.

(** A file of records whose texts have no newline splits into one line each. *)
Theorem C13_lines :
  forall lt ti es,
    Forall (fun e => tm_ok (lt (v_time e / 1000000000)%N) /\ (1000000000 <= v_time e)%N /\
                     no_byte newline (v_tname e) /\ no_byte newline (v_name e) /\
                     no_byte newline (v_msg e)) es ->
    lines (concat (map (line lt ti) es)) = map (line_body lt ti) es.
Proof. exact file_lines. Qed.
Print Assumptions C13_lines.

(** Without the condition on names two different events may give the same line. *)
Theorem C13_ambiguous_names_refuted :
  exists lt ti e1 e2, ev_ok e1 /\ ev_ok e2 /\
    line lt ti e1 = line lt ti e2 /\ v_name e1 <> v_name e2 /\ v_msg e1 <> v_msg e2.
Proof. exact ambiguous_names. Qed.
Print Assumptions C13_ambiguous_names_refuted.

Example C13_nonvacuous :
  p_msg (parse TI_NAME (line ex_lt TI_NAME ex_ev)) = bs "disk is 91% full" /\
  readable_name (bs "core").
Proof.
  split; [vm_compute; reflexivity|]. split.
  - intros a b E. apply (f_equal (count_occ Ascii.ascii_dec)) in E.
    apply (f_equal (fun f => f space)) in E. cbn [app] in E.
    rewrite count_occ_app in E. cbn in E. lia.
  - intros a E. apply (f_equal (count_occ Ascii.ascii_dec)) in E.
    apply (f_equal (fun f => f space)) in E. rewrite count_occ_app in E. cbn in E. lia.
Qed.

(** ** C14 *)
(** Exactly when the file sink stays in its buffer. *)
Theorem C14_exact :
  forall cap lt ti e, ev_ok e -> tm_ok (lt (v_time e / 1000000000)%N) ->
    (file_format cap lt ti e <> None <->
     39 + length (thread_part_line ti e) + length (v_name e) + length (v_msg e) <= cap).
Proof. exact file_fits_iff. Qed.
Print Assumptions C14_exact.

Theorem C14_bounds :
  forall cap lt ti e, ev_ok e -> tm_ok (lt (v_time e / 1000000000)%N) ->
    (length (v_msg e) + 95 <= cap -> file_format cap lt ti e <> None) /\
    (length (v_msg e) + 161 <= cap -> v_level e <> IGNORE ->
     forall colour fg, console_format colour fg cap lt ti e <> None).
Proof. exact format_bounds. Qed.
Print Assumptions C14_bounds.

(** With the buffer the sink constructor sets up: enough if the requested
    buffer has at least 416 bytes (the YAML minimum) or the message limit is at
    least 161. *)
Theorem C14_sinks :
  forall max buf lt ti e,
    ev_ok e -> tm_ok (lt (v_time e / 1000000000)%N) -> v_level e <> IGNORE ->
    length (v_msg e) <= max -> (N.of_nat max < 2 ^ 63)%N ->
    (416 <= buf)%N \/ 161 <= max ->
    file_format (N.to_nat (auto_fix (N.of_nat max) buf)) lt ti e <> None /\
    forall colour fg,
      console_format colour fg (N.to_nat (auto_fix (N.of_nat max) buf)) lt ti e <> None.
Proof. exact sinks_fit. Qed.
Print Assumptions C14_sinks.

(** A sink created directly with small sizes runs over its buffer. *)
Theorem C14_small_buffer_refuted :
  exists max buf lt ti e,
    ev_ok e /\ tm_ok (lt (v_time e / 1000000000)%N) /\ length (v_msg e) <= max /\
    file_format (N.to_nat (auto_fix (N.of_nat max) buf)) lt ti e = None.
Proof. exact small_buffer. Qed.
Print Assumptions C14_small_buffer_refuted.

Example C14_nonvacuous :
  length (line ex_lt TI_NAME ex_ev) = 76 /\ file_format 76 ex_lt TI_NAME ex_ev <> None /\
  file_format 75 ex_lt TI_NAME ex_ev = None.
Proof. vm_compute. repeat split; discriminate. Qed.

(** ** C15 *)
(** File and console: one event per call, the date is that of the event, from
    1970-01-01 00:00:01 on. *)
Theorem C15_time_partial :
  forall cap lt ti e t, ev_ok e -> tm_ok (lt (v_time e / 1000000000)%N) ->
    (1000000000 <= v_time e)%N -> file_format cap lt ti e = Some t ->
    firstn 17 t = datetime_line (lt (v_time e / 1000000000)%N) /\
    undec (firstn 6 (skipn 18 t)) = (v_time e mod 1000000000 / 1000)%N.
Proof. exact time_printed. Qed.
Print Assumptions C15_time_partial.

(** In the first second of 1970 zero bytes are printed instead. *)
Theorem C15_first_second_refuted :
  forall cap lt ti e t, ev_ok e -> tm_ok (lt 0%N) -> (v_time e < 1000000000)%N ->
    file_format cap lt ti e = Some t -> firstn 17 t = repeat nul 17.
Proof. exact first_second. Qed.
Print Assumptions C15_first_second_refuted.

Example C15_nonvacuous :
  exists t, file_format 200 ex_lt TI_NONE (mkEv 5 7 [] INFO (bs "a") (bs "b")) = Some t.
Proof. eexists. vm_compute. reflexivity. Qed.

(** ** C31 *)
Theorem C31_auto_fix :
  forall max buf, (max < 2 ^ 63)%N ->
    auto_fix max buf = N.max buf (2 * max)%N.
Proof. exact auto_fix_max. Qed.
Print Assumptions C31_auto_fix.

(** Beyond half of the range the product wraps to nothing. *)
Theorem C31_wrap_refuted :
  exists max buf, (max < 2 ^ 64)%N /\ (auto_fix max buf < max)%N.
Proof. exact auto_fix_wraps. Qed.
Print Assumptions C31_wrap_refuted.
