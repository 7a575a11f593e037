(** * Statements of C11-C15 and C31, assembled *)
From Coq Require Import Ascii String NArith Arith List Bool Lia.
From Verif Require Import Base DecFacts LevelModel EventModel EventProofs
  RecordModel RecordSpec RecordProofs RecordRead SinkConfig.
Import ListNotations.

Lemma sec_pos e : (1000000000 <= v_time e)%N -> N.eqb (v_time e / 1000000000) 0 = false.
Proof.
  intros H. apply N.eqb_neq. intros E. apply N.div_small_iff in E; [lia|discriminate].
Qed.

Lemma shown_is_line lt ti e : (1000000000 <= v_time e)%N -> shown_line lt ti e = line lt ti e.
Proof.
  intros H. unfold shown_line, shown_datetime. rewrite sec_pos by exact H. reflexivity.
Qed.

Lemma text_of_record cap lt ti e :
    ev_ok e -> tm_ok (lt (v_time e / 1000000000)%N) -> (1000000000 <= v_time e)%N ->
    length (line lt ti e) <= cap ->
    file_format cap lt ti e = Some (line lt ti e) /\
    forall fg, console_format false fg cap lt ti e = Some (line lt ti e).
Proof.
  intros He Ht Hs Hc. rewrite <- shown_is_line in * by exact Hs. apply Nat.leb_le in Hc. split.
  - rewrite file_exact, Hc by assumption. reflexivity.
  - intros fg. rewrite console_exact, console_plain, Hc by auto. reflexivity.
Qed.

Lemma call_to_line m p name ti lvl max now tname tnum text ft lt cap :
    length tname = 16 -> (1000000000 <= now)%N -> (now < 2 ^ 64)%N -> (tnum < 2 ^ 64)%N ->
    (p + sizeof_Event < 2 ^ 64)%N -> (N.of_nat max < 2 ^ 64)%N ->
    tm_ok (lt (now / 1000000000)%N) -> max + 95 <= cap ->
    exists e,
      to_ev (view (construct m p name ti lvl max now tname tnum (FmtOk text) ft) p) = Some e /\
      v_time e = now /\ v_level e = lvl /\ v_name e = firstn 32 name /\ v_msg e = firstn max text /\
      file_format cap lt ti e = Some (line lt ti e).
Proof.
  intros H1 H2 H3 H4 H5 H6 Ht Hc.
  destruct (constructed m p name ti lvl max now tname tnum (FmtOk text) ft H1 H3 H4 H5 H6)
    as (e & E & Hok & Hnow & Hl & Hn & Hm & Hlen).
  exists e. repeat (split; [assumption|]).
  apply text_of_record; [exact Hok|rewrite Hnow; exact Ht|rewrite Hnow; exact H2|].
  rewrite <- shown_is_line by (rewrite Hnow; exact H2).
  pose proof (file_bound lt ti e Hok). lia.
Qed.

Lemma colour_decorates cap lt ti e fg t :
    ev_ok e -> tm_ok (lt (v_time e / 1000000000)%N) ->
    no_byte esc (v_tname e) -> no_byte esc (v_name e) -> no_byte esc (v_msg e) ->
    console_format true fg cap lt ti e = Some t ->
    file_format cap lt ti e = Some (strip t).
Proof.
  intros He Ht H1 H2 H3 H.
  assert (Hi : v_level e <> IGNORE).
  { intros E. rewrite console_ignore in H by exact E. discriminate. }
  rewrite console_exact in H by auto. rewrite file_exact by assumption.
  destruct (Nat.leb_spec (length (console_line true fg lt ti e)) cap) as [Hc|Hc]; [|discriminate].
  injection H as <-. rewrite colour_strip by assumption.
  assert (L : length (shown_line lt ti e) <= length (console_line true fg lt ti e)).
  { rewrite shown_line_len. unfold console_line. rewrite !app_length, shown_len, level_field_len.
    cbn [length]. rewrite ?app_length. change (length (bs "  ")) with 2. cbn [length six]. lia. }
  destruct (Nat.leb_spec (length (shown_line lt ti e)) cap); [reflexivity|lia].
Qed.

Lemma colour_produced cap lt ti e fg :
    ev_ok e -> tm_ok (lt (v_time e / 1000000000)%N) -> v_level e <> IGNORE ->
    length (v_msg e) + 161 <= cap ->
    exists t, console_format true fg cap lt ti e = Some t.
Proof.
  intros He Ht Hi Hc. rewrite console_exact by auto.
  pose proof (console_bound true fg lt ti e He).
  destruct (Nat.leb_spec (length (console_line true fg lt ti e)) cap); [|lia].
  eexists. reflexivity.
Qed.

Lemma line_injective lt ti e1 e2 :
    ev_ok e1 -> ev_ok e2 -> readable_name (v_name e1) -> readable_name (v_name e2) ->
    line lt ti e1 = line lt ti e2 ->
    datetime_line (lt (v_time e1 / 1000000000)%N) = datetime_line (lt (v_time e2 / 1000000000)%N) /\
    (v_time e1 mod 1000000000 / 1000 = v_time e2 mod 1000000000 / 1000)%N /\
    thread_field ti e1 = thread_field ti e2 /\
    v_level e1 = v_level e2 /\ v_name e1 = v_name e2 /\ v_msg e1 = v_msg e2.
Proof.
  intros H1 H2 R1 R2 E. apply (f_equal (parse ti)) in E.
  rewrite !parse_line in E by assumption. unfold parts in E.
  split; [exact (f_equal p_datetime E)|]. split; [exact (f_equal p_usec E)|].
  split; [exact (f_equal p_thread E)|]. pose proof (f_equal p_level E) as E4.
  cbn [p_level] in E4. injection E4 as E4.
  split; [exact E4|]. split; [exact (f_equal p_name E)|exact (f_equal p_msg E)].
Qed.

Lemma file_lines lt ti es :
    Forall (fun e => tm_ok (lt (v_time e / 1000000000)%N) /\ (1000000000 <= v_time e)%N /\
                     no_byte newline (v_tname e) /\ no_byte newline (v_name e) /\
                     no_byte newline (v_msg e)) es ->
    lines (concat (map (line lt ti) es)) = map (line_body lt ti) es.
Proof.
  intros H.
  assert (E1 : map (line lt ti) es = map (shown_line lt ti) es).
  { apply map_ext_in. intros e Hin. rewrite Forall_forall in H. symmetry. apply shown_is_line.
    apply (H e Hin). }
  assert (E2 : map (line_body lt ti) es = map (fun e => body_at (shown_datetime lt e) ti e) es).
  { apply map_ext_in. intros e Hin. rewrite Forall_forall in H. unfold line_body, shown_datetime.
    rewrite sec_pos by apply (H e Hin). reflexivity. }
  rewrite E1, E2. apply lines_of_file. eapply Forall_impl; [|exact H].
  cbv beta. intros e (A & B & C). split; [exact A|exact C].
Qed.

Lemma ambiguous_names :
  exists lt ti e1 e2, ev_ok e1 /\ ev_ok e2 /\
    line lt ti e1 = line lt ti e2 /\ v_name e1 <> v_name e2 /\ v_msg e1 <> v_msg e2.
Proof.
  exists (fun _ => mkTm 0 0 0 0 0 0), TI_NONE,
    (mkEv 0 0 [] INFO (bs "a") (bs "b  c")), (mkEv 0 0 [] INFO (bs "a  b") (bs "c")).
  split; [|split; [|split; [|split]]]; try discriminate; [| |vm_compute; reflexivity];
    (split; [vm_compute; lia|split; [vm_compute; lia|split; [constructor|reflexivity]]]).
Qed.

Lemma file_fits_iff cap lt ti e : ev_ok e -> tm_ok (lt (v_time e / 1000000000)%N) ->
    (file_format cap lt ti e <> None <->
     39 + length (thread_part_line ti e) + length (v_name e) + length (v_msg e) <= cap).
Proof.
  intros He Ht. rewrite file_exact by assumption. rewrite <- (shown_line_len lt).
  destruct (Nat.leb_spec (length (shown_line lt ti e)) cap); split; intros; try congruence; lia.
Qed.

Lemma format_bounds cap lt ti e : ev_ok e -> tm_ok (lt (v_time e / 1000000000)%N) ->
    (length (v_msg e) + 95 <= cap -> file_format cap lt ti e <> None) /\
    (length (v_msg e) + 161 <= cap -> v_level e <> IGNORE ->
     forall colour fg, console_format colour fg cap lt ti e <> None).
Proof.
  intros He Ht. split.
  - intros Hc. rewrite file_exact by assumption. pose proof (file_bound lt ti e He).
    destruct (Nat.leb_spec (length (shown_line lt ti e)) cap); [discriminate|lia].
  - intros Hc Hi wc fg. rewrite console_exact by auto. pose proof (console_bound wc fg lt ti e He).
    destruct (Nat.leb_spec (length (console_line wc fg lt ti e)) cap); [discriminate|lia].
Qed.

Lemma auto_fix_max max buf : (max < 2 ^ 63)%N -> auto_fix max buf = N.max buf (2 * max)%N.
Proof.
  intros H. unfold auto_fix, size_t_range. rewrite N.mod_small by lia.
  destruct (N.ltb_spec buf (max * 2)); lia.
Qed.

Lemma auto_fix_wraps : exists max buf, (max < 2 ^ 64)%N /\ (auto_fix max buf < max)%N.
Proof. exists (2 ^ 63)%N, 0%N. vm_compute. split; reflexivity. Qed.

Lemma sinks_fit max buf lt ti e :
    ev_ok e -> tm_ok (lt (v_time e / 1000000000)%N) -> v_level e <> IGNORE ->
    length (v_msg e) <= max -> (N.of_nat max < 2 ^ 63)%N ->
    (416 <= buf)%N \/ 161 <= max ->
    file_format (N.to_nat (auto_fix (N.of_nat max) buf)) lt ti e <> None /\
    forall colour fg,
      console_format colour fg (N.to_nat (auto_fix (N.of_nat max) buf)) lt ti e <> None.
Proof.
  intros He Ht Hi Hm Hx Hb. rewrite auto_fix_max by exact Hx.
  assert (L : length (v_msg e) + 161 <= N.to_nat (N.max buf (2 * N.of_nat max))) by lia.
  split.
  - apply format_bounds; [exact He|exact Ht|lia].
  - apply format_bounds; assumption.
Qed.

Lemma small_buffer :
  exists max buf lt ti e,
    ev_ok e /\ tm_ok (lt (v_time e / 1000000000)%N) /\ length (v_msg e) <= max /\
    file_format (N.to_nat (auto_fix (N.of_nat max) buf)) lt ti e = None.
Proof.
  exists 16, 32%N, (fun _ => mkTm 0 0 0 0 0 0), TI_NONE, (mkEv 0 0 [] INFO (bs "a") (bs "b")).
  split; [|split; [|split]].
  - split; [vm_compute; lia|split; [vm_compute; lia|split; [constructor|reflexivity]]].
  - vm_compute. intuition reflexivity.
  - vm_compute. lia.
  - vm_compute. reflexivity.
Qed.

Lemma time_printed cap lt ti e t : ev_ok e -> tm_ok (lt (v_time e / 1000000000)%N) ->
    (1000000000 <= v_time e)%N -> file_format cap lt ti e = Some t ->
    firstn 17 t = datetime_line (lt (v_time e / 1000000000)%N) /\
    undec (firstn 6 (skipn 18 t)) = (v_time e mod 1000000000 / 1000)%N.
Proof.
  intros He Ht Hs H. rewrite file_exact in H by assumption.
  destruct (Nat.leb _ _); [|discriminate]. injection H as <-.
  rewrite shown_is_line by exact Hs. unfold line, line_body, body_at. split; [reflexivity|].
  match goal with |- undec ?x = _ => change x with (six (v_time e mod 1000000000 / 1000)) end.
  apply undec_six. apply usec_lt.
Qed.

Lemma first_second cap lt ti e t : ev_ok e -> tm_ok (lt 0%N) -> (v_time e < 1000000000)%N ->
    file_format cap lt ti e = Some t -> firstn 17 t = repeat nul 17.
Proof.
  intros He Ht Hs H. assert (E0 : (v_time e / 1000000000 = 0)%N) by (apply N.div_small; exact Hs).
  rewrite file_exact in H by (rewrite ?E0; assumption).
  destruct (Nat.leb _ _); [|discriminate]. injection H as <-.
  unfold shown_line, body_at, shown_datetime. rewrite E0. reflexivity.
Qed.
