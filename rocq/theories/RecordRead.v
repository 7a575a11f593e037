(** * Reading records back; from construction to the record *)
From Coq Require Import Ascii String NArith Arith List Bool Lia.
From Verif Require Import Base DecFacts LevelModel EventModel EventProofs LayoutModel
  RecordModel RecordSpec RecordProofs.
Import ListNotations.

Lemma undec_zeros k l : undec (repeat "0"%char k ++ l) = undec l.
Proof.
  unfold undec. induction k as [|k IH]; [reflexivity|].
  cbn [repeat app fold_left]. exact IH.
Qed.

Lemma undec_six n : (n < 1000000)%N -> undec (six n) = n.
Proof.
  intros H. rewrite <- six_eq by exact H. unfold pad_left. rewrite undec_zeros. apply undec_dec.
Qed.

Lemma readable_tail c n : readable_name (c :: n) -> n <> [] -> readable_name n.
Proof.
  intros [H1 H2] Hn. split.
  - intros a b E. apply (H1 (c :: a) b). rewrite E. reflexivity.
  - intros a E. apply (H2 (c :: a)). rewrite E. reflexivity.
Qed.

Lemma split2_readable n m : readable_name n -> split2 (n ++ bs "  " ++ m) = (n, m).
Proof.
  induction n as [|c n IH]; intros Hr; [reflexivity|].
  destruct n as [|d n].
  - cbn [app]. change (bs "  ") with [space; space]. cbn [app split2].
    destruct (Ascii.eqb_spec c space) as [E|E].
    + exfalso. destruct Hr as [_ H2]. apply (H2 []). rewrite E. reflexivity.
    + reflexivity.
  - assert (Hr' : readable_name (d :: n)) by (apply (readable_tail c); [exact Hr|discriminate]).
    specialize (IH Hr'). cbn [app] in *.
    change (split2 (c :: d :: n ++ bs "  " ++ m)) with
      (if Ascii.eqb c space && Ascii.eqb d space then ([], n ++ bs "  " ++ m)
       else let '(a, b) := split2 (d :: n ++ bs "  " ++ m) in (c :: a, b)).
    rewrite IH.
    destruct (Ascii.eqb_spec c space) as [E|E]; [|reflexivity].
    destruct (Ascii.eqb_spec d space) as [E'|E']; [|reflexivity].
    exfalso. destruct Hr as [H1 _]. apply (H1 [] n). subst. reflexivity.
Qed.

Lemma read_level_field l : read_level (pad_right space 8 (levelToStr l)) = Some l.
Proof. destruct l; vm_compute; reflexivity. Qed.

Lemma digits_of_app a b c : Forall is_digit a -> ~ is_digit c -> digits_of (a ++ c :: b) = a.
Proof.
  induction a as [|d a IH]; intros Ha Hc.
  - cbn [app digits_of]. unfold is_digit in Hc.
    destruct (N.leb_spec 48 (N_of_ascii c)); destruct (N.leb_spec (N_of_ascii c) 57);
      try reflexivity. exfalso. apply Hc. lia.
  - inversion Ha as [|x y Hd Ht]; subst. cbn [app digits_of].
    unfold is_digit in Hd. destruct (N.leb_spec 48 (N_of_ascii d)); [|lia].
    destruct (N.leb_spec (N_of_ascii d) 57); [|lia]. cbn [andb]. f_equal. apply IH; assumption.
Qed.

Lemma width_right ti e rest : ev_ok e ->
  thread_width ti (thread_part_line ti e ++ rest) = length (thread_field ti e).
Proof.
  intros (_ & Hl & _ & _). unfold thread_width, thread_part_line, thread_field. destruct ti.
  - reflexivity.
  - rewrite pad_right_len. lia.
  - change (skipn 2 (((bs "T:" ++ pad_right space 6 (dec (v_tnum e))) ++ bs "  ") ++ rest))
      with ((pad_right space 6 (dec (v_tnum e)) ++ bs "  ") ++ rest).
    rewrite app_length, pad_right_len. change (length (bs "T:")) with 2. f_equal. f_equal. f_equal.
    unfold pad_right. rewrite <- !app_assoc.
    destruct (6 - length (dec (v_tnum e))) as [|k]; cbn [repeat app]; change (bs "  ") with [space; space];
      cbn [app]; apply digits_of_app; try apply dec_digits; vm_compute; intros [? ?]; congruence.
Qed.

Lemma skipn_len_app (X : Type) (a b : list X) : skipn (length a) (a ++ b) = b.
Proof. rewrite skipn_app, skipn_all, Nat.sub_diag. reflexivity. Qed.
Lemma firstn_len_app (X : Type) (a b : list X) : firstn (length a) (a ++ b) = a.
Proof. rewrite firstn_app, firstn_all, Nat.sub_diag, app_nil_r. reflexivity. Qed.

Lemma parse_line lt ti e : ev_ok e -> readable_name (v_name e) ->
  parse ti (line lt ti e) = parts lt ti e.
Proof.
  intros He Hr.
  set (dt := datetime_line (lt (v_time e / 1000000000)%N)).
  set (us := (v_time e mod 1000000000 / 1000)%N).
  set (rest := thread_part_line ti e ++ pad_right space 8 (levelToStr (v_level e)) ++ bs "  " ++
     v_name e ++ bs "  " ++ v_msg e ++ [newline]).
  assert (El : line lt ti e = dt ++ ["."%char] ++ six us ++ bs "  " ++ rest).
  { unfold line, line_body, body_at, rest. fold dt us. rewrite <- !app_assoc. reflexivity. }
  assert (E1 : firstn 17 (line lt ti e) = dt).
  { rewrite El. reflexivity. }
  assert (E2 : firstn 6 (skipn 18 (line lt ti e)) = six us).
  { rewrite El. reflexivity. }
  assert (E3 : skipn 26 (line lt ti e) = rest).
  { rewrite El. reflexivity. }
  unfold parse, parts. rewrite E1, E2, E3. fold dt us.
  rewrite undec_six by (apply usec_lt).
  assert (Ew : thread_width ti rest = length (thread_field ti e))
    by (unfold rest; apply width_right; exact He).
  rewrite Ew.
  assert (E4 : firstn (length (thread_field ti e)) rest = thread_field ti e).
  { unfold rest, thread_part_line. destruct ti; [reflexivity| |];
      rewrite <- !app_assoc; apply firstn_len_app. }
  assert (E5 : skipn (match ti with TI_NONE => 0 | _ => length (thread_field ti e) + 2 end) rest
     = pad_right space 8 (levelToStr (v_level e)) ++ bs "  " ++
       v_name e ++ bs "  " ++ v_msg e ++ [newline]).
  { unfold rest, thread_part_line. destruct ti; [reflexivity| |].
    - replace (length (thread_field TI_NAME e) + 2) with
        (length (thread_field TI_NAME e ++ bs "  ")) by (rewrite app_length; reflexivity).
      apply skipn_len_app.
    - replace (length (thread_field TI_ID e) + 2) with
        (length (thread_field TI_ID e ++ bs "  ")) by (rewrite app_length; reflexivity).
      apply skipn_len_app. }
  rewrite E4, E5.
  assert (E6 : forall x, firstn 8 (pad_right space 8 (levelToStr (v_level e)) ++ x) =
               pad_right space 8 (levelToStr (v_level e))).
  { intros x. rewrite <- (level_field_len (v_level e)) at 1. apply firstn_len_app. }
  assert (E7 : forall x, skipn 10 (pad_right space 8 (levelToStr (v_level e)) ++ bs "  " ++ x) = x).
  { intros x. destruct (v_level e); reflexivity. }
  rewrite E6, E7, read_level_field, split2_readable by exact Hr.
  f_equal. rewrite app_length. cbn [length]. rewrite Nat.add_sub. apply firstn_len_app.
Qed.

Lemma lines_from_no c l rest : no_byte newline l ->
  lines_from c (l ++ newline :: rest) = (c ++ l) :: lines_from [] rest.
Proof.
  revert c. induction l as [|x l IH]; intros c H.
  - cbn [app lines_from]. rewrite Ascii.eqb_refl, app_nil_r. reflexivity.
  - cbn [app lines_from]. destruct (Ascii.eqb_spec x newline) as [E|E].
    + exfalso. apply H. left. exact E.
    + rewrite IH by (intros Hin; apply H; right; exact Hin). rewrite <- app_assoc. reflexivity.
Qed.

Definition one_line (e : ev) : Prop :=
  no_byte newline (v_tname e) /\ no_byte newline (v_name e) /\ no_byte newline (v_msg e).

Lemma body_no_newline lt ti e : tm_ok (lt (v_time e / 1000000000)%N) -> one_line e ->
  no_byte newline (body_at (shown_datetime lt e) ti e).
Proof.
  intros Ht (H1 & H2 & H3). assert (Hb : foreign newline) by (right; reflexivity).
  unfold body_at.
  repeat first
    [ apply foreign_level; exact Hb | apply foreign_sep; exact Hb
    | apply foreign_datetime; assumption | apply foreign_six; exact Hb
    | apply foreign_thread; assumption | assumption
    | apply no_byte_single; discriminate | apply no_byte_app ].
Qed.

Lemma lines_of_file lt ti es :
  Forall (fun e => tm_ok (lt (v_time e / 1000000000)%N) /\ one_line e) es ->
  lines (concat (map (shown_line lt ti) es)) = map (fun e => body_at (shown_datetime lt e) ti e) es.
Proof.
  induction es as [|e es IH]; intros H; [reflexivity|].
  inversion H as [|x y [Ht Ho] Hr]; subst.
  cbn [map concat]. unfold shown_line at 1. rewrite <- app_assoc. cbn [app].
  unfold lines. rewrite lines_from_no by (apply body_no_newline; assumption).
  cbn [app]. f_equal. apply IH. exact Hr.
Qed.

(** ** From the constructor to the record *)

Lemma level_of_lcode l : level_of_code (N.of_nat (lcode l)) = Some l.
Proof. destruct l; reflexivity. Qed.

(** What the accessors show after the constructor, decoded. *)
Definition shown_level (fr : fmt_result) (lvl : level) : level :=
  match fr with FmtOk _ => lvl | FmtThrow _ _ => ERROR end.
Definition shown_name (fr : fmt_result) (name : bytes) : bytes :=
  match fr with FmtOk _ => firstn 32 name | FmtThrow _ _ => bs "Soralog" end.
Definition shown_text (max : nat) (fr : fmt_result) (ft : bytes) : bytes :=
  match fr with
  | FmtOk t => firstn max t
  | FmtThrow _ what => firstn max (bs "Format error: " ++ what ++ bs "; Format: " ++ ft)
  end.

Lemma constructed m p name ti lvl max now tname tnum fr ft :
  length tname = 16 -> (now < 2 ^ 64)%N -> (tnum < 2 ^ 64)%N ->
  (p + sizeof_Event < 2 ^ 64)%N -> (N.of_nat max < 2 ^ 64)%N ->
  exists e, to_ev (view (construct m p name ti lvl max now tname tnum fr ft) p) = Some e /\
    ev_ok e /\ v_time e = now /\ v_level e = shown_level fr lvl /\
    v_name e = shown_name fr name /\ v_msg e = shown_text max fr ft /\
    length (v_msg e) <= max.
Proof.
  intros H1 H2 H3 H4 H5.
  pose proof (thread_information m p name ti lvl max now tname tnum fr ft H1 H2 H3 H4 H5) as T.
  cbv zeta in T.
  set (v := view _ _) in *.
  assert (A : e_level_code v = N.of_nat (lcode (shown_level fr lvl)) /\ e_time v = now /\
              e_name v = shown_name fr name /\ e_message v = shown_text max fr ft).
  { destruct fr as [text|part what].
    - destruct (exact_event m p name ti lvl max now tname tnum text ft H1 H2 H3 H4 H5)
        as (A1 & A2 & A3 & A4). auto.
    - destruct (format_error_event m p name ti lvl max now tname tnum part what ft H1 H2 H3 H4 H5)
        as (A1 & A2 & A3 & A4). auto. }
  destruct A as (A1 & A2 & A3 & A4).
  unfold to_ev. rewrite A1, level_of_lcode. eexists. split; [reflexivity|].
  split; [|cbn [v_time v_level v_name v_msg]; repeat split; try assumption].
  - unfold ev_ok. cbn [v_name v_tname v_tnum]. split; [|split; [|split]].
    + rewrite A3. destruct fr; [apply firstn_le_length|vm_compute; lia].
    + destruct ti; destruct T as (T1 & T2); [rewrite T2; simpl; lia| |rewrite T2; simpl; lia].
      apply T2.
    + destruct ti; destruct T as (T1 & T2); [rewrite T2; constructor|apply T2|rewrite T2; constructor].
    + destruct ti; destruct T as (T1 & T2); rewrite T1; [reflexivity|exact H3|exact H3].
  - rewrite A4. destruct fr; apply firstn_le_length.
Qed.
