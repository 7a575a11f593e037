(** * Proofs about record formatting *)
From Coq Require Import Ascii String NArith Arith List Bool Lia.
From Verif Require Import Base DecFacts LevelModel EventModel RecordModel RecordSpec.
Import ListNotations.

Lemma two_d2 n : (n < 100)%N -> two n = d2 n.
Proof.
  intros H. unfold two, d2. rewrite pad_step by lia. rewrite pad_one by (apply div_lt10; exact H).
  reflexivity.
Qed.

Lemma six_eq n : (n < 1000000)%N -> pad_left "0"%char 6 (dec n) = six n.
Proof.
  intros H. unfold six. do 5 rewrite pad_step by lia.
  rewrite !N.div_div by discriminate. cbn [N.mul].
  change (10 * 10 * 10 * 10 * 10)%N with 100000%N. change (10 * 10 * 10 * 10)%N with 10000%N.
  change (10 * 10 * 10)%N with 1000%N. change (10 * 10)%N with 100%N.
  rewrite pad_one by (apply N.div_lt_upper_bound; lia).
  rewrite (N.mod_small (n / 100000) 10) by (apply N.div_lt_upper_bound; lia).
  reflexivity.
Qed.

Lemma usec_lt t : (usec_of t < 1000000)%N.
Proof.
  unfold usec_of. apply N.div_lt_upper_bound; [discriminate|].
  apply N.lt_le_trans with 1000000000%N; [apply N.mod_lt; discriminate|reflexivity].
Qed.

Lemma datetime_eq t : tm_ok t -> datetime_format t = datetime_line t.
Proof.
  intros (H1 & H2 & H3 & H4 & H5 & H6). unfold datetime_format, datetime_line.
  rewrite !two_d2 by assumption. reflexivity.
Qed.

Lemma datetime_len t : length (datetime_line t) = 17.
Proof. reflexivity. Qed.

Lemma stamp_first lt e : tm_ok (lt (v_time e / 1000000000)%N) ->
  snd (stamp lt stamp_init (sec_of (v_time e))) = shown_datetime lt e.
Proof.
  intros Ht. unfold stamp, stamp_init, shown_datetime, sec_of. cbn [fst snd].
  rewrite (N.eqb_sym 0).
  destruct (N.eqb_spec (v_time e / 1000000000) 0) as [E|E]; [reflexivity|].
  rewrite datetime_eq by exact Ht. cbn [snd].
  rewrite datetime_len. reflexivity.
Qed.

Lemma shown_len lt e : length (shown_datetime lt e) = 17.
Proof. unfold shown_datetime. destruct (N.eqb _ _); reflexivity. Qed.

(** ** The writer *)

Lemma raw_raw cap out a b :
  (raw cap out a >>= fun o => raw cap o b) = raw cap out (a ++ b).
Proof.
  unfold raw, bind. rewrite app_length.
  destruct (Nat.leb_spec (length out + length a) cap) as [H|H].
  - rewrite app_length, <- app_assoc, Nat.add_assoc. reflexivity.
  - destruct (Nat.leb_spec (length out + (length a + length b)) cap); [lia|reflexivity].
Qed.

Lemma raw_then cap out a f :
  (raw cap out a >>= f) =
  if Nat.leb (length out + length a) cap then f (out ++ a) else None.
Proof. unfold raw, bind. destruct (Nat.leb _ _); reflexivity. Qed.

Lemma fmtn_raw cap out a b : length out <= cap -> b <> [] ->
  (fmtn cap out a >>= fun o => raw cap o b) = raw cap out (a ++ b).
Proof.
  intros Ho Hb. unfold fmtn, raw, bind. rewrite !app_length, firstn_length.
  assert (Lb : 0 < length b) by (destruct b; [congruence|simpl; lia]).
  destruct (Nat.leb_spec (length out + (length a + length b)) cap) as [H|H].
  - rewrite firstn_all2 by lia. rewrite Nat.min_r by lia.
    destruct (Nat.leb_spec (length out + length a + length b) cap); [|lia].
    rewrite app_assoc. reflexivity.
  - destruct (Nat.leb_spec (length out + Nat.min (cap - length out) (length a) + length b) cap);
      [lia|reflexivity].
Qed.

Lemma bind_assoc x f g : (x >>= f) >>= g = (x >>= fun o => f o >>= g).
Proof. destruct x; reflexivity. Qed.

Lemma bind_ext x f g : (forall o, x = Some o -> f o = g o) -> (x >>= f) = (x >>= g).
Proof. destruct x; simpl; auto. Qed.

(** A writer that appends a fixed text, or runs over. *)
Definition writes (cap : nat) (f : bytes -> option bytes) (l : bytes) : Prop :=
  forall out, length out <= cap -> f out = raw cap out l.

Lemma raw_len cap out l o : raw cap out l = Some o -> length o <= cap.
Proof.
  unfold raw. destruct (Nat.leb_spec (length out + length l) cap); [|discriminate].
  intros [= <-]. rewrite app_length. lia.
Qed.

Lemma writes_bind cap f g a b :
  writes cap f a -> writes cap g b -> writes cap (fun o => f o >>= g) (a ++ b).
Proof.
  intros Hf Hg out Ho. rewrite Hf by exact Ho. rewrite <- raw_raw.
  apply bind_ext. intros o E. apply Hg. exact (raw_len _ _ _ _ E).
Qed.

Lemma writes_raw cap l : writes cap (fun o => raw cap o l) l.
Proof. intros out _. reflexivity. Qed.

Lemma writes_none cap : writes cap (fun o => Some o) [].
Proof.
  intros out Ho. unfold raw. rewrite Nat.add_0_r, app_nil_r.
  apply Nat.leb_le in Ho. rewrite Ho. reflexivity.
Qed.

Lemma writes_fmtn cap a b : b <> [] ->
  writes cap (fun o => fmtn cap o a >>= fun o => raw cap o b) (a ++ b).
Proof. intros Hb out Ho. apply fmtn_raw; assumption. Qed.

(** Truncating output followed by a writer of at least one byte. *)
Lemma writes_fmtn_then cap a g b : b <> [] -> writes cap g b ->
  writes cap (fun o => fmtn cap o a >>= g) (a ++ b).
Proof.
  intros Hb Hg out Ho. rewrite <- fmtn_raw by assumption.
  unfold fmtn. cbn [bind]. apply Hg. rewrite app_length, firstn_length. lia.
Qed.

Lemma writes_level cap l :
  writes cap (put_level cap l) (pad_right space 8 (levelToStr l)).
Proof. intros out Ho. unfold put_level, pad_right. apply raw_raw. Qed.

Lemma width_text_pad s : forall w, length s <= w -> Forall (fun b => b <> nul) s ->
  width_text s w = pad_right space w s.
Proof.
  unfold pad_right. induction s as [|c s IH]; intros w Hl Hn.
  - simpl. destruct w; reflexivity.
  - destruct w as [|w]; [simpl in Hl; lia|]. cbn [width_text].
    inversion Hn as [|x l Hc Hs]; subst.
    destruct (Ascii.eqb_spec c nul); [contradiction|]. cbn [app length]. f_equal.
    replace (S w - S (length s)) with (w - length s) by lia.
    apply IH; [simpl in Hl; lia|exact Hs].
Qed.

Lemma writes_thread cap ti e : ev_ok e ->
  writes cap (put_thread cap ti e) (thread_part_line ti e).
Proof.
  intros (_ & Hl & Hn & _). destruct ti; unfold put_thread, thread_part_line, thread_field.
  - apply writes_none.
  - rewrite width_text_pad by assumption. apply writes_bind; apply writes_raw.
  - apply writes_fmtn_then; [discriminate|apply writes_raw].
Qed.

Lemma writes_ext cap f l l' : writes cap f l -> l = l' -> writes cap f l'.
Proof. intros H <-. exact H. Qed.

Lemma writes_styled cap wc s :
  writes cap (styled wc cap s) (if wc then s else []).
Proof. destruct wc; [apply writes_raw|apply writes_none]. Qed.

(** ** The file record *)

Lemma file_exact cap lt ti e :
  ev_ok e -> tm_ok (lt (v_time e / 1000000000)%N) ->
  file_format cap lt ti e =
  if Nat.leb (length (shown_line lt ti e)) cap then Some (shown_line lt ti e) else None.
Proof.
  intros He Ht. unfold file_format. pose proof (stamp_first lt e Ht) as Hd.
  destruct (stamp lt stamp_init (sec_of (v_time e))) as [psec d]. cbn [snd] in Hd.
  assert (W : writes cap (fun o =>
     raw cap o d >>= fun o =>
     fmtn cap o (bs "." ++ pad_left "0"%char 6 (dec (usec_of (v_time e)))) >>= fun o =>
     raw cap o separator >>= fun o =>
     put_thread cap ti e o >>= fun o =>
     put_level cap (v_level e) o >>= fun o =>
     raw cap o separator >>= fun o =>
     raw cap o (v_name e) >>= fun o =>
     raw cap o separator >>= fun o =>
     raw cap o (v_msg e) >>= fun o =>
     raw cap o [newline]) (shown_line lt ti e)).
  { eapply writes_ext.
    - apply writes_bind; [apply writes_raw|].
      eapply writes_fmtn_then.
      2:{ apply writes_bind; [apply writes_raw|].
          apply writes_bind; [apply writes_thread; exact He|].
          apply writes_bind; [apply writes_level|].
          apply writes_bind; [apply writes_raw|].
          apply writes_bind; [apply writes_raw|].
          apply writes_bind; [apply writes_raw|].
          apply writes_bind; [apply writes_raw|]. apply writes_raw. }
      discriminate.
    - rewrite six_eq by apply usec_lt. unfold shown_line, body_at. rewrite Hd.
      unfold usec_of, separator. change (bs ".") with ["."%char].
      rewrite <- !app_assoc. reflexivity. }
  specialize (W [] (Nat.le_0_l _)). cbv beta in W. rewrite W. reflexivity.
Qed.

(** ** The console record *)

Definition level_style (fg_first : bool) (l : level) : bytes :=
  match level_color l with
  | Some c => if fg_first then c ++ bold else bold ++ c
  | None => []
  end.

Definition on (wc : bool) (s : bytes) : bytes := if wc then s else [].

Definition console_line (wc fg_first : bool) (lt : N -> tm) (ti : thread_info) (e : ev) : bytes :=
  shown_datetime lt e ++ on wc gray ++ ("."%char :: six (v_time e mod 1000000000 / 1000)%N) ++
  on wc reset_color ++ bs "  " ++ thread_part_line ti e ++
  on wc (level_style fg_first (v_level e)) ++ pad_right space 8 (levelToStr (v_level e)) ++
  on wc reset_color ++ bs "  " ++ on wc bold ++ v_name e ++ on wc reset_color ++ bs "  " ++
  on wc (text_style (v_level e)) ++ v_msg e ++ on wc reset_color ++ [newline].

Lemma writes_level_style cap wc fg l : wc = false \/ l <> IGNORE ->
  writes cap (put_level_style wc fg cap l) (on wc (level_style fg l)).
Proof.
  intros H. unfold put_level_style, on. destruct wc; [|apply writes_none].
  destruct H as [H|H]; [discriminate|]. unfold level_style.
  destruct (level_color l) as [c|] eqn:E.
  - destruct fg; apply writes_bind; apply writes_raw.
  - destruct l; try discriminate. congruence.
Qed.

Lemma console_exact wc fg cap lt ti e :
  ev_ok e -> tm_ok (lt (v_time e / 1000000000)%N) -> wc = false \/ v_level e <> IGNORE ->
  console_format wc fg cap lt ti e =
  if Nat.leb (length (console_line wc fg lt ti e)) cap
  then Some (console_line wc fg lt ti e) else None.
Proof.
  intros He Ht Hi. unfold console_format. pose proof (stamp_first lt e Ht) as Hd.
  destruct (stamp lt stamp_init (sec_of (v_time e))) as [psec d]. cbn [snd] in Hd.
  assert (W : writes cap (fun o =>
  raw cap o d >>= fun o =>
  styled wc cap gray o >>= fun o =>
  fmtn cap o (bs "." ++ pad_left "0"%char 6 (dec (usec_of (v_time e)))) >>= fun o =>
  styled wc cap reset_color o >>= fun o =>
  raw cap o separator >>= fun o =>
  put_thread cap ti e o >>= fun o =>
  put_level_style wc fg cap (v_level e) o >>= fun o =>
  put_level cap (v_level e) o >>= fun o =>
  styled wc cap reset_color o >>= fun o =>
  raw cap o separator >>= fun o =>
  styled wc cap bold o >>= fun o =>
  raw cap o (v_name e) >>= fun o =>
  styled wc cap reset_color o >>= fun o =>
  raw cap o separator >>= fun o =>
  styled wc cap (text_style (v_level e)) o >>= fun o =>
  raw cap o (v_msg e) >>= fun o =>
  styled wc cap reset_color o >>= fun o =>
  raw cap o [newline]) (console_line wc fg lt ti e)).
  { eapply writes_ext.
    - apply writes_bind; [apply writes_raw|].
      apply writes_bind; [apply writes_styled|].
      eapply writes_fmtn_then.
      2:{ apply writes_bind; [apply writes_styled|].
          apply writes_bind; [apply writes_raw|].
          apply writes_bind; [apply writes_thread; exact He|].
          apply writes_bind; [apply writes_level_style; exact Hi|].
          apply writes_bind; [apply writes_level|].
          apply writes_bind; [apply writes_styled|].
          apply writes_bind; [apply writes_raw|].
          apply writes_bind; [apply writes_styled|].
          apply writes_bind; [apply writes_raw|].
          apply writes_bind; [apply writes_styled|].
          apply writes_bind; [apply writes_raw|].
          apply writes_bind; [apply writes_styled|].
          apply writes_bind; [apply writes_raw|].
          apply writes_bind; [apply writes_styled|]. apply writes_raw. }
      destruct wc; discriminate.
    - rewrite six_eq by apply usec_lt. unfold console_line, on. rewrite Hd.
      unfold usec_of, separator. rewrite <- !app_assoc. reflexivity. }
  specialize (W [] (Nat.le_0_l _)). cbv beta in W. rewrite W. reflexivity.
Qed.

Lemma console_plain fg lt ti e : console_line false fg lt ti e = shown_line lt ti e.
Proof.
  unfold console_line, shown_line, body_at, on. rewrite <- !app_assoc. reflexivity.
Qed.

(** A coloured record of an IGNORE event indexes past the colour table. *)
Lemma console_ignore fg cap lt ti e : v_level e = IGNORE ->
  console_format true fg cap lt ti e = None.
Proof.
  intros H. unfold console_format.
  destruct (stamp lt stamp_init (sec_of (v_time e))) as [psec d].
  rewrite H. cbn [put_level_style level_color].
  destruct (raw cap [] d); [|reflexivity]. cbn [bind styled].
  destruct (raw cap b gray); [|reflexivity]. cbn [bind fmtn].
  destruct (raw cap _ reset_color); [|reflexivity]. cbn [bind].
  destruct (raw cap _ separator); [|reflexivity]. cbn [bind].
  destruct (put_thread cap ti e _); reflexivity.
Qed.

(** ** Stripping escape sequences *)

Lemma strip_plain a l : no_byte esc a -> strip (a ++ l) = a ++ strip l.
Proof.
  unfold strip, no_byte. induction a as [|c a IH]; intros H; [reflexivity|].
  cbn [app strip_from]. destruct (Ascii.eqb_spec c esc) as [E|E].
  - exfalso. apply H. left. exact E.
  - f_equal. apply IH. intros Hin. apply H. right. exact Hin.
Qed.

Definition is_escape (s : bytes) : Prop := forall l, strip (s ++ l) = strip l.

Lemma esc_nil : is_escape [].  Proof. intros l. reflexivity. Qed.
Lemma esc_app a b : is_escape a -> is_escape b -> is_escape (a ++ b).
Proof. intros Ha Hb l. rewrite <- app_assoc, Ha, Hb. reflexivity. Qed.
Lemma esc_reset : is_escape reset_color.  Proof. intros l. reflexivity. Qed.
Lemma esc_bold : is_escape bold.  Proof. intros l. reflexivity. Qed.
Lemma esc_gray : is_escape gray.  Proof. intros l. reflexivity. Qed.
Lemma esc_text l : is_escape (text_style l).
Proof. intros x. destruct l; reflexivity. Qed.
Lemma esc_level fg l : is_escape (level_style fg l).
Proof. intros x. destruct fg, l; reflexivity. Qed.

Lemma no_byte_app b x y : no_byte b x -> no_byte b y -> no_byte b (x ++ y).
Proof. unfold no_byte. intros Hx Hy H. apply in_app_or in H. tauto. Qed.

Lemma digit_not b n : (n < 10)%N -> ~ is_digit b -> digit n <> b.
Proof. intros H Hb E. apply Hb. rewrite <- E. apply digit_is. exact H. Qed.

Lemma repeat_no_byte b c n : c <> b -> no_byte b (repeat c n).
Proof. intros H Hin. apply repeat_spec in Hin. congruence. Qed.

Lemma digits_no_byte b l : ~ is_digit b -> Forall is_digit l -> no_byte b l.
Proof. intros Hb Hf Hin. rewrite Forall_forall in Hf. apply Hb, Hf, Hin. Qed.

Lemma d2_digits n : (n < 100)%N -> Forall is_digit (d2 n).
Proof.
  intros H. unfold d2. repeat apply Forall_cons; try apply Forall_nil; apply digit_is;
    [apply div_lt10; exact H|]. apply N.mod_lt. discriminate.
Qed.

Lemma six_digits n : Forall is_digit (six n).
Proof. unfold six. repeat apply Forall_cons; try apply Forall_nil; apply digit_is; apply N.mod_lt; discriminate. Qed.

Lemma no_byte_single b c : c <> b -> no_byte b [c].
Proof. intros H [E|[]]. congruence. Qed.

(** A byte that occurs in none of the fixed parts of a record. *)
Definition foreign (b : byte) : Prop := b = esc \/ b = newline.

Lemma foreign_digit b : foreign b -> ~ is_digit b.
Proof. intros [->| ->]; vm_compute; intros [H1 H2]; congruence. Qed.

Lemma foreign_datetime b lt e : foreign b -> tm_ok (lt (v_time e / 1000000000)%N) ->
  no_byte b (shown_datetime lt e).
Proof.
  intros Hb (H1 & H2 & H3 & H4 & H5 & H6). pose proof (foreign_digit b Hb) as Hd.
  unfold shown_datetime. destruct (N.eqb _ _).
  - apply repeat_no_byte. destruct Hb; subst; discriminate.
  - unfold datetime_line.
    repeat apply no_byte_app; try (apply digits_no_byte; [exact Hd|apply d2_digits; assumption]);
      apply no_byte_single; destruct Hb; subst; discriminate.
Qed.

Lemma foreign_six b n : foreign b -> no_byte b (six n).
Proof. intros Hb. apply digits_no_byte; [apply foreign_digit; exact Hb|apply six_digits]. Qed.

Lemma foreign_sep b : foreign b -> no_byte b (bs "  ").
Proof. intros Hb. apply (repeat_no_byte b space 2). destruct Hb; subst; discriminate. Qed.

Lemma foreign_level b l : foreign b -> no_byte b (pad_right space 8 (levelToStr l)).
Proof.
  intros Hb. intros H. destruct Hb; subst b; destruct l; cbn in H; intuition discriminate.
Qed.

Lemma foreign_thread b ti e : foreign b -> no_byte b (v_tname e) ->
  no_byte b (thread_part_line ti e).
Proof.
  intros Hb Hn. unfold thread_part_line, thread_field, pad_right.
  assert (Hs : space <> b) by (destruct Hb; subst; discriminate).
  destruct ti.
  - intros [].
  - repeat apply no_byte_app; [exact Hn|apply repeat_no_byte; exact Hs|apply foreign_sep; exact Hb].
  - repeat apply no_byte_app; [|apply digits_no_byte; [apply foreign_digit; exact Hb|apply dec_digits]
      |apply repeat_no_byte; exact Hs|apply foreign_sep; exact Hb].
    intros H. destruct Hb; subst b; cbn in H; intuition discriminate.
Qed.

Lemma on_escape wc s : is_escape s -> is_escape (on wc s).
Proof. destruct wc; [auto|intros _; exact esc_nil]. Qed.

Lemma colour_strip wc fg lt ti e :
  tm_ok (lt (v_time e / 1000000000)%N) ->
  no_byte esc (v_tname e) -> no_byte esc (v_name e) -> no_byte esc (v_msg e) ->
  strip (console_line wc fg lt ti e) = shown_line lt ti e.
Proof.
  intros Ht H1 H2 H3. assert (Hb : foreign esc) by (left; reflexivity).
  unfold console_line, shown_line, body_at.
  rewrite strip_plain by (apply foreign_datetime; assumption).
  rewrite (on_escape wc _ esc_gray).
  rewrite strip_plain.
  2:{ change ("."%char :: six (v_time e mod 1000000000 / 1000)) with
        (["."%char] ++ six (v_time e mod 1000000000 / 1000)).
      apply no_byte_app; [apply no_byte_single; discriminate|apply foreign_six; exact Hb]. }
  rewrite (on_escape wc _ esc_reset).
  rewrite strip_plain by (apply foreign_sep; exact Hb).
  rewrite strip_plain by (apply foreign_thread; assumption).
  rewrite (on_escape wc _ (esc_level fg _)).
  rewrite strip_plain by (apply foreign_level; exact Hb).
  rewrite (on_escape wc _ esc_reset).
  rewrite strip_plain by (apply foreign_sep; exact Hb).
  rewrite (on_escape wc _ esc_bold).
  rewrite strip_plain by exact H2.
  rewrite (on_escape wc _ esc_reset).
  rewrite strip_plain by (apply foreign_sep; exact Hb).
  rewrite (on_escape wc _ (esc_text _)).
  rewrite strip_plain by exact H3.
  rewrite (on_escape wc _ esc_reset).
  rewrite <- !app_assoc. reflexivity.
Qed.

(** ** Sizes *)

Lemma level_len l : length (levelToStr l) <= 8.
Proof. destruct l; vm_compute; lia. Qed.

Lemma level_field_len l : length (pad_right space 8 (levelToStr l)) = 8.
Proof. destruct l; reflexivity. Qed.

Lemma pad_right_len c w s : length (pad_right c w s) = Nat.max w (length s).
Proof. unfold pad_right. rewrite app_length, repeat_length. lia. Qed.

Lemma thread_len ti e : ev_ok e -> length (thread_part_line ti e) <= 24.
Proof.
  intros (_ & Hl & _ & Hn). unfold thread_part_line, thread_field. destruct ti.
  - simpl. lia.
  - rewrite app_length, pad_right_len. simpl length. lia.
  - rewrite !app_length, pad_right_len. simpl length.
    assert (length (dec (v_tnum e)) <= 20); [|lia].
    apply dec_length; [|lia]. eapply N.lt_trans; [exact Hn|]. reflexivity.
Qed.

Lemma shown_line_len lt ti e :
  length (shown_line lt ti e) =
  39 + length (thread_part_line ti e) + length (v_name e) + length (v_msg e).
Proof.
  unfold shown_line, body_at. rewrite !app_length, shown_len, level_field_len.
  cbn [length six]. change (length (bs "  ")) with 2. lia.
Qed.

Lemma level_style_len fg l : length (level_style fg l) <= 23.
Proof. destruct fg, l; vm_compute; lia. Qed.
Lemma text_style_len l : length (text_style l) <= 4.
Proof. destruct l; vm_compute; lia. Qed.

Lemma on_len wc s : length (on wc s) <= length s.
Proof. destruct wc; simpl; lia. Qed.

Lemma console_line_len wc fg lt ti e :
  length (console_line wc fg lt ti e) <= length (shown_line lt ti e) + 66.
Proof.
  unfold console_line, shown_line, body_at. rewrite !app_length.
  pose proof (on_len wc gray) as A1. pose proof (on_len wc reset_color) as A2.
  pose proof (on_len wc (level_style fg (v_level e))) as A3.
  pose proof (on_len wc bold) as A4. pose proof (on_len wc (text_style (v_level e))) as A5.
  pose proof (level_style_len fg (v_level e)) as A6. pose proof (text_style_len (v_level e)) as A7.
  change (length gray) with 19 in A1. change (length reset_color) with 4 in A2.
  change (length bold) with 4 in A4. cbn [length]. lia.
Qed.

Lemma file_bound lt ti e : ev_ok e -> length (shown_line lt ti e) <= length (v_msg e) + 95.
Proof.
  intros He. rewrite shown_line_len. pose proof (thread_len ti e He). destruct He as (Hn & _). lia.
Qed.

Lemma console_bound wc fg lt ti e : ev_ok e ->
  length (console_line wc fg lt ti e) <= length (v_msg e) + 161.
Proof.
  intros He. pose proof (console_line_len wc fg lt ti e). pose proof (file_bound lt ti e He). lia.
Qed.
