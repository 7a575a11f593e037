(** * Proofs: coloured records on a terminal; thread names with zero bytes *)

From Coq Require Import Ascii String NArith Arith List Bool Lia.
From Verif Require Import Base LevelModel EventModel RecordModel RecordSpec RecordProofs RecordProps PaintSpec.
Import ListNotations.

Lemma paint_plain a s l : no_byte esc s -> paint a None (s ++ l) = in_attr a s ++ paint a None l.
Proof.
  unfold no_byte. induction s as [|c s IH]; intros H; [reflexivity|].
  cbn [app paint in_attr map]. destruct (Ascii.eqb_spec c esc) as [E|E].
  - exfalso. apply H. left. exact E.
  - cbn [app]. f_equal. apply IH. intros Hin. apply H. right. exact Hin.
Qed.

Lemma paint_reset a l : paint a None (reset_color ++ l) = paint plain_attr None l.
Proof. reflexivity. Qed.
Lemma paint_gray l : paint plain_attr None (gray ++ l) =
  paint (mkAttr (Some (128, 128, 128)%N) false false) None l.
Proof. reflexivity. Qed.
Lemma paint_bold l : paint plain_attr None (bold ++ l) = paint (mkAttr None true false) None l.
Proof. reflexivity. Qed.
Lemma paint_level fg lv l : lv <> IGNORE -> paint plain_attr None (level_style fg lv ++ l) =
  paint (mkAttr (Some (rgb lv)) true false) None l.
Proof. intros H. destruct fg, lv; try reflexivity; congruence. Qed.
Lemma paint_text lv l : paint plain_attr None (text_style lv ++ l) = paint (message_attr lv) None l.
Proof. destruct lv; reflexivity. Qed.

Lemma in_attr_app a x y : in_attr a (x ++ y) = in_attr a x ++ in_attr a y.
Proof. apply map_app. Qed.

Lemma paint_line fg lt ti e l :
  tm_ok (lt (v_time e / 1000000000)%N) -> v_level e <> IGNORE ->
  no_byte esc (v_tname e) -> no_byte esc (v_name e) -> no_byte esc (v_msg e) ->
  paint plain_attr None (console_line true fg lt ti e ++ l) =
  painted lt ti e ++ paint plain_attr None l.
Proof.
  intros Ht Hi H1 H2 H3. assert (Hb : foreign esc) by (left; reflexivity).
  unfold console_line, on. rewrite <- !app_assoc.
  rewrite paint_plain by (apply foreign_datetime; assumption).
  rewrite paint_gray.
  rewrite paint_plain.
  2:{ change ("."%char :: six (v_time e mod 1000000000 / 1000)) with
        (["."%char] ++ six (v_time e mod 1000000000 / 1000)).
      apply no_byte_app; [apply no_byte_single; discriminate|apply foreign_six; exact Hb]. }
  rewrite paint_reset.
  rewrite paint_plain by (apply foreign_sep; exact Hb).
  rewrite paint_plain by (apply foreign_thread; assumption).
  rewrite paint_level by exact Hi.
  rewrite paint_plain by (apply foreign_level; exact Hb).
  rewrite paint_reset.
  rewrite paint_plain by (apply foreign_sep; exact Hb).
  rewrite paint_bold.
  rewrite paint_plain by exact H2.
  rewrite paint_reset.
  rewrite paint_plain by (apply foreign_sep; exact Hb).
  rewrite paint_text.
  rewrite paint_plain by exact H3.
  rewrite paint_reset.
  rewrite paint_plain by (apply no_byte_single; discriminate).
  unfold painted. rewrite !in_attr_app. rewrite <- !app_assoc. reflexivity.
Qed.

Lemma on_screen cap lt ti e fg t rest :
    ev_ok e -> tm_ok (lt (v_time e / 1000000000)%N) ->
    no_byte esc (v_tname e) -> no_byte esc (v_name e) -> no_byte esc (v_msg e) ->
    console_format true fg cap lt ti e = Some t ->
    screen (t ++ rest) = painted lt ti e ++ screen rest.
Proof.
  intros He Ht H1 H2 H3 H.
  assert (Hi : v_level e <> IGNORE).
  { intros E. rewrite console_ignore in H by exact E. discriminate. }
  rewrite console_exact in H by auto.
  destruct (Nat.leb_spec (length (console_line true fg lt ti e)) cap) as [Hc|Hc]; [|discriminate].
  injection H as <-. unfold screen. apply paint_line; assumption.
Qed.

(** ** Thread names *)

Lemma width_text_cut s w : width_text s w = width_text (firstn w (before_nul s)) w.
Proof.
  revert w; induction s as [|c s IH]; intros w; [destruct w; reflexivity|].
  destruct w as [|w]; [reflexivity|]. cbn [width_text before_nul].
  destruct (Ascii.eqb c nul) eqn:E; [reflexivity|]. cbn [firstn width_text]. rewrite E, <- IH. reflexivity.
Qed.

Lemma thread_cut cap ti e o : put_thread cap ti e o = put_thread cap ti (shown_thread_name e) o.
Proof.
  destruct ti; try reflexivity. unfold put_thread, shown_thread_name. cbn [v_tname].
  rewrite (width_text_cut (v_tname e)). reflexivity.
Qed.

Lemma file_cut cap lt ti e : file_format cap lt ti e = file_format cap lt ti (shown_thread_name e).
Proof.
  unfold file_format. cbn [shown_thread_name v_time v_level v_name v_msg].
  destruct (stamp lt stamp_init (sec_of (v_time e))) as [psec d].
  destruct (raw cap [] d) as [o1|]; [|reflexivity]. cbn [bind fmtn].
  destruct (raw cap _ separator) as [o2|]; [|reflexivity]. cbn [bind].
  rewrite thread_cut. reflexivity.
Qed.

Lemma console_cut c fg cap lt ti e :
  console_format c fg cap lt ti e = console_format c fg cap lt ti (shown_thread_name e).
Proof.
  unfold console_format. cbn [shown_thread_name v_time v_level v_name v_msg].
  destruct (stamp lt stamp_init (sec_of (v_time e))) as [psec d].
  destruct (raw cap [] d) as [o1|]; [|reflexivity]. cbn [bind].
  destruct (styled c cap gray o1) as [o2|]; [|reflexivity]. cbn [bind fmtn].
  destruct (styled c cap reset_color _) as [o3|]; [|reflexivity]. cbn [bind].
  destruct (raw cap _ separator) as [o4|]; [|reflexivity]. cbn [bind].
  rewrite thread_cut. reflexivity.
Qed.

Lemma before_nul_none s : Forall (fun b => b <> nul) (before_nul s).
Proof.
  induction s as [|c s IH]; cbn [before_nul]; [constructor|].
  destruct (Ascii.eqb_spec c nul); constructor; assumption.
Qed.

Lemma firstn_Forall {A} (P : A -> Prop) n l : Forall P l -> Forall P (firstn n l).
Proof. intros H. revert n; induction H; intros [|n]; cbn; constructor; auto. Qed.

Lemma any_thread_name cap lt ti e :
  length (v_name e) <= 32 -> (v_tnum e < 2 ^ 64)%N ->
  tm_ok (lt (v_time e / 1000000000)%N) -> (1000000000 <= v_time e)%N ->
  length (line lt ti (shown_thread_name e)) <= cap ->
  file_format cap lt ti e = Some (line lt ti (shown_thread_name e)) /\
  forall fg, console_format false fg cap lt ti e = Some (line lt ti (shown_thread_name e)).
Proof.
  intros Hn Hk Ht H1 Hl. rewrite file_cut. setoid_rewrite console_cut.
  apply text_of_record; try assumption. unfold ev_ok, shown_thread_name. cbn [v_name v_tname v_tnum].
  split; [exact Hn|]. split; [rewrite firstn_length; lia|]. split; [|exact Hk].
  apply firstn_Forall, before_nul_none.
Qed.
