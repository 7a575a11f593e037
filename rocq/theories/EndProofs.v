(** * Proofs for C95 *)
From Coq Require Import Ascii String NArith Arith List Bool Lia.
From Verif Require Import Base LevelModel EventModel EventProofs RecordModel RecordSpec RecordProofs RecordRead
  RecordProps PaintSpec SinkConfig SinkModel SinkSpec SinkLabels SinkLife SinkProps FullModel FullSpec FullProps EndModel EndSpec.
Import ListNotations.

Lemma load_length m a : forall n, length (load m a n) = n.
Proof. intros n. revert a. induction n as [|n IH]; intros a; cbn; auto. Qed.

Lemma unle_bound l : (unle l < 256 ^ N.of_nat (length l))%N.
Proof.
  induction l as [|b l IH]; [reflexivity|]. cbn [unle length]. rewrite Nat2N.inj_succ, N.pow_succ_r'.
  pose proof (N_ascii_bounded b). lia.
Qed.

Lemma file_sizes F : sizes_ok (file_sink F).
Proof.
  intros e. cbn [file_sink c_msize]. unfold stored, view. cbn [e_message]. rewrite load_length, N2Nat.id.
  eapply N.lt_le_trans; [apply unle_bound|]. rewrite load_length. apply N.le_refl.
Qed.

Lemma strnlen_before t : forall n, firstn (strnlen t n) t = firstn n (before_nul t).
Proof.
  induction t as [|b t IH]; intros [|n]; cbn [strnlen before_nul firstn]; try reflexivity.
  destruct (Ascii.eqb b nul); [reflexivity|]. cbn [firstn]. f_equal. apply IH.
Qed.

Lemma firstn_no (b : byte) n l : no_byte b l -> no_byte b (firstn n l).
Proof. intros H Hi. apply H. rewrite <- (firstn_skipn n l). apply in_or_app. auto. Qed.

(** One call: its line. *)
Lemma call_line F e : settings_ok F -> call_ok e ->
  exists v, rendered F e = Some (line (f_localtime F) (f_thread F) v) /\ ev_ok v /\
    v_time v = g_time e /\ v_level v = says_level e /\ v_name v = firstn 32 (says_name e) /\
    v_msg v = firstn (f_max F) (says_text e) /\
    v_tname v = (match f_thread F with TI_NAME => firstn 15 (before_nul (g_tname e)) | _ => [] end) /\
    (f_thread F = TI_ID -> v_tnum v = g_tnum e).
Proof.
  intros (S1 & S2 & S3 & S4 & S5) (C1 & C2 & C3 & C4).
  assert (Hm : (N.of_nat (f_max F) < 2 ^ 64)%N) by lia.
  destruct (constructed (f_memory F) (f_address F) (g_name e) (f_thread F) (g_level e) (f_max F) (g_time e)
              (g_tname e) (g_tnum e) (g_result e) (g_format e) C3 C2 C4 S3 Hm)
    as (v & Ev & Ok & Vt & Vl & Vn & Vm & Vlen).
  exists v. assert (V32 : v_name v = firstn 32 (says_name e)).
  { rewrite Vn. unfold says_name, shown_name. destruct (g_result e); reflexivity. }
  assert (VM : v_msg v = firstn (f_max F) (says_text e)).
  { rewrite Vm. unfold says_text, shown_text. destruct (g_result e); reflexivity. }
  split; [|split; [exact Ok|split; [exact Vt|split; [|split; [exact V32|split; [exact VM|]]]]]].
  - unfold rendered, stored. rewrite Ev.
    destruct (text_of_record (N.to_nat (buff_size F)) (f_localtime F) (f_thread F) v) as [H _];
      [exact Ok|apply S4|rewrite Vt; exact C1| |exact H].
    rewrite <- shown_is_line by (rewrite Vt; exact C1). unfold buff_size. rewrite auto_fix_max by exact S2.
    pose proof (file_bound (f_localtime F) (f_thread F) v Ok). lia.
  - rewrite Vl. unfold says_level, shown_level. destruct (g_result e); reflexivity.
  - destruct (thread_view (f_memory F) (f_address F) (g_name e) (f_thread F) (g_level e) (f_max F) (g_time e)
              (g_tname e) (g_tnum e) (g_result e) (g_format e) C3 C2 C4 S3 Hm) as [En Et].
    set (w := view _ _) in *. clearbody w. unfold to_ev in Ev. destruct (level_of_code _); [|discriminate]. injection Ev as <-. cbn [v_tname v_tnum].
    rewrite En, Et. split; [destruct (f_thread F); cbn [thread_part snd]; auto using strnlen_before|].
    intros ->. reflexivity.
Qed.

(** A line, read. *)
Lemma call_read F e : settings_ok F -> call_ok e -> legible e ->
  exists b, c_render (file_sink F) e = b ++ [newline] /\ no_byte newline b /\
    parse (f_thread F) (b ++ [newline]) = reads F e.
Proof.
  intros HF HC (L1 & L2 & L3 & L4). destruct (call_line F e HF HC) as (v & R & Ok & Vt & Vl & Vn & Vm & Vtn & Vnum).
  exists (line_body (f_localtime F) (f_thread F) v). split; [|split].
  - cbn [file_sink c_render]. rewrite R. reflexivity.
  - destruct HF as (_ & _ & _ & T & _). destruct HC as (C1 & _).
    pose proof (body_no_newline (f_localtime F) (f_thread F) v (T _)) as B.
    assert (E1 : shown_datetime (f_localtime F) v = datetime_line (f_localtime F (v_time v / 1000000000)%N)).
    { unfold shown_datetime. rewrite sec_pos by (rewrite Vt; exact C1). reflexivity. }
    rewrite E1 in B. apply B. split; [|split].
    + rewrite Vtn. destruct (f_thread F); [intros []|apply firstn_no; exact L1|intros []].
    + rewrite Vn. apply firstn_no. exact L2.
    + rewrite Vm. apply firstn_no. exact L3.
  - change (line_body (f_localtime F) (f_thread F) v ++ [newline]) with (line (f_localtime F) (f_thread F) v).
    rewrite parse_line; [|exact Ok|rewrite Vn; exact L4]. unfold parts, reads. rewrite Vt, Vl, Vn, Vm. f_equal.
    unfold thread_field, says_thread. rewrite Vtn. destruct (f_thread F); auto. rewrite Vnum by reflexivity. reflexivity.
Qed.

(** Many lines. *)
Lemma lines_app a b : exists c, lines (a ++ b) = lines a ++ lines_from c b.
Proof.
  assert (G : forall a d, exists c, lines_from d (a ++ b) = lines_from d a ++ lines_from c b).
  { clear a. induction a as [|x a IH]; intros d; cbn [app lines_from]; [exists d; reflexivity|].
    destruct (Ascii.eqb x newline); [|apply IH]. destruct (IH []) as (c' & E). exists c'. rewrite E. reflexivity. }
  apply G.
Qed.

Lemma read_many F es : settings_ok F -> Forall (fun e => call_ok e /\ legible e) es ->
  read_file F (concat (map (c_render (file_sink F)) es)) = map (reads F) es.
Proof.
  intros HF H. induction H as [|e es [Hc Hl] _ IH]; [reflexivity|].
  destruct (call_read F e HF Hc Hl) as (b & E & N & P). cbn [map concat]. rewrite E. unfold read_file in *.
  rewrite <- app_assoc. cbn [app]. unfold lines. rewrite lines_from_no by exact N. cbn [map app]. fold (lines (concat (map (c_render (file_sink F)) es))).
  rewrite P, IH. reflexivity.
Qed.

Lemma read_prefix F a b : exists k, read_file F a = firstn k (read_file F (a ++ b)).
Proof.
  destruct (lines_app a b) as (c & E). exists (length (read_file F a)). unfold read_file. rewrite E, map_app.
  rewrite map_length. rewrite <- (map_length (fun l => parse (f_thread F) (l ++ [newline])) (lines a)) at 1.
  rewrite firstn_app, Nat.sub_diag, firstn_all. cbn [firstn]. rewrite app_nil_r. reflexivity.
Qed.

Section Sink.
Variable F : fsettings.
Hypothesis HF : settings_ok F.
Let cap1 : 1 <= c_cap (file_sink F).
Proof. apply HF. Qed.

Lemma within_buffer e : call_ok e -> rendered F e <> None.
Proof. intros H. destruct (call_line F e HF H) as (v & -> & _). discriminate. Qed.

Lemma runs_read (runs : list (list logged)) : Forall (fun e => call_ok e /\ legible e) (concat runs) ->
  map (read_file F) (map (fun r => concat (map (c_render (file_sink F)) r)) runs) = map (map (reads F)) runs.
Proof.
  intros H. rewrite map_map. apply map_ext_in. intros r Hr. apply read_many; [exact HF|].
  rewrite Forall_forall in *. intros e He. apply H. apply in_concat. eauto.
Qed.

Lemma destroyed_read n s ls t : c_lat0 (file_sink F) = false -> freach (file_sink F) true n s ls -> In (LDestroyed t) ls ->
  Forall (fun e => call_ok e /\ legible e) (accepted ls) ->
  exists runs, length runs = 1 + fresh_files ls /\ concat runs = accepted ls /\
    map (read_file F) (disk (rest s)) = map (map (reads F)) runs.
Proof.
  intros Hz Hr Hd Hf. destruct (@full_destroyed _ _ cap1 n s ls t (file_sizes F) Hz Hr Hd) as (W & _ & D).
  destruct (@full_runs _ _ cap1 n s ls (file_sizes F) Hr) as (runs & R1 & R2 & R3). rewrite W in R2.
  exists runs. split; [exact R1|]. split; [exact R2|]. rewrite D by reflexivity. rewrite R3. apply runs_read.
  rewrite R2. exact Hf.
Qed.

(** Every call of push() with an event for this sink was accepted. *)
Lemma thr_len op n (a : state logged) ls : reach (file_sink F) op n a ls -> length (thr a) = S n.
Proof.
  intros Hr. refine (reach_ind (file_sink F) op n (fun a _ => length (thr a) = S n) _ _ a ls Hr).
  - cbn [init thr length]. rewrite repeat_length. reflexivity.
  - intros s0 l0 m _ IH. destruct m as [u c|k]; cbn [step]; [|exact IH]. destruct (nth_error (thr s0) u) as [p|] eqn:Hp; [|exact IH].
    destruct (step_own (file_sink F) s0 u c p Hp) as [_ (p' & ->)]. rewrite upd_length. exact IH.
Qed.

Lemma destroyed_all n s ls t u : freach (file_sink F) true n s ls -> In (LDestroyed t) ls -> 1 <= u <= n ->
  accepted_by u ls = for_sink_by (f_level F) u ls.
Proof.
  intros Hr Hd Hu. destruct (@full_abs _ _ cap1 _ _ _ _ Hr) as (a & g & Ra & R). pose proof (thr_len _ _ _ _ Ra) as Hl.
  destruct (destroyed_dead (file_sink F) true n a ls t Ra Hd) as [Hdead _].
  assert (L : u < length (thr a)) by lia. change (f_level F) with (c_level (file_sink F)). rewrite <- admitted_for_sink.
  rewrite (reach_pushes _ _ _ _ _ Ra u L). destruct (nth_error (thr a) u) as [p|] eqn:Hp; [|apply nth_error_None in Hp; lia].
  unfold pc_of. rewrite (nth_error_nth _ _ _ Hp). assert (T : trying p = []); [|rewrite T, app_nil_r; reflexivity].
  destruct (Nat.eq_dec u t) as [->|Hn]; [rewrite Hdead in Hp; injection Hp as <-; reflexivity|].
  rewrite (destroyer_others (file_sink F) true a t Dead u p (reach_life _ _ _ _ _ Ra) Hdead eq_refl Hp Hn); [reflexivity|lia].
Qed.

Lemma crash_read n s ls : freach (file_sink F) true n s ls -> Forall (fun e => call_ok e /\ legible e) (accepted ls) ->
  exists k, flat_map (read_file F) (disk (rest s)) = map (reads F) (firstn k (accepted ls)).
Proof.
  intros Hr Hf. destruct (@full_crash _ _ cap1 n s ls (file_sizes F)) as (_ & runs & last & before & beyond & W & D & B);
    [discriminate|exact Hr|].
  destruct (@full_order _ _ cap1 n s ls (file_sizes F) Hr) as [(k0 & K) _].
  assert (A : exists k1, written ls = firstn k1 (accepted ls)).
  { exists k0. rewrite K. rewrite <- firstn_map. reflexivity. }
  destruct A as (k1 & A). assert (Hw : Forall (fun e => call_ok e /\ legible e) (written ls)).
  { rewrite A. rewrite Forall_forall in *. intros e He. apply Hf. rewrite <- (firstn_skipn k1). apply in_or_app. auto. }
  rewrite concat_app in W. cbn [concat] in W. rewrite app_nil_r in W.
  rewrite W in Hw. apply Forall_app in Hw as [H1 H2].
  destruct (read_prefix F before beyond) as (k2 & K2). rewrite <- B, read_many in K2 by (auto).
  exists (Nat.min (length (concat runs) + k2) k1). rewrite D, flat_map_app. cbn [flat_map]. rewrite app_nil_r.
  rewrite flat_map_concat_map, runs_read by exact H1. rewrite K2, <- concat_map.
  rewrite <- firstn_firstn, <- A, W, firstn_app_2. rewrite map_app, firstn_map. reflexivity.
Qed.

End Sink.
