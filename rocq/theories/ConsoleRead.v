(** * Proofs: the output of a console sink, read *)
From Coq Require Import Ascii String NArith List Arith Bool Lia.
From Verif Require Import Base LevelModel EventModel EventProofs RecordModel RecordSpec RecordProofs RecordRead SinkConfig RecordProps PaintSpec PaintProofs
  SinkModel EndModel EndSpec EndProofs ConsoleSpec.
From Verif Require DeployModel.
Import ListNotations.

Lemma paint_strip l : forall a s, map fst (paint a s l) = strip_from (match s with Some _ => true | None => false end) l.
Proof.
  induction l as [|c l IH]; intros a s; [reflexivity|]. destruct s as [p|]; cbn [paint strip_from].
  - destruct (Ascii.eqb c "m"%char); cbn [negb]; apply IH.
  - destruct (Ascii.eqb c esc); [apply IH|]. cbn [map fst]. f_equal. apply IH.
Qed.
Lemma screen_strip l : map fst (screen l) = strip l.
Proof. apply (paint_strip l plain_attr None). Qed.

Lemma to_ev_tname e v : to_ev e = Some v -> v_tname v = e_thread_name e.
Proof. unfold to_ev. destruct (level_of_code _); [|discriminate]. intros H. now inversion H. Qed.

Section Records.
Variable F : fsettings.
Variable fg : bool.
Hypothesis HF : settings_ok F.

(** The event of a call, its line in a file, and on a console. *)
Lemma call_records e : call_ok e -> exists v, to_ev (stored F e) = Some v /\ ev_ok v /\ v_time v = g_time e /\
  v_level v = says_level e /\ v_name v = firstn 32 (says_name e) /\ v_msg v = firstn (f_max F) (says_text e) /\
  (v_tname v = [] \/ v_tname v = firstn 15 (before_nul (g_tname e))) /\
  length (v_msg v) <= f_max F /\ rendered F e = Some (line (f_localtime F) (f_thread F) v).
Proof.
  intros HC. destruct (call_line F e HF HC) as (v0 & R & _). destruct HF as (S1 & S2 & S3 & S4 & S5). destruct HC as (C1 & C2 & C3 & C4).
  assert (Hm : (N.of_nat (f_max F) < 2 ^ 64)%N) by lia.
  destruct (constructed (f_memory F) (f_address F) (g_name e) (f_thread F) (g_level e) (f_max F) (g_time e)
              (g_tname e) (g_tnum e) (g_result e) (g_format e) C3 C2 C4 S3 Hm)
    as (v & Ev & Ok & Vt & Vl & Vn & Vm & Vlen).
  exists v. split; [exact Ev|]. split; [exact Ok|]. split; [exact Vt|].
  split; [rewrite Vl; unfold says_level, shown_level; destruct (g_result e); reflexivity|].
  split; [rewrite Vn; unfold says_name, shown_name; destruct (g_result e); reflexivity|].
  split; [rewrite Vm; unfold says_text, shown_text; destruct (g_result e); reflexivity|].
  split; [|split; [exact Vlen|]].
  - destruct (thread_view (f_memory F) (f_address F) (g_name e) (f_thread F) (g_level e) (f_max F) (g_time e)
              (g_tname e) (g_tnum e) (g_result e) (g_format e) C3 C2 C4 S3 Hm) as [_ En].
    rewrite (to_ev_tname _ _ Ev), En.
    destruct (f_thread F); cbn [thread_part snd fst]; auto using strnlen_before.
  - unfold rendered, stored. rewrite Ev.
    destruct (text_of_record (N.to_nat (buff_size F)) (f_localtime F) (f_thread F) v) as [H _];
      [exact Ok|apply S4|rewrite Vt; exact C1| |exact H].
    rewrite <- shown_is_line by (rewrite Vt; exact C1). unfold buff_size. rewrite auto_fix_max by exact S2.
    pose proof (file_bound (f_localtime F) (f_thread F) v Ok). lia.
Qed.

Lemma plain_record e : call_ok e -> DeployModel.console_record (f_localtime F) fg false F e = c_render (file_sink F) e.
Proof.
  intros HC. destruct (call_records e HC) as (v & Ev & Ok & Vt & _ & _ & _ & _ & Vlen & R).
  cbn [file_sink c_render]. rewrite R. unfold DeployModel.console_record. rewrite Ev.
  destruct HF as (S1 & S2 & S3 & S4 & S5). destruct HC as (C1 & _).
  destruct (text_of_record (N.to_nat (buff_size F)) (f_localtime F) (f_thread F) v) as [_ H];
    [exact Ok|apply S4|rewrite Vt; exact C1| |rewrite H; reflexivity].
  rewrite <- shown_is_line by (rewrite Vt; exact C1). unfold buff_size. rewrite auto_fix_max by exact S2.
  pose proof (file_bound (f_localtime F) (f_thread F) v Ok). lia.
Qed.

Hypothesis room : (N.of_nat (f_max F) + 161 <= N.max (f_buffer F) (2 * N.of_nat (f_max F)))%N.
Lemma colour_record e rest : call_ok e -> paintable e ->
  strip (DeployModel.console_record (f_localtime F) fg true F e ++ rest) = c_render (file_sink F) e ++ strip rest.
Proof.
  intros HC (P1 & P2 & P3 & P4). destruct (call_records e HC) as (v & Ev & Ok & Vt & Vl & Vn & Vm & Vtn & Vlen & R).
  destruct HF as (S1 & S2 & S3 & S4 & S5). destruct HC as (C1 & _).
  assert (Q1 : no_byte esc (v_tname v)) by (destruct Vtn as [-> | ->]; [intros []|apply firstn_no; exact P1]).
  assert (Q2 : no_byte esc (v_name v)) by (rewrite Vn; apply firstn_no; exact P2).
  assert (Q3 : no_byte esc (v_msg v)) by (rewrite Vm; apply firstn_no; exact P3).
  destruct (colour_produced (N.to_nat (buff_size F)) (f_localtime F) (f_thread F) v fg) as (t & Ht);
    [exact Ok|apply S4|rewrite Vl; exact P4| |].
  { unfold buff_size. rewrite auto_fix_max by exact S2. lia. }
  pose proof (colour_decorates _ _ _ _ _ _ Ok (S4 _) Q1 Q2 Q3 Ht) as D.
  pose proof (on_screen _ _ _ _ _ _ rest Ok (S4 _) Q1 Q2 Q3 Ht) as S.
  pose proof (on_screen _ _ _ _ _ _ [] Ok (S4 _) Q1 Q2 Q3 Ht) as S0. rewrite app_nil_r in S0. change (screen []) with (@nil (byte * attr)) in S0. rewrite app_nil_r in S0.
  unfold DeployModel.console_record. rewrite Ev, Ht. cbn [file_sink c_render]. rewrite R.
  unfold rendered in R. rewrite Ev, D in R. assert (EL : strip t = line (f_localtime F) (f_thread F) v) by congruence.
  rewrite <- EL, <- (screen_strip (t ++ rest)), S, map_app, <- S0, !screen_strip. reflexivity.
Qed.

(** All the output. *)
Lemma console_read color es : Forall (fun e => call_ok e /\ legible e /\ (color = true -> paintable e)) es ->
  read_file F (on_terminal color (concat (map (DeployModel.console_record (f_localtime F) fg color F) es))) = map (reads F) es.
Proof.
  intros H. rewrite <- read_many; [|exact HF|eapply Forall_impl; [|exact H]; cbv beta; tauto]. f_equal. unfold on_terminal. destruct color.
  - induction H as [|e es (H1 & _ & H3) _ IH]; [reflexivity|]. cbn [map concat]. rewrite colour_record by auto. now rewrite IH.
  - f_equal. apply map_ext_in. intros e He. apply plain_record. rewrite Forall_forall in H. apply H, He.
Qed.
End Records.
