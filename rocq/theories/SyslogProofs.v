(** * Proofs about the syslog sink *)
From Coq Require Import Ascii String NArith Arith List Bool Lia.
From Verif Require Import Base DecFacts LevelModel EventModel RecordModel RecordSpec
  RecordProofs RecordProps SyslogModel SyslogSpec.
Import ListNotations.

Lemma sys_writes_thread cap ti e :
  writes cap (sys_put_thread cap ti e) (sys_thread_part ti e).
Proof.
  destruct ti; unfold sys_put_thread, sys_thread_part.
  - apply writes_none.
  - apply writes_bind; apply writes_raw.
  - eapply writes_ext; [eapply writes_fmtn_then; [|apply writes_raw]; discriminate|].
    unfold separator. rewrite <- !app_assoc. reflexivity.
Qed.

Definition sys_line_at (dt : bytes) (ti : thread_info) (e : ev) : bytes :=
  dt ++ ["."%char] ++ six (v_time e mod 1000000000 / 1000)%N ++ bs "  " ++
  sys_thread_part ti e ++ levelToStr (v_level e) ++ bs "  " ++ v_name e ++ bs "  " ++ v_msg e.

Lemma sys_record_exact cap lt ti st out e : length out <= cap ->
  sys_record cap lt ti st out e =
  let st' := stamp lt st (sec_of (v_time e)) in
  let r := sys_line_at (snd st') ti e ++ [nul] in
  if Nat.leb (length out + length r) cap then Some (st', out ++ r) else None.
Proof.
  intros Ho. unfold sys_record. cbv zeta.
  set (st' := stamp lt st (sec_of (v_time e))).
  assert (W : writes cap (fun o =>
    raw cap o (snd st') >>= fun o =>
    fmtn cap o (bs "." ++ pad_left "0"%char 6 (dec (usec_of (v_time e)))) >>= fun o =>
    raw cap o separator >>= fun o =>
    sys_put_thread cap ti e o >>= fun o =>
    sys_put_level cap (v_level e) o >>= fun o =>
    raw cap o separator >>= fun o =>
    raw cap o (v_name e) >>= fun o =>
    raw cap o separator >>= fun o =>
    raw cap o (v_msg e) >>= fun o =>
    raw cap o [nul]) (sys_line_at (snd st') ti e ++ [nul])).
  { eapply writes_ext.
    - apply writes_bind; [apply writes_raw|].
      eapply writes_fmtn_then.
      2:{ apply writes_bind; [apply writes_raw|].
          apply writes_bind; [apply sys_writes_thread|].
          apply writes_bind; [apply writes_raw|].
          apply writes_bind; [apply writes_raw|].
          apply writes_bind; [apply writes_raw|].
          apply writes_bind; [apply writes_raw|].
          apply writes_bind; [apply writes_raw|]. apply writes_raw. }
      discriminate.
    - rewrite six_eq by apply usec_lt. unfold sys_line_at.
      unfold usec_of, separator. change (bs ".") with ["."%char].
      rewrite <- !app_assoc. reflexivity. }
  specialize (W out Ho). cbv beta in W. rewrite W. unfold raw.
  destruct (Nat.leb _ _); reflexivity.
Qed.

(** The date of the running [stamp] state. *)
Definition stamp_ok (lt : N -> tm) (st : stamp_state) : Prop :=
  length (snd st) = 17 /\ (fst st <> 0%N -> snd st = datetime_line (lt (fst st))).

Lemma stamp_step lt st e :
  stamp_ok lt st -> tm_ok (lt (v_time e / 1000000000)%N) -> (1000000000 <= v_time e)%N ->
  stamp_ok lt (stamp lt st (sec_of (v_time e))) /\
  snd (stamp lt st (sec_of (v_time e))) = datetime_line (lt (v_time e / 1000000000)%N).
Proof.
  intros [Hl Hd] Ht Hs. unfold stamp, sec_of.
  assert (Hn : (v_time e / 1000000000 <> 0)%N).
  { intros E. apply N.div_small_iff in E; [lia|discriminate]. }
  destruct (N.eqb_spec (fst st) (v_time e / 1000000000)) as [E|E].
  - split; [split; assumption|]. rewrite <- E. apply Hd. rewrite E. exact Hn.
  - cbn [fst snd]. rewrite datetime_eq by exact Ht. rewrite datetime_len.
    rewrite (skipn_all2 (snd st)) by lia. rewrite app_nil_r.
    split; [split|]; try reflexivity.
Qed.

Lemma sys_line_is lt ti e : sys_line_at (datetime_line (lt (v_time e / 1000000000)%N)) ti e =
  sys_line lt ti e.
Proof. reflexivity. Qed.

Definition good_time (lt : N -> tm) (e : ev) : Prop :=
  tm_ok (lt (v_time e / 1000000000)%N) /\ (1000000000 <= v_time e)%N.

(** The buffer after the records of [es]. *)
Definition sys_text (lt : N -> tm) (ti : thread_info) (es : list ev) : bytes :=
  concat (map (fun e => sys_line lt ti e ++ [nul]) es).

Fixpoint sent_from (lt : N -> tm) (ti : thread_info) (out : bytes) (es : list ev) : list (N * bytes) :=
  match es with
  | [] => []
  | e :: es' =>
      let out' := out ++ sys_line lt ti e ++ [nul] in
      match priority (v_level e) with
      | Some p => (p, c_string out') :: sent_from lt ti out' es'
      | None => sent_from lt ti out' es'
      end
  end.

Lemma sys_loop_exact cap lt ti es : forall st out,
  stamp_ok lt st -> Forall (good_time lt) es -> length out <= cap ->
  sys_loop cap lt ti st out es =
  if Nat.leb (length out + length (sys_text lt ti es)) cap
  then Some (sent_from lt ti out es) else None.
Proof.
  induction es as [|e es IH]; intros st out Hst Hg Ho.
  - cbn. rewrite Nat.add_0_r. apply Nat.leb_le in Ho. rewrite Ho. reflexivity.
  - inversion Hg as [|x y [Ht Hs] Hg']; subst.
    destruct (stamp_step lt st e Hst Ht Hs) as [Hst' Hd].
    cbn [sys_loop]. rewrite sys_record_exact by exact Ho. cbv zeta. rewrite Hd, sys_line_is.
    unfold sys_text. cbn [map concat sent_from]. fold (sys_text lt ti es).
    rewrite (app_length (sys_line lt ti e ++ [nul])).
    destruct (Nat.leb_spec (length out + length (sys_line lt ti e ++ [nul])) cap) as [Hc|Hc].
    + rewrite IH; [|exact Hst'|exact Hg'|rewrite app_length; lia].
      rewrite app_length, <- Nat.add_assoc.
      destruct (Nat.leb _ _); [|reflexivity]. destruct (priority (v_level e)); reflexivity.
    + destruct (Nat.leb_spec (length out + (length (sys_line lt ti e ++ [nul]) + length (sys_text lt ti es))) cap);
        [lia|reflexivity].
Qed.

Lemma stamp_init_ok lt : stamp_ok lt stamp_init.
Proof. split; [reflexivity|]. cbn. congruence. Qed.

Lemma sys_flush_exact cap lt ti es : Forall (good_time lt) es ->
  sys_flush cap lt ti es =
  if Nat.leb (length (sys_text lt ti es)) cap then Some (sent_from lt ti [] es) else None.
Proof.
  intros Hg. unfold sys_flush.
  rewrite sys_loop_exact; [reflexivity|apply stamp_init_ok|exact Hg|simpl; lia].
Qed.

Lemma c_string_app a b : c_string (a ++ nul :: b) = c_string a.
Proof.
  induction a as [|c a IH]; [reflexivity|].
  cbn [app c_string]. destruct (Ascii.eqb c nul); [reflexivity|]. f_equal. exact IH.
Qed.

Lemma c_string_id a : no_byte nul a -> c_string a = a.
Proof.
  induction a as [|c a IH]; intros H; [reflexivity|]. cbn [c_string].
  destruct (Ascii.eqb_spec c nul) as [E|E]; [exfalso; apply H; left; exact E|].
  f_equal. apply IH. intros Hin. apply H. right. exact Hin.
Qed.

Lemma sent_priorities lt ti es : forall out,
  map fst (sent_from lt ti out es) = flat_map (fun e => sys_priorities (v_level e)) es.
Proof.
  induction es as [|e es IH]; intros out; [reflexivity|].
  cbn [sent_from flat_map]. cbv zeta. rewrite <- (IH (out ++ sys_line lt ti e ++ [nul])).
  unfold sys_priorities. destruct (v_level e); reflexivity.
Qed.

(** All messages of a call carry the text of its first event. *)
Lemma sent_texts lt ti es : forall a b,
  Forall (fun m => snd m = c_string a) (sent_from lt ti (a ++ nul :: b) es).
Proof.
  induction es as [|e es IH]; intros a b; [constructor|].
  cbn [sent_from]. cbv zeta.
  replace ((a ++ nul :: b) ++ sys_line lt ti e ++ [nul]) with
    (a ++ nul :: (b ++ sys_line lt ti e ++ [nul])) by (rewrite <- app_assoc; reflexivity).
  destruct (priority (v_level e)); [constructor|]; try apply IH. apply c_string_app.
Qed.

Lemma sent_one lt ti e es : sent_from lt ti [] (e :: es) =
  match priority (v_level e) with
  | Some p => (p, c_string (sys_line lt ti e ++ [nul])) :: sent_from lt ti (sys_line lt ti e ++ [nul]) es
  | None => sent_from lt ti (sys_line lt ti e ++ [nul]) es
  end.
Proof. reflexivity. Qed.

Lemma priorities_of_flush cap lt ti es : forall st out sent,
  sys_loop cap lt ti st out es = Some sent ->
  map fst sent = flat_map (fun e => sys_priorities (v_level e)) es.
Proof.
  induction es as [|e es IH]; intros st out sent H; cbn [sys_loop] in H.
  - injection H as <-. reflexivity.
  - destruct (sys_record cap lt ti st out e) as [[st' out']|]; [|discriminate].
    destruct (sys_loop cap lt ti st' out' es) as [s'|] eqn:E; [|discriminate].
    apply IH in E. cbn [flat_map]. rewrite <- E.
    destruct (v_level e); cbn in H; injection H as <-; reflexivity.
Qed.

Lemma single cap lt ti e : good_time lt e -> length (sys_line lt ti e) < cap ->
  no_byte nul (sys_line lt ti e) ->
  sys_flush cap lt ti [e] = Some (map (fun p => (p, sys_line lt ti e)) (sys_priorities (v_level e))).
Proof.
  intros Hg Hc Hn. rewrite sys_flush_exact by (constructor; [exact Hg|constructor]).
  unfold sys_text. cbn [map concat]. rewrite app_nil_r, app_length. cbn [length].
  destruct (Nat.leb_spec (length (sys_line lt ti e) + 1) cap); [|lia].
  rewrite sent_one. set (L := sys_line lt ti e) in *. clearbody L.
  rewrite c_string_app, c_string_id by exact Hn.
  destruct (v_level e); reflexivity.
Qed.

Lemma all_first cap lt ti e es sent :
  Forall (good_time lt) (e :: es) -> sys_flush cap lt ti (e :: es) = Some sent ->
  no_byte nul (sys_line lt ti e) ->
  Forall (fun m => snd m = sys_line lt ti e) sent.
Proof.
  intros Hg H Hn. rewrite sys_flush_exact in H by exact Hg.
  destruct (Nat.leb _ _); [|discriminate]. assert (Es : sent = sent_from lt ti [] (e :: es)) by congruence.
  rewrite Es, sent_one.
  pose proof (sent_texts lt ti es (sys_line lt ti e) []) as F. rewrite c_string_id in F by exact Hn.
  set (L := sys_line lt ti e) in *. clearbody L.
  destruct (priority (v_level e)); [constructor|]; try exact F.
  cbn [snd]. rewrite c_string_app. apply c_string_id. exact Hn.
Qed.

Lemma flush_fits cap lt ti es : Forall (good_time lt) es ->
  (sys_flush cap lt ti es <> None <->
   list_sum (map (fun e => length (sys_line lt ti e) + 1) es) <= cap).
Proof.
  intros Hg. rewrite sys_flush_exact by exact Hg.
  assert (E : length (sys_text lt ti es) = list_sum (map (fun e => length (sys_line lt ti e) + 1) es)).
  { unfold sys_text. clear. induction es as [|e es IH]; [reflexivity|].
    cbn [map concat list_sum fold_right]. rewrite !app_length, IH. reflexivity. }
  rewrite E. destruct (Nat.leb_spec (list_sum (map (fun e => length (sys_line lt ti e) + 1) es)) cap);
    split; intros; try congruence; lia.
Qed.

(** ** The flag *)

Lemma flag_stays l : forall s s' rs, sy_flag s = true -> sys_run s l = (s', rs) ->
  sy_flag s' = true /\ forall i, nth_error l i = Some SNew -> nth_error rs i = Some SThrow.
Proof.
  induction l as [|o l IH]; intros s s' rs Hf H; cbn [sys_run] in H.
  - injection H as <- <-. split; [exact Hf|]. intros [|i]; discriminate.
  - destruct (sys_step s o) as [s1 r] eqn:E1.
    destruct (sys_run s1 l) as [s2 rs2] eqn:E2. injection H as <- <-.
    assert (Hf1 : sy_flag s1 = true).
    { destruct o; cbn in E1; [rewrite Hf in E1; injection E1 as <- _; exact Hf|].
      destruct (sy_live s); injection E1 as <- _; [exact Hf|reflexivity]. }
    destruct (IH s1 s2 rs2 Hf1 E2) as [A B]. split; [exact A|].
    intros [|i] Hi; cbn [nth_error] in *.
    + injection Hi as ->. cbn in E1. rewrite Hf in E1. injection E1 as _ <-. reflexivity.
    + apply B. exact Hi.
Qed.

Definition sys_inv (s : sys_state) : Prop :=
  sy_live s <= 1 /\ (sy_live s = 1 -> sy_flag s = true) /\ (sy_open s = true <-> sy_live s = 1).

Lemma sys_step_inv s o : sys_inv s -> sys_inv (fst (sys_step s o)).
Proof.
  intros (H1 & H2 & H3). destruct s as [f op n]. cbn in *.
  destruct o; cbn.
  - destruct f; cbn; [split; [exact H1|split; assumption]|].
    assert (n = 0) by (destruct n as [|[|n]]; [reflexivity| |lia]; specialize (H2 eq_refl); discriminate).
    subst. split; [cbn; lia|]. cbn. split; [auto|]. split; auto.
  - destruct n as [|n]; cbn; [split; [exact H1|split; assumption]|].
    split; [cbn; lia|]. cbn. split; [auto|]. split; [discriminate|lia].
Qed.

Lemma sys_run_inv l : forall s, sys_inv s -> sys_inv (fst (sys_run s l)).
Proof.
  induction l as [|o l IH]; intros s H; [exact H|]. cbn [sys_run].
  pose proof (sys_step_inv s o H) as H1. destruct (sys_step s o) as [s1 r]. cbn [fst] in H1.
  specialize (IH s1 H1). destruct (sys_run s1 l). exact IH.
Qed.

Lemma exclusive l :
  let s := fst (sys_run sys_init l) in
  sy_live s <= 1 /\ (sy_open s = true <-> sy_live s = 1) /\
  (sy_live s = 1 -> snd (sys_step s SNew) = SThrow /\ fst (sys_step s SNew) = s).
Proof.
  cbv zeta. assert (I : sys_inv (fst (sys_run sys_init l))).
  { apply sys_run_inv. split; [cbn; lia|]. split; [cbn; discriminate|]. cbn. split; discriminate. }
  destruct I as (I1 & I2 & I3). split; [exact I1|]. split; [exact I3|].
  intros H. cbn [sys_step]. rewrite (I2 H). split; reflexivity.
Qed.

Lemma never_again l s rs : sys_run sys_init (SNew :: l) = (s, rs) ->
  nth_error rs 0 = Some SOk /\
  forall i, nth_error l i = Some SNew -> nth_error rs (S i) = Some SThrow.
Proof.
  intros H. cbn [sys_run] in H. cbn in H.
  destruct (sys_run _ l) as [s2 rs2] eqn:E. injection H as <- <-. split; [reflexivity|].
  intros i Hi. cbn [nth_error]. eapply flag_stays; [|exact E|exact Hi]. reflexivity.
Qed.
