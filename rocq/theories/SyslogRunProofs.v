(** * Proofs for C118 *)
From Coq Require Import Ascii String NArith Arith List Bool Lia.
From Verif Require Import Base LevelModel EventModel EventProofs RecordModel RecordSpec DecFacts RecordProofs RecordRead
  RecordProps PaintSpec SinkConfig SinkModel SinkSpec SinkProofs SinkLabels SinkLife SinkProps SinkReturn EndModel EndSpec EndProofs
  SyslogModel SyslogSpec SyslogProofs SyslogRunModel SyslogRunSpec.
Import ListNotations.

Lemma call_view F e : settings_ok F -> call_ok e ->
  exists v, to_ev (stored F e) = Some v /\ ev_ok v /\ good_time (f_localtime F) v /\
    v_level v = says_level e /\ sys_line (f_localtime F) (f_thread F) v = tells F e /\ length (v_msg v) <= f_max F.
Proof.
  intros (S1 & S2 & S3 & S4 & S5) (C1 & C2 & C3 & C4).
  assert (Hm : (N.of_nat (f_max F) < 2 ^ 64)%N) by lia.
  destruct (constructed (f_memory F) (f_address F) (g_name e) (f_thread F) (g_level e) (f_max F) (g_time e)
              (g_tname e) (g_tnum e) (g_result e) (g_format e) C3 C2 C4 S3 Hm)
    as (v & Ev & Ok & Vt & Vl & Vn & Vm & Vlen).
  exists v. split; [exact Ev|]. split; [exact Ok|]. split; [split; [apply S4|rewrite Vt; exact C1]|].
  assert (VL : v_level v = says_level e) by (rewrite Vl; unfold says_level, shown_level; destruct (g_result e); reflexivity).
  split; [exact VL|]. split; [|exact Vlen].
  assert (V32 : v_name v = firstn 32 (says_name e)).
  { rewrite Vn. unfold says_name, shown_name. destruct (g_result e); reflexivity. }
  assert (VM : v_msg v = firstn (f_max F) (says_text e)).
  { rewrite Vm. unfold says_text, shown_text. destruct (g_result e); reflexivity. }
  destruct (thread_view (f_memory F) (f_address F) (g_name e) (f_thread F) (g_level e) (f_max F) (g_time e)
              (g_tname e) (g_tnum e) (g_result e) (g_format e) C3 C2 C4 S3 Hm) as [En Et].
  unfold sys_line, tells. rewrite Vt, VL, V32, VM. do 4 f_equal. f_equal.
  set (w := view _ _) in *. clearbody w. unfold to_ev in Ev. destruct (level_of_code _); [|discriminate]. injection Ev as <-.
  unfold sys_thread_part, tells_thread. cbn [v_tname v_tnum]. rewrite En, Et.
  destruct (f_thread F); cbn [thread_part snd fst]; [reflexivity|now rewrite strnlen_before|reflexivity].
Qed.

Lemma tells_length F e : settings_ok F -> call_ok e -> length (tells F e) + 1 <= f_max F + 95.
Proof.
  intros HS HC. destruct (call_view F e HS HC) as (v & _ & Ok & GT & _ & <- & Hm). destruct Ok as (O1 & O2 & _ & O4).
  unfold sys_line. rewrite !app_length, datetime_len. change (length (bs "  ")) with 2.
  assert (L : length (levelToStr (v_level v)) <= 8) by (destruct (v_level v); vm_compute; lia).
  assert (T : length (sys_thread_part (f_thread F) v) <= 24).
  { unfold sys_thread_part. destruct (f_thread F); [simpl; lia|rewrite app_length; simpl length; lia|].
    rewrite !app_length. simpl length. assert (length (dec (v_tnum v)) <= 20); [|lia].
    apply dec_length; [|lia]. eapply N.lt_trans; [exact O4|]. reflexivity. }
  unfold six. cbn [length]. lia.
Qed.

Section Run.
Context {E : Type}.
Variable call : E -> logged.
Variable F : fsettings.
Notation C := (syslog_sink call F).

Lemma sink_sizes : sizes_ok C.
Proof. intros e. exact (file_sizes F (call e)). Qed.

(** ** The messages of one flush() *)
Definition fine (e : E) (v : ev) : Prop :=
  good_time (f_localtime F) v /\ v_level v = says_level (call e) /\ sys_line (f_localtime F) (f_thread F) v = tells F (call e).

Lemma evs_fine es : settings_ok F -> Forall (fun e => call_ok (call e)) es ->
  exists vs, evs call F es = Some vs /\ Forall2 fine es vs.
Proof.
  intros HS H. induction H as [|e es H1 H IH]; [exists []; auto|]. destruct IH as (vs & E1 & E2).
  destruct (call_view F (call e) HS H1) as (v & Ev & _ & V1 & V2 & V3 & _). exists (v :: vs). cbn [evs]. rewrite Ev, E1.
  split; [reflexivity|]. constructor; [split; auto|exact E2].
Qed.

(** The messages, if they fit: the first text, with the priorities of all. *)
Definition first_text (es : list E) : list (N * bytes) :=
  match es with
  | [] => []
  | e :: _ => map (fun p => (p, tells F (call e))) (flat_map (fun e => urgency (call e)) es)
  end.
Definition room (es : list E) : nat := list_sum (map (fun e => length (tells F (call e)) + 1) es).

Lemma pairs_by_fst (l : list (N * bytes)) t : Forall (fun m => snd m = t) l -> l = map (fun p => (p, t)) (map fst l).
Proof. induction 1 as [|[p x] l H1 H IH]; [reflexivity|]. cbn in *. subst x. now rewrite <- IH. Qed.

Lemma sent_exact es : settings_ok F -> Forall (fun e => sendable F (call e)) es ->
  sent_in call F es = if Nat.leb (room es) (N.to_nat (buff_size F)) then Some (first_text es) else None.
Proof.
  intros HS H. assert (HC : Forall (fun e => call_ok (call e)) es) by (eapply Forall_impl; [|exact H]; intros e [? _]; auto).
  destruct (evs_fine es HS HC) as (vs & E1 & E2). unfold sent_in. rewrite E1.
  assert (GT : Forall (good_time (f_localtime F)) vs).
  { clear - E2. induction E2 as [|e v es vs (V1 & _) E2 IH]; constructor; auto. }
  assert (RM : list_sum (map (fun v => length (sys_line (f_localtime F) (f_thread F) v) + 1) vs) = room es).
  { unfold room. clear - E2. induction E2 as [|e v es vs (_ & _ & V3) E2 IH]; [reflexivity|]. cbn [map]. unfold list_sum in *. cbn [fold_right]. rewrite IH, V3. reflexivity. }
  pose proof (flush_fits (N.to_nat (buff_size F)) (f_localtime F) (f_thread F) vs GT) as FF. rewrite RM in FF.
  destruct (Nat.leb_spec (room es) (N.to_nat (buff_size F))) as [Hr|Hr].
  - destruct (sys_flush _ _ _ vs) as [sent|] eqn:EF; [|exfalso; now apply (proj2 FF Hr)]. f_equal.
    assert (PR : map fst sent = flat_map (fun e => urgency (call e)) es).
    { unfold sys_flush in EF. rewrite (priorities_of_flush _ _ _ _ _ _ _ EF). clear - E2.
      induction E2 as [|e v es vs (_ & V2 & _) E2 IH]; [reflexivity|]. cbn [flat_map]. unfold urgency at 1. now rewrite IH, V2. }
    destruct E2 as [|e v es vs (V1 & V2 & V3) E2]; [unfold sys_flush in EF; cbn in EF; injection EF as <-; reflexivity|].
    cbn [first_text]. rewrite <- PR. apply pairs_by_fst. rewrite <- V3.
    apply (all_first _ _ _ v vs sent GT EF). rewrite V3. inversion H as [|? ? [_ HN] _]; exact HN.
  - destruct (sys_flush _ _ _ vs) as [sent|] eqn:EF; [|reflexivity]. exfalso. assert (room es <= N.to_nat (buff_size F)) by (apply FF; discriminate). lia.
Qed.

(** Priorities do not depend on the text. *)
Lemma sent_prio es sent : settings_ok F -> Forall (fun e => call_ok (call e)) es -> sent_in call F es = Some sent ->
  map fst sent = flat_map (fun e => urgency (call e)) es.
Proof.
  intros HS HC H. destruct (evs_fine es HS HC) as (vs & E1 & E2). unfold sent_in in H. rewrite E1 in H. unfold sys_flush in H.
  rewrite (priorities_of_flush _ _ _ _ _ _ _ H). clear - E2.
  induction E2 as [|e v es vs (_ & V2 & _) E2 IH]; [reflexivity|]. cbn [flat_map]. unfold urgency at 1. now rewrite IH, V2.
Qed.

(** ** All flushes *)
Lemma written_app (a b : list (label E)) : written (a ++ b) = written a ++ written b.
Proof. unfold written. now rewrite flat_map_app. Qed.
Lemma accepted_app (a b : list (label E)) : accepted (a ++ b) = accepted a ++ accepted b.
Proof. unfold accepted, accepts. now rewrite flat_map_app, map_app. Qed.

Lemma flushes_concat_from ls : forall part, concat (map (@written E) (cut part ls)) = written (part ++ ls).
Proof.
  induction ls as [|x ls IH]; intros part; [cbn; now rewrite !app_nil_r|].
  destruct x; try (cbn [cut]; rewrite IH, <- app_assoc; reflexivity).
  cbn [cut map concat]. rewrite IH. rewrite (written_app part). reflexivity.
Qed.
Lemma flushes_concat (ls : list (label E)) : concat (flushes ls) = written ls.
Proof. exact (flushes_concat_from ls []). Qed.

Lemma cut_between (ls : list (label E)) : forall a part, (a = [] \/ exists a' t, a = a' ++ [LLock t]) -> forallb (fun x => negb (is_lock x)) part = true ->
  forall x, In x (cut part ls) -> between (a ++ part ++ ls) x.
Proof.
  induction ls as [|y ls IH]; intros a part HA HP x Hx.
  - destruct Hx as [<-|[]]. exists a, []. repeat split; auto.
  - assert (HO : is_lock y = false -> In x (cut (part ++ [y]) ls) -> between (a ++ part ++ y :: ls) x).
    { intros Hy Hi. replace (a ++ part ++ y :: ls) with (a ++ (part ++ [y]) ++ ls) by (now rewrite <- app_assoc).
      apply IH; auto. rewrite forallb_app, HP. cbn. now rewrite Hy. }
    destruct y; try (apply HO; [reflexivity|exact Hx]). cbn [cut] in Hx. destruct Hx as [<-|Hx].
    + exists a, (LLock t :: ls). repeat split; eauto.
    + replace (a ++ part ++ LLock t :: ls) with ((a ++ part ++ [LLock t]) ++ [] ++ ls) by (now rewrite <- !app_assoc).
      apply IH; auto. right. exists (a ++ part), t. now rewrite app_assoc.
Qed.
Lemma flush_between (ls : list (label E)) es : In es (flushes ls) -> exists part, between ls part /\ es = written part.
Proof.
  unfold flushes. rewrite in_map_iff. intros (part & <- & H). exists part. split; [|reflexivity].
  exact (cut_between ls [] [] (or_introl eq_refl) eq_refl part H).
Qed.

Lemma prios fs : settings_ok F -> forall sent, Forall (fun e => call_ok (call e)) (concat fs) -> all_sent call F fs = Some sent ->
  map fst sent = flat_map (fun e => urgency (call e)) (concat fs).
Proof.
  intros HS. induction fs as [|es fs IH]; intros sent H HE; cbn in *; [injection HE as <-; reflexivity|].
  apply Forall_app in H. destruct H as [H1 H2]. destruct (sent_in call F es) as [a|] eqn:E1; [|discriminate].
  destruct (all_sent call F fs) as [b|]; [|discriminate]. injection HE as <-.
  rewrite map_app, flat_map_app, (sent_prio es a HS H1 E1), (IH b H2 eq_refl). reflexivity.
Qed.

Lemma exact fs : settings_ok F -> Forall (fun e => sendable F (call e)) (concat fs) ->
  all_sent call F fs = if forallb (fun es => Nat.leb (room es) (N.to_nat (buff_size F))) fs then Some (flat_map first_text fs) else None.
Proof.
  intros HS. induction fs as [|es fs IH]; intros H; [reflexivity|]. cbn [concat] in H. apply Forall_app in H. destruct H as [H1 H2].
  cbn [all_sent forallb flat_map]. rewrite (sent_exact es HS H1), (IH H2). destruct (Nat.leb _ _); [|reflexivity]. cbn [andb].
  destruct (forallb _ fs); reflexivity.
Qed.

Lemma room_le es : settings_ok F -> Forall (fun e => call_ok (call e)) es -> room es <= length es * (f_max F + 95).
Proof.
  intros HS. unfold room. induction 1 as [|e es H1 H IH]; [cbn; lia|]. cbn [map length]. unfold list_sum in *. cbn [fold_right].
  pose proof (tells_length F (call e) HS H1). lia.
Qed.

(** ** Executions *)
Variable n : nat.

Lemma wr_prefix s ls : reach C true n s ls -> exists k, written ls = firstn k (accepted ls) /\
  length (accepted ls) <= k + f_capacity F + 1 /\ k <= length (accepted ls).
Proof.
  intros H. exists (length (written ls)). pose proof (syslog_in_order C n s ls sink_sizes H) as EQ.
  pose proof (pending_bound C true n s ls sink_sizes (or_intror eq_refl) H) as PB. cbn [c_cap syslog_sink] in PB.
  split; [|split]; rewrite EQ.
  - rewrite firstn_app, Nat.sub_diag, firstn_all. cbn. now rewrite app_nil_r.
  - rewrite app_length. lia.
  - rewrite app_length. lia.
Qed.

Lemma Forall_firstn {A} (P : A -> Prop) k l : Forall P l -> Forall P (firstn k l).
Proof. intros H. rewrite <- (firstn_skipn k l) in H. apply Forall_app in H. apply H. Qed.

Theorem priorities s ls sent : settings_ok F -> reach C true n s ls -> Forall (fun e => call_ok (call e)) (accepted ls) ->
  received call F ls = Some sent ->
  exists k, map fst sent = flat_map (fun e => urgency (call e)) (firstn k (accepted ls)) /\
    length (accepted ls) <= k + f_capacity F + 1.
Proof.
  intros HS HR HC H. destruct (wr_prefix s ls HR) as (k & E1 & E2 & _). exists k. split; [|exact E2].
  rewrite <- E1, <- flushes_concat. apply (prios _ HS); [|exact H]. rewrite flushes_concat, E1. now apply Forall_firstn.
Qed.

Theorem destroyed s ls u sent : settings_ok F -> f_lat0 F = false -> reach C true n s ls -> In (LDestroyed u) ls ->
  Forall (fun e => call_ok (call e)) (accepted ls) -> received call F ls = Some sent ->
  map fst sent = flat_map (fun e => urgency (call e)) (accepted ls).
Proof.
  intros HS HL HR HD HC H. destruct (destroyed_complete C n s ls u sink_sizes HL HR HD) as (W & _).
  rewrite <- W in *. rewrite <- flushes_concat in *. exact (prios _ HS _ HC H).
Qed.

Lemma sendable_written s ls : reach C true n s ls -> Forall (fun e => sendable F (call e)) (accepted ls) ->
  Forall (fun e => sendable F (call e)) (concat (flushes ls)).
Proof.
  intros HR H. rewrite flushes_concat. destruct (wr_prefix s ls HR) as (k & -> & _). now apply Forall_firstn.
Qed.

Theorem texts s ls sent : settings_ok F -> reach C true n s ls -> Forall (fun e => sendable F (call e)) (accepted ls) ->
  received call F ls = Some sent -> sent = flat_map first_text (flushes ls).
Proof.
  intros HS HR HC H. unfold received in H. rewrite (exact _ HS (sendable_written s ls HR HC)) in H.
  destruct (forallb _ _); [|discriminate]. now injection H as <-.
Qed.

Lemma buffer_holds : settings_ok F -> f_max F + 95 <= N.to_nat (buff_size F).
Proof. intros (S1 & S2 & _). unfold buff_size. rewrite auto_fix_max by exact S2. lia. Qed.

Theorem own_text s ls : settings_ok F -> reach C true n s ls -> Forall (fun e => sendable F (call e)) (accepted ls) ->
  (forall part, between ls part -> length (written part) <= 1) ->
  received call F ls = Some (flat_map (fun e => map (fun p => (p, tells F (call e))) (urgency (call e))) (written ls)).
Proof.
  intros HS HR HC H1. pose proof (sendable_written s ls HR HC) as HW. unfold received. rewrite (exact _ HS HW).
  assert (HF : Forall (fun es => length es <= 1) (flushes ls)).
  { apply Forall_forall. intros es Hi. destruct (flush_between ls es Hi) as (part & B & ->). auto. }
  rewrite <- flushes_concat. pose proof (buffer_holds HS) as BH. clear - HF HW HS BH.
  induction HF as [|es fs H HF IH]; [reflexivity|]. cbn [concat forallb flat_map] in *. apply Forall_app in HW. destruct HW as [W1 W2].
  specialize (IH W2). assert (R : Nat.leb (room es) (N.to_nat (buff_size F)) = true).
  { apply Nat.leb_le. pose proof (room_le es HS ltac:(eapply Forall_impl; [|exact W1]; intros e [? _]; auto)). nia. }
  rewrite R. cbn [andb]. destruct (forallb _ fs); [|discriminate]. injection IH as ->. f_equal. rewrite flat_map_app. f_equal.
  destruct es as [|e [|e2 es]]; [reflexivity| |cbn in H; lia]. cbn [first_text flat_map]. now rewrite !app_nil_r.
Qed.

(** What a flush() finds: what was there, and what came meanwhile. *)
Lemma step_parts s m p r : snd (step C s m) = p ++ r -> r = [] \/ (written p = [] /\ accepted p = []).
Proof.
  intros H. destruct r as [|y r]; [auto|]. right. destruct p as [|x p]; [auto|].
  assert (HL : (exists t l e, x = LPush t l e /\ p = []) \/ (exists t, x = LUnlock t /\ p = [])).
  { destruct m as [t c|k]; [|discriminate H]. cbn [step] in H. destruct (nth_error (thr s) t) as [pc|]; [|discriminate H].
    assert (ONE : forall z, [z] = (x :: p) ++ y :: r -> False).
    { intros z Hz. apply (f_equal (@length _)) in Hz. cbn in Hz. rewrite app_length in Hz. cbn in Hz. lia. }
    assert (NONE : [] = (x :: p) ++ y :: r -> False) by discriminate.
    assert (TWO : forall u z, [u; z] = (x :: p) ++ y :: r -> x = u /\ p = []).
    { intros u z Hz. injection Hz as -> Hz. destruct p as [|x2 p]; [auto|]. apply (f_equal (@length _)) in Hz. cbn in Hz. rewrite app_length in Hz. cbn in Hz. lia. }
    destruct pc; cbn [step_thread] in H.
    all: repeat match type of H with
      | context [match ?d with _ => _ end] => destruct d
      end; cbn [snd] in H.
    all: try (exfalso; exact (NONE H)); try (exfalso; exact (ONE _ H)).
    all: try (destruct (TWO _ _ H) as [-> ->]; left; eauto; fail).
    all: unfold ret_label in H; match type of H with context [match ?d with _ => _ end] => destruct d end; try (exfalso; exact (NONE H)); try (exfalso; exact (ONE _ H)).
    all: destruct (TWO _ _ H) as [-> ->]; right; eauto. }
  destruct HL as [(t & l & e & -> & ->)|(t & -> & ->)]; split; reflexivity.
Qed.

Lemma app_split {A} (a b x y : list A) : a ++ b = x ++ y ->
  (exists z, a = x ++ z /\ y = z ++ b) \/ (exists z, x = a ++ z /\ b = z ++ y).
Proof.
  revert x. induction a as [|h a IH]; intros x H; [right; exists x; auto|].
  destruct x as [|h' x]; [left; exists (h :: a); auto|]. cbn in H. injection H as -> H.
  destruct (IH x H) as [(z & -> & ->)|(z & -> & ->)]; [left|right]; exists z; auto.
Qed.

Lemma balance s ls : reach C true n s ls -> forall x y, ls = x ++ y ->
  length (written x) <= length (accepted x) <= length (written x) + f_capacity F + 1.
Proof.
  revert s ls. apply (reach_ind C true n (fun s ls => forall x y, ls = x ++ y ->
    length (written x) <= length (accepted x) <= length (written x) + f_capacity F + 1)).
  - intros x y H. symmetry in H. apply app_eq_nil in H. destruct H as [-> _]. cbn. lia.
  - intros s ls m HR IH x y H. apply app_split in H. destruct H as [(z & -> & _)|(z & -> & H)]; [exact (IH x z eq_refl)|].
    destruct (step_parts s m z y H) as [->|[H1 H2]].
    + rewrite app_nil_r in H. rewrite <- H. pose proof (reach_step C true n s ls m HR) as HR'. destruct (wr_prefix _ _ HR') as (k & E1 & E2 & E3).
      rewrite E1, firstn_length, Nat.min_l by exact E3. lia.
    + rewrite written_app, accepted_app, H1, H2, !app_nil_r. exact (IH ls [] (eq_sym (app_nil_r ls))).
Qed.

Theorem found s ls part : reach C true n s ls -> between ls part ->
  length (written part) <= f_capacity F + 1 + length (accepted part).
Proof.
  intros HR (a & b & H & _). pose proof (balance s ls HR a (part ++ b) H) as H1.
  pose proof (balance s ls HR (a ++ part) b ltac:(now rewrite <- app_assoc)) as H2.
  rewrite written_app, accepted_app, !app_length in H2. lia.
Qed.

Theorem fits s ls : settings_ok F -> reach C true n s ls -> Forall (fun e => sendable F (call e)) (accepted ls) ->
  (forall part, between ls part -> (f_capacity F + 1 + length (accepted part)) * (f_max F + 95) <= N.to_nat (buff_size F)) ->
  received call F ls <> None.
Proof.
  intros HS HR HC HB. pose proof (sendable_written s ls HR HC) as HW. unfold received. rewrite (exact _ HS HW).
  assert (HF : forallb (fun es => Nat.leb (room es) (N.to_nat (buff_size F))) (flushes ls) = true); [|rewrite HF; discriminate].
  apply forallb_forall. intros es Hi. apply Nat.leb_le. destruct (flush_between ls es Hi) as (part & B & E1).
  assert (W : Forall (fun e => call_ok (call e)) es).
  { apply Forall_forall. intros e He. rewrite Forall_forall in HW. apply HW. apply in_concat. eauto. }
  pose proof (room_le es HS W). pose proof (found s ls part HR B). specialize (HB part B). rewrite <- E1 in *. nia.
Qed.
End Run.

(** ** Every record is handed over by the flush() in progress *)
Section Own.
Context {E : Type}.
Variable C : cfg E.
Variable op : bool.
Variable n : nat.
Hypothesis HS : sizes_ok C.
Hypothesis HD : has_dest C op.

Definition quiet (x : label E) : bool := match x with LLock _ | LUnlock _ => false | _ => true end.
Definition begun (t : nat) (ls : list (label E)) : Prop :=
  exists a b, ls = a ++ LLock t :: b /\ forallb quiet b = true.

Lemma begun_more t ls l : begun t ls -> forallb quiet l = true -> begun t (ls ++ l).
Proof.
  intros (a & b & -> & H) Hl. exists a, (b ++ l). split; [now rewrite <- app_assoc|]. now rewrite forallb_app, H, Hl.
Qed.

Lemma step_quiet s m : forallb quiet (snd (step C s m)) = true \/
  exists t c p, m = MThread t c /\ nth_error (thr s) t = Some p /\
    ((snd (step C s m) = [LLock t] /\ fip s = false) \/ inflush p = true).
Proof.
  destruct m as [t c|k]; [|left; reflexivity]. cbn [step]. destruct (nth_error (thr s) t) as [p|] eqn:Hp; [|left; reflexivity].
  destruct (inflush p) eqn:HI; [right; exists t, c, p; auto|].
  destruct p; try discriminate HI; cbn [step_thread].
  all: try (left; repeat match goal with |- context [match ?d with _ => _ end] => destruct d end; reflexivity).
  destruct (fip s) eqn:Hf; [left; unfold ret_label; destruct k; reflexivity|].
  right. exists t, c, (FTas k). auto.
Qed.

Lemma step_other s t c u : u <> t -> nth_error (thr (fst (step C s (MThread t c)))) u = nth_error (thr s) u.
Proof.
  intros Hu. cbn [step]. destruct (nth_error (thr s) t) as [p|] eqn:Hp; [|reflexivity].
  assert (HO : forall s' q', thr s' = thr s -> nth_error (thr (s_thr s' t q')) u = nth_error (thr s) u).
  { intros s' q' H'. cbn [s_thr thr]. rewrite H'. apply nth_error_upd_other. auto. }
  destruct p; cbn [step_thread];
  repeat match goal with |- context [match ?d with _ => _ end] => destruct d end; cbn [fst]; first [reflexivity|apply HO; reflexivity].
Qed.

Lemma in_progress s ls : reach C op n s ls -> forall t p, nth_error (thr s) t = Some p -> inflush p = true -> begun t ls.
Proof.
  revert s ls. apply (reach_ind C op n (fun s ls => forall t p, nth_error (thr s) t = Some p -> inflush p = true -> begun t ls)).
  - intros t p H HI. exfalso. cbn [init thr] in H. destruct t as [|t]; cbn in H.
    + injection H as <-. revert HI. case (c_lat0 C); [discriminate|case op; discriminate].
    + apply nth_error_In in H. apply repeat_spec in H. subst p. discriminate HI.
  - intros s ls m HR IH u p' Hp' HI'. destruct (step_quiet s m) as [Q|(t & c & p & -> & Hp & HQ)].
    + apply begun_more; [|exact Q]. destruct m as [t c|k]; [|exact (IH u p' Hp' HI')].
      destruct (Nat.eq_dec u t) as [->|Hu]; [|rewrite step_other in Hp' by exact Hu; exact (IH u p' Hp' HI')].
      destruct (nth_error (thr s) t) as [p|] eqn:Hp; [|cbn [step] in Hp'; rewrite Hp in Hp'; cbn [fst] in Hp'; congruence].
      destruct (inflush p) eqn:HI; [exact (IH t p Hp HI)|]. exfalso.
      cbn [step] in Hp', Q. rewrite Hp in Hp', Q.
      assert (HO : forall s' q', thr s' = thr s -> nth_error (thr (s_thr s' t q')) t = Some p' -> inflush q' = true).
      { intros s' q' H' H2. cbn [s_thr thr] in H2. rewrite H' in H2. rewrite nth_error_upd in H2 by (apply nth_error_Some; congruence). injection H2 as <-. exact HI'. }
      destruct p; try discriminate HI; cbn [step_thread] in Hp', Q;
      repeat match type of Hp' with context [match ?d with _ => _ end] => destruct d end; cbn [fst snd] in Hp', Q;
      first [discriminate Q | (rewrite Hp in Hp'; injection Hp' as <-; discriminate HI')
            | (apply HO in Hp'; [|reflexivity]; first [discriminate Hp' | (destruct k; discriminate Hp')])].
    + pose proof (reach_inv C op n s ls HS HD HR) as IV. destruct (Nat.eq_dec u t) as [->|Hu].
      * destruct HQ as [[HQ _]|HI]; [rewrite HQ; exists ls, []; auto|].
        specialize (IH t p Hp HI). destruct p; try discriminate HI.
        all: try (apply begun_more; [exact IH|]; cbn [step]; rewrite Hp; cbn [step_thread];
                  repeat match goal with |- context [match ?d with _ => _ end] => destruct d end; reflexivity).
        exfalso. cbn [step] in Hp'. rewrite Hp in Hp'. cbn [step_thread fst s_thr s_flags thr] in Hp'.
        rewrite nth_error_upd in Hp' by (apply nth_error_Some; congruence). injection Hp' as <-. destruct k; discriminate HI'.
      * exfalso. rewrite step_other in Hp' by exact Hu. destruct HQ as [[_ HF]|HI].
        -- pose proof (I_flag C s IV) as IFl. rewrite HF in IFl. assert (In tt (flat_map fl (thr s))); [|rewrite IFl in *; contradiction].
           apply in_flat_map. exists p'. split; [eapply nth_error_In; exact Hp'|]. unfold fl. rewrite HI'. now left.
        -- apply Hu. exact (inflush_unique C s u t p' p IV Hp' Hp HI' HI).
Qed.

Lemma step_write s m z t e r : snd (step C s m) = z ++ LWrite t e :: r ->
  z = [] /\ exists p, nth_error (thr s) t = Some p /\ inflush p = true.
Proof.
  intros H. destruct m as [u c|k]; [|destruct z; discriminate H]. cbn [step] in H.
  destruct (nth_error (thr s) u) as [p|] eqn:Hp; [|destruct z; discriminate H].
  destruct p; cbn [step_thread] in H;
  repeat match type of H with context [match ?d with _ => _ end] => destruct d end; cbn [snd] in H;
  try (destruct z as [|x [|x2 z]]; first [discriminate H | (injection H; intros; discriminate) | (destruct z; discriminate H)]).
  all: try (destruct z as [|x z]; [injection H as -> -> _; split; [reflexivity|]; eexists; split; [exact Hp|reflexivity]|destruct z; discriminate H]).
  all: destruct k; destruct z as [|x [|x2 [|x3 z]]]; first [discriminate H | (injection H; intros; discriminate)].
Qed.

Theorem own_flush s ls a t e b : reach C op n s ls -> ls = a ++ LWrite t e :: b -> begun t a.
Proof.
  intros HR. revert a b. revert s ls HR. apply (reach_ind C op n (fun s ls => forall a b, ls = a ++ LWrite t e :: b -> begun t a)).
  - intros a b H. destruct a; discriminate H.
  - intros s ls m HR IH a b H.
    assert (HW : forall z r, snd (step C s m) = z ++ LWrite t e :: r -> begun t (ls ++ z)).
    { intros z r Hz. destruct (step_write s m z t e r Hz) as (-> & p & Hp & HI). rewrite app_nil_r. exact (in_progress s ls HR t p Hp HI). }
    apply app_split in H. destruct H as [(z & E1 & H)|(z & -> & H)]; [|exact (HW z b H)].
    destruct z as [|x z]; [|injection H as <- _; exact (IH a z E1)].
    rewrite app_nil_r in E1. subst a. specialize (HW [] b (eq_sym H)). now rewrite app_nil_r in HW.
Qed.
End Own.
