(** * Proofs: what can be read on a console (C117, C121) *)
From Coq Require Import Ascii String NArith ZArith List Arith Bool Lia.
From Verif Require Import Base LevelModel SinkConfig SysModel SysSpec YamlModel YamlSpec YamlActSpec DeployModel DeploySpec DeployProofs StackModel StackDoc.
From Verif Require EventModel RecordModel SinkModel SinkSpec FullModel PoolModel PoolSpec EndModel EndSpec ConsoleSpec ConsoleRead.
Import ListNotations.

Section Run.
Variable lt : N -> RecordModel.tm.
Variable memory : EventModel.mem.
Variable address : N.
Variable fg_first : bool.
Variable ds : list sink_desc.
Variable op : nat -> bool.
Variable n : nat.
Variable ord : list nat -> list nat.
Variable dbg : bool.

Variable L : lib.
Variable fuel : nat.
Hypothesis UL : usual_lib L.
Hypothesis RH : refuses_huge_buffers L.
Variable busy : bool.
Variable src : source.
Variable doc : node.
Variable w1 : world.
Variable gs : list gdecl.
Hypothesis D : document src doc.
Hypothesis DR : doc_read L false (before_configure busy) doc w1 gs.
Hypothesis ND : NoDup (map e_name (all_entries None gs)).
Hypothesis HD : ds = sinks_of (w_log w1).

Lemma doc_console d st color ti z : In d ds -> d_kind d = KConsole st color ti z -> platform_ok L lt address ->
  let F := console_settings lt memory address (d_level d) ti z in
  EndSpec.settings_ok F /\ (N.of_nat (EndModel.f_max F) + 161 <= N.max (EndModel.f_buffer F) (2 * N.of_nat (EndModel.f_max F)))%N.
Proof using UL DR HD.
  intros Hd Hk (P1 & P2 & P3) F.
  assert (HS : exists x, sizes_read L true x z).
  { rewrite HD in Hd. assert (forall w l w2, sinks_read L w l w2 -> In d (sinks_of (w_log w2)) -> In d (sinks_of (w_log w)) \/ exists m x, sink_read L m x d).
    { induction 1 as [w|w x d0 l w2 SR M C SS IH]; [auto|]. intros H. destruct (IH H) as [H1|H1]; [|now right].
      unfold world_with_sink in H1. cbn [w_log] in H1. unfold sinks_of in H1. rewrite flat_map_app in H1. apply in_app_or in H1.
      destruct H1 as [H1|[->|[]]]; [now left|]. right. eauto. }
    destruct DR as (_ & [[_ ->]|(l & _ & HS)] & _); [destruct Hd|]. destruct (H _ _ _ HS Hd) as [[]|(m & x & SR)].
    destruct SR as (_ & _ & _ & KR). rewrite Hk in KR; inversion KR; subst; eauto. }
  destruct HS as (x & S1 & S2 & S3 & _). destruct UL as [UI _ UE]. unfold EndSpec.settings_ok, F, console_settings.
  cbn [EndModel.f_max EndModel.f_buffer EndModel.f_address EndModel.f_localtime EndModel.f_capacity]. rewrite N2Nat.id.
  assert (M : (64 <= or_default (z_message z) console_max_message_default < 2 ^ 31)%N).
  { inversion S3 as [H0 H1|t v Ht (y & Hx & Hg & Hv) H1]; cbn [or_default]; [unfold console_max_message_default; lia|].
    rewrite Hv. cbn [or_default]. unfold good_message in Hg. pose proof (UI t y Hx). lia. }
  assert (B : (416 <= or_default (z_buffer z) console_buffer_default)%N).
  { inversion S2 as [H0 H1|t v Ht (y & Hx & Hg & Hv) H1]; cbn [or_default]; [unfold console_buffer_default; lia|].
    rewrite Hv. cbn [or_default]. unfold good_buffer in Hg. unfold EventModel.sizeof_Event in P3. lia. }
  assert (C : (4 <= or_default (z_capacity z) console_capacity_default)%N).
  { inversion S1 as [H0 H1|t v Ht (y & Hx & Hg & Hv) H1]; cbn [or_default]; [unfold console_capacity_default; lia|].
    rewrite Hv. cbn [or_default]. unfold good_capacity in Hg. lia. }
  repeat split; try lia; auto; apply P1.
Qed.

Lemma in_due id x e : In e (due gs ds id x) -> e = named (snd (fst x)) (snd x).
Proof using Type.
  destruct x as [[g Lg] y]. unfold due. destruct (group_settings gs g) as [[lv nm]|]; [|intros []]. destruct (TreeSpec.passes_b _ _); [|intros []].
  intros H. apply repeat_spec in H. exact H.
Qed.

Lemma lines_read tr j d st color ti z (out : bytes) :
  nth_error ds j = Some d -> d_kind d = KConsole st color ti z -> platform_ok L lt address ->
  (forall t g Lg e, In (DSaid t g Lg e) tr ->
     EndSpec.call_ok (taken_down (S j) (named Lg e)) /\ EndSpec.legible (taken_down (S j) (named Lg e)) /\
     (color = true -> ConsoleSpec.paintable (taken_down (S j) (named Lg e)))) ->
  let F := console_settings lt memory address (d_level d) ti z in
  forall lines : list (nat * said),
  out = concat (map (fun x => console_record lt fg_first color F (taken_down (S j) (snd x))) lines) ->
  Forall (fun x => 1 <= fst x <= n) lines ->
  (forall t, 1 <= t <= n -> map snd (filter (fun x => Nat.eqb (fst x) t) lines) = flat_map (due gs ds (S j)) (said_by t tr)) ->
  EndSpec.read_file F (ConsoleSpec.on_terminal color out) = map (fun x => EndSpec.reads F (taken_down (S j) (snd x))) lines.
Proof using UL DR HD.
  intros Ej Ek PO SC F lines -> E2 E3. destruct (doc_console d st color ti z (nth_error_In _ _ Ej) Ek PO) as [SO RM]. fold F in SO, RM.
  rewrite <- (map_map (fun x => taken_down (S j) (snd x)) (console_record lt fg_first color F)),
    <- (map_map (fun x => taken_down (S j) (snd x)) (EndSpec.reads F)).
  apply (ConsoleRead.console_read F fg_first SO RM color). apply Forall_map. rewrite Forall_forall in *. intros [t e] Hx.
  specialize (E2 _ Hx). cbn [fst snd] in *. specialize (E3 t E2).
  assert (Hi : In e (flat_map (due gs ds (S j)) (said_by t tr))).
  { rewrite <- E3. apply in_map_iff. exists (t, e). split; [reflexivity|]. apply filter_In. split; [exact Hx|]. apply Nat.eqb_refl. }
  apply in_flat_map in Hi. destruct Hi as (y & Y1 & Y2). rewrite (in_due _ _ _ Y2). eapply SC. apply DeployProofs.in_said. exact Y1.
Qed.

Theorem console_read_doc w' ms s tr j d st color ti z u :
  fst (yaml L ord fuel dbg None src (before_configure busy)) = w' -> Forall plain ms ->
  dexec lt memory address fg_first ds n ord dbg (dstart lt memory address fg_first ds op n (w_sys w')) ms = (s, tr) ->
  nth_error ds j = Some d -> d_kind d = KConsole st color ti z -> z_latency z <> Some 0%N -> op (S j) = true ->
  In (SinkModel.LDestroyed u) (in_sink (S j) tr) -> platform_ok L lt address ->
  (forall t g Lg e, In (DSaid t g Lg e) tr ->
     EndSpec.call_ok (taken_down (S j) (named Lg e)) /\ EndSpec.legible (taken_down (S j) (named Lg e)) /\
     (color = true -> ConsoleSpec.paintable (taken_down (S j) (named Lg e)))) ->
  let F := console_settings lt memory address (d_level d) ti z in
  exists lines : list (nat * said),
    EndSpec.read_file F (ConsoleSpec.on_terminal color (concat (SinkSpec.files (PoolModel.leaf (d_pool s) (S j))))) =
      map (fun x => EndSpec.reads F (taken_down (S j) (snd x))) lines /\
    Forall (fun x => 1 <= fst x <= n) lines /\
    forall t, 1 <= t <= n -> map snd (filter (fun x => Nat.eqb (fst x) t) lines) = flat_map (due gs ds (S j)) (said_by t tr).
Proof.
  intros EY HP X Ej Ek HL HO HI PO SC F.
  destruct (console_out lt memory address fg_first ds op n ord dbg L fuel UL RH busy src doc w1 gs D DR ND HD w' ms s tr j d st color ti z u EY HP X Ej Ek HL HO HI)
    as (_ & _ & _ & lines & E1 & E2 & E3).
  exists lines. split; [|split; [exact E2|exact E3]]. exact (lines_read tr j d st color ti z _ Ej Ek PO SC lines E1 E2 E3).
Qed.

Theorem console_read_stack w' ms x tr j d st color ti z u :
  fst (yaml L ord fuel dbg None src (before_configure busy)) = w' -> Forall plain ms ->
  xexec lt memory address fg_first ds n ord dbg (xstart lt memory address fg_first ds op n (w_sys w')) ms = Some (x, tr) ->
  nth_error ds j = Some d -> d_kind d = KConsole st color ti z -> z_latency z <> Some 0%N -> op (S j) = true ->
  In (SinkModel.LDestroyed u) (in_sink (S j) tr) -> platform_ok L lt address ->
  (forall t g Lg e, In (DSaid t g Lg e) tr ->
     EndSpec.call_ok (taken_down (S j) (named Lg e)) /\ EndSpec.legible (taken_down (S j) (named Lg e)) /\
     (color = true -> ConsoleSpec.paintable (taken_down (S j) (named Lg e)))) ->
  let F := console_settings lt memory address (d_level d) ti z in
  exists lines : list (nat * said),
    EndSpec.read_file F (ConsoleSpec.on_terminal color (concat (SinkSpec.files (FullModel.rest (sleaf (x_pool x) (S j)))))) =
      map (fun x => EndSpec.reads F (taken_down (S j) (snd x))) lines /\
    Forall (fun x => 1 <= fst x <= n) lines /\
    forall t, 1 <= t <= n -> map snd (filter (fun x => Nat.eqb (fst x) t) lines) = flat_map (due gs ds (S j)) (said_by t tr).
Proof.
  intros EY HP X Ej Ek HL HO HI PO SC F.
  destruct (stack_console lt memory address fg_first ds op n ord dbg L fuel UL RH busy src doc w1 gs D DR ND HD w' ms x tr j d st color ti z u EY HP X Ej Ek HL HO HI)
    as (_ & _ & _ & lines & E1 & E2 & E3).
  exists lines. split; [|split; [exact E2|exact E3]]. exact (lines_read tr j d st color ti z _ Ej Ek PO SC lines E1 E2 E3).
Qed.
End Run.
