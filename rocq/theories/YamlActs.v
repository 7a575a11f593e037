(** * Consequences for any outcome *)
From Coq Require Import String List Arith ZArith NArith Bool Lia.
From Verif Require Import Base LevelModel EventModel SysModel SysSpec SysBase SysInv SysFrame SysFuel SysProps SysMore YamlModel YamlSpec YamlOutSpec YamlActSpec YamlFacts YamlGroups YamlDoc YamlTrace.
Import ListNotations.
Local Open Scope string_scope.
Local Open Scope list_scope.

(** ** Names of groups stay *)
Lemma map_set_at (l : list group) i x X : nth_error l i = Some X -> g_name x = g_name X -> map g_name (set_at l i x) = map g_name l.
Proof.
  revert i. induction l as [|y l IH]; intros [|i] H E; cbn in *; try discriminate.
  - inversion H; subst. now rewrite E.
  - f_equal. eauto.
Qed.
Definition keeps_name (f : group -> group) : Prop := forall x, g_name (f x) = g_name x.
Lemma mod_names s g f : keeps_name f -> map g_name (groups (mod_group s g f)) = map g_name (groups s).
Proof. intros K. unfold mod_group. destruct (nth_error _ _) eqn:E; auto. cbn. eapply map_set_at; eauto. Qed.
Lemma refresh_names up gs i : (forall p y, keeps_name (up p y)) -> map g_name (refresh up gs i) = map g_name gs.
Proof.
  intros K. unfold refresh. destruct (nth_error gs i) as [x|] eqn:E; auto. destruct (g_parent x) as [p|]; auto.
  destruct (nth_error gs p); auto. eapply map_set_at; eauto. apply K.
Qed.
Section Names.
Variable ord : list nat -> list nat.
Lemma stages_names up st : (forall p y, keeps_name (up p y)) -> forall gs, map g_name (run_stages ord up gs st) = map g_name gs.
Proof.
  intros K. unfold run_stages. induction st as [|l st IH]; intros gs; cbn; auto. rewrite IH.
  generalize (ord l). clear l. intros l. revert gs. induction l as [|i l IHl]; intros gs; cbn; auto. rewrite IHl. now apply refresh_names.
Qed.
Lemma spread_names fuel ov up lup s g s' : (forall p y, keeps_name (up p y)) -> spread ord fuel ov up lup s g = Some s' ->
  map g_name (groups s') = map g_name (groups s) /\ sinks s' = sinks s.
Proof.
  intros K. unfold spread. destruct (scan _ _ _ _ _ _ _) as [[p st]|]; [|discriminate].
  destruct (spread_loggers _ _ _ _ _) as [ls lm]. intros H. inversion H; subst. cbn. split; auto. now apply stages_names.
Qed.
Lemma keeps_level l : keeps_name (g_set_level l). Proof. intros x. unfold g_set_level. now destruct (g_parent x). Qed.
Lemma keeps_sink l : keeps_name (g_set_sink l). Proof. intros x. unfold g_set_sink. now destruct (g_parent x). Qed.
Lemma keeps_level_from i y : keeps_name (g_level_from i y). Proof. intros x. reflexivity. Qed.
Lemma keeps_sink_from i y : keeps_name (g_sink_from i y). Proof. intros x. reflexivity. Qed.
Lemma keeps_unset : keeps_name g_unset_parent. Proof. intros x. reflexivity. Qed.
Lemma keeps_parent o : keeps_name (g_set_parent o).
Proof. intros x. destruct o as [[i y]|]; cbn; auto. destruct (g_sov x), (g_lov x); reflexivity. Qed.
Lemma mod_sinks s g f : sinks (mod_group s g f) = sinks s.
Proof. unfold mod_group. destruct (nth_error _ _); reflexivity. Qed.
Lemma set_call_names fuel dbg s c : set_call c ->
  map g_name (groups (fst (step ord fuel dbg s c))) = map g_name (groups s) /\ sinks (fst (step ord fuel dbg s c)) = sinks s.
Proof.
  destruct c; cbn [set_call]; try contradiction; intros _; cbn [step].
  - destruct (find (gmap s) g) as [gi|]; [|auto]. destruct (find (gmap s) p) as [pi|]; [|auto].
    match goal with |- context [if oeqb ?x ?y then Some false else climbs_to ?f ?gs ?g ?c] =>
      destruct (if oeqb x y then Some false else climbs_to f gs g c) as [[]|]; auto end.
    unfold ret. destruct (set_parent_of_group _ _ _ _ _) as [s'|] eqn:H; auto. cbn [fst]. unfold set_parent_of_group in H.
    apply spread_names in H as [-> ->]; [|intros; apply keeps_parent]. rewrite mod_names, mod_sinks by apply keeps_parent.
    destruct (nth_error (groups s) pi) as [y|]; auto. destruct (oeqb _ _); auto. rewrite mod_names, mod_sinks by apply keeps_unset. auto.
  - destruct (find (smap s) k) as [ki|]; [|auto]. destruct (find (gmap s) g) as [gi|]; [|auto].
    unfold ret. destruct (set_sink_of_group _ _ _ _ _) as [s'|] eqn:H; auto. cbn [fst]. unfold set_sink_of_group in H.
    apply spread_names in H as [-> ->]; [|intros; apply keeps_sink_from]. rewrite mod_names, mod_sinks by apply keeps_sink. auto.
  - destruct (find (gmap s) g) as [gi|]; [|auto].
    unfold ret. destruct (set_level_of_group _ _ _ _ _) as [s'|] eqn:H; auto. cbn [fst]. unfold set_level_of_group in H.
    apply spread_names in H as [-> ->]; [|intros; apply keeps_level_from]. rewrite mod_names, mod_sinks by apply keeps_level. auto.
Qed.
End Names.

Section Run.
Variable L : lib.
Variable safe : Prop.
Variable ord : list nat -> list nat.
Variable fuel : nat.
Variable dbg : bool.
Notation acts := (acts L safe ord fuel dbg).
Notation step := (step ord fuel dbg).

(** ** One call *)
Lemma construct_name n p k lv X : g_construct n p k lv = Some X -> g_name X = n.
Proof. destruct p as [[[i y]|]|], k as [[k|]|], lv as [l|]; cbn; intros G; inversion G; reflexivity. Qed.
Lemma make_effect s n p k lv :
  fst (step s (MakeGroup n p k lv)) = s \/
  exists X, g_name X = n /\ fst (step s (MakeGroup n p k lv)) = register (with_groups s (groups s ++ [X])) (length (groups s)) n.
Proof.
  cbn [SysModel.step]. destruct (construct s n p k lv) as [[s1 i]|] eqn:C; [|now left]. right. cbn [fst].
  unfold construct in C. destruct (g_construct _ _ _ _) as [X|] eqn:G; [|discriminate]. inversion C; subst. exists X. split; auto.
  eapply construct_name, G.
Qed.

Lemma call_star w c : sane_call safe w c -> star_kept (w_sys w) (fst (step (w_sys w) c)).
Proof.
  intros S. set (s := w_sys w) in *. destruct c; try contradiction.
  - destruct S as (N & NP & F & _). fold s in F. destruct (make_effect s name parent sink lv) as [->|(X & EX & ->)].
    { unfold star_kept. repeat split; auto; exists []; now rewrite app_nil_r. }
    unfold star_kept, register. cbn [smap sinks groups gmap with_gmap with_groups].
    split; [reflexivity|]. split; [exists []; now rewrite app_nil_r|].
    split; [exists [name]; rewrite map_app; cbn [map]; rewrite EX; split; [reflexivity|]; intros [|[]]; congruence|].
    assert (NS : (name =? "*") = false) by now apply String.eqb_neq.
    assert (SN : ("*" =? name) = false) by (apply String.eqb_neq; congruence).
    split.
    + intros m i Fm Nm. rewrite SysBase.find_assign. destruct (String.eqb_spec m name) as [->|]; [congruence|].
      destruct (find (gmap s) "*"); auto. rewrite SysBase.find_assign. destruct (String.eqb_spec m "*"); congruence.
    + destruct (find (gmap s) "*") as [i|] eqn:FS.
      * left. rewrite SysBase.find_assign, SN. exact FS.
      * right. exists name. split; [exact N|]. rewrite !SysBase.find_assign, String.eqb_refl, SN. split; [discriminate|].
        now rewrite String.eqb_refl.
  - destruct S as (N & F). fold s in F. cbn. destruct (find (gmap s) g) as [i|] eqn:Fg; [|congruence].
    unfold star_kept. cbn. split; [reflexivity|]. split; [exists []; now rewrite app_nil_r|]. split; [exists []; now rewrite app_nil_r|].
    split.
    + intros m j Fm Nm. rewrite SysBase.find_assign. destruct (String.eqb_spec m "*"); congruence.
    + right. exists g. split; [exact N|]. rewrite !SysBase.find_assign. cbn. destruct (String.eqb_spec g "*"); [congruence|]. rewrite Fg. split; [discriminate|reflexivity].
  - destruct (set_call_maps ord fuel dbg s (SetParentOfGroup g p) Logic.I) as [M1 M2].
    destruct (set_call_names ord fuel dbg s (SetParentOfGroup g p) Logic.I) as [M3 M4].
    unfold star_kept. rewrite M1, M2, M3, M4. repeat split; auto; exists []; now rewrite app_nil_r.
  - destruct (set_call_maps ord fuel dbg s (SetSinkOfGroup g k) Logic.I) as [M1 M2].
    destruct (set_call_names ord fuel dbg s (SetSinkOfGroup g k) Logic.I) as [M3 M4].
    unfold star_kept. rewrite M1, M2, M3, M4. repeat split; auto; exists []; now rewrite app_nil_r.
  - destruct (set_call_maps ord fuel dbg s (SetLevelOfGroup g lv) Logic.I) as [M1 M2].
    destruct (set_call_names ord fuel dbg s (SetLevelOfGroup g lv) Logic.I) as [M3 M4].
    unfold star_kept. rewrite M1, M2, M3, M4. repeat split; auto; exists []; now rewrite app_nil_r.
Qed.
Lemma star_trans a b c : star_kept a b -> star_kept b c -> star_kept a c.
Proof.
  intros (A1 & (k1 & A2 & A2') & (n1 & A3 & A3') & A4 & A5) (B1 & (k2 & B2 & B2') & (n2 & B3 & B3') & B4 & B5).
  split; [congruence|]. split; [exists (k1 ++ k2); rewrite B2, A2, app_assoc; split; auto; rewrite in_app_iff; tauto|].
  split; [exists (n1 ++ n2); rewrite B3, A3, app_assoc; split; auto; rewrite in_app_iff; tauto|].
  split; [intros n i H N; auto|].
  destruct B5 as [B5|B5]; [|now right]. rewrite B5. destruct A5 as [A5|(n & N & F & A5)]; [now left|]. right. exists n. split; auto.
  rewrite A5. destruct (find (gmap b) n) as [i|] eqn:E; [|congruence]. rewrite (B4 n i E N). split; [discriminate|reflexivity].
Qed.
Lemma star_refl a : star_kept a a.
Proof. unfold star_kept. repeat split; auto; exists []; now rewrite app_nil_r. Qed.
Lemma star_sink w d : d_name d <> "*" -> star_kept (w_sys w) (w_sys (world_with_sink w d)).
Proof.
  intros N. unfold star_kept, world_with_sink, add_sink. cbn. rewrite SysBase.find_assign.
  destruct (String.eqb_spec "*" (d_name d)); [congruence|]. split; [reflexivity|].
  split; [exists [d_name d]; split; auto; intros [|[]]; congruence|]. split; [exists []; now rewrite app_nil_r|]. split; auto.
Qed.
Lemma fst_call c w : w_sys (fst (world_call ord fuel dbg c w)) = fst (step (w_sys w) c).
Proof. unfold world_call. now destruct (step (w_sys w) c). Qed.
Lemma acts_star w l w' : acts w l w' -> star_kept (w_sys w) (w_sys w').
Proof.
  induction 1 as [|w c l w' S A IH|w d l w' S A IH]; [apply star_refl| |].
  - eapply star_trans; [|exact IH]. rewrite fst_call. now apply call_star.
  - eapply star_trans; [|exact IH]. apply star_sink, S.
Qed.

(** The record of what was done. *)
Lemma acts_log w l w' : acts w l w' -> w_log w' = w_log w ++ l.
Proof.
  induction 1 as [|w c l w' S A IH|w d l w' S A IH]; [now rewrite app_nil_r| |]; rewrite IH.
  - unfold world_call. destruct (step (w_sys w) c). cbn. now rewrite <- app_assoc.
  - cbn. now rewrite <- app_assoc.
Qed.

(** ** Numbers *)
Lemma set_counts s c : set_call c -> length (groups (fst (step s c))) = length (groups s).
Proof. intros S. destruct (set_call_names ord fuel dbg s c S) as [M _]. apply (f_equal (@length _)) in M. now rewrite !map_length in M. Qed.
Lemma call_numbered w c : sane_call safe w c -> numbered (w_sys w) -> numbered (fst (step (w_sys w) c)).
Proof.
  intros S [G K]. set (s := w_sys w) in *. destruct c; try contradiction.
  - destruct (make_effect s name parent sink lv) as [->|(X & EX & ->)]; [now split|]. unfold register. split; cbn [gmap smap groups sinks with_gmap with_groups].
    + intros n i. rewrite SysBase.find_assign, app_length. cbn [length]. destruct (String.eqb n name); [intros H; inversion H; lia|].
      destruct (find (gmap s) "*"); [|rewrite SysBase.find_assign; destruct (String.eqb n "*"); [intros H; inversion H; lia|]]; intros H; apply G in H; lia.
    + exact K.
  - cbn. destruct (find (gmap s) g) as [j|] eqn:F; [|now split]. split; cbn; [|exact K]. intros n i. rewrite SysBase.find_assign.
    destruct (String.eqb n "*"); [intros H; inversion H; subst; eapply G, F|apply G].
  - assert (SC : set_call (SetParentOfGroup g p)) by exact Logic.I. destruct (set_call_maps ord fuel dbg s _ SC) as [M1 M2].
    destruct (set_call_names ord fuel dbg s _ SC) as [_ M4]. split; [rewrite M1, set_counts by exact SC; exact G|rewrite M2, M4; exact K].
  - assert (SC : set_call (SetSinkOfGroup g k)) by exact Logic.I. destruct (set_call_maps ord fuel dbg s _ SC) as [M1 M2].
    destruct (set_call_names ord fuel dbg s _ SC) as [_ M4]. split; [rewrite M1, set_counts by exact SC; exact G|rewrite M2, M4; exact K].
  - assert (SC : set_call (SetLevelOfGroup g lv)) by exact Logic.I. destruct (set_call_maps ord fuel dbg s _ SC) as [M1 M2].
    destruct (set_call_names ord fuel dbg s _ SC) as [_ M4]. split; [rewrite M1, set_counts by exact SC; exact G|rewrite M2, M4; exact K].
Qed.
Lemma sink_numbered w d : numbered (w_sys w) -> numbered (w_sys (world_with_sink w d)).
Proof.
  intros [G K]. split; cbn; [exact G|]. intros n i. rewrite SysBase.find_assign, app_length. cbn [length].
  destruct (String.eqb n (d_name d)); intros H; [inversion H; lia|apply K in H; lia].
Qed.
Lemma acts_numbered w l w' : acts w l w' -> numbered (w_sys w) -> numbered (w_sys w').
Proof.
  induction 1 as [|w c l w' S A IH|w d l w' S A IH]; auto; intros N; apply IH.
  - rewrite fst_call. now apply call_numbered.
  - now apply sink_numbered.
Qed.

(** ** Sinks: their names, numbers and members *)
Lemma call_sinks w c : sane_call safe w c -> sinks (fst (step (w_sys w) c)) = sinks (w_sys w).
Proof.
  intros S. set (s := w_sys w) in *. destruct c; try contradiction.
  - destruct (make_effect s name parent sink lv) as [->|(X & EX & ->)]; reflexivity.
  - cbn. destruct (find (gmap s) g); reflexivity.
  - apply (set_call_names ord fuel dbg s (SetParentOfGroup g p) Logic.I).
  - apply (set_call_names ord fuel dbg s (SetSinkOfGroup g k) Logic.I).
  - apply (set_call_names ord fuel dbg s (SetLevelOfGroup g lv) Logic.I).
Qed.
Lemma acts_sinks w l w' : acts w l w' -> sinks (w_sys w') = sinks (w_sys w) ++ map d_name (sinks_of l).
Proof.
  induction 1 as [|w c l w' S A IH|w d l w' S A IH]; [now rewrite app_nil_r| |]; rewrite IH.
  - rewrite fst_call, call_sinks by assumption. reflexivity.
  - cbn. now rewrite <- app_assoc.
Qed.
Lemma acts_members w l w' : acts w l w' -> numbered (w_sys w) ->
  forall j d ks, nth_error (sinks_of l) j = Some d -> d_kind d = KMulti ks -> Forall (fun k => k < length (sinks (w_sys w)) + j) ks.
Proof.
  induction 1 as [|w c l w' S A IH|w d l w' S A IH]; intros N.
  - intros [|j]; discriminate.
  - cbn [sinks_of flat_map Datatypes.app]. intros j d ks E K. specialize (IH ltac:(rewrite fst_call; now apply call_numbered) j d ks E K).
    rewrite fst_call, call_sinks in IH by assumption. exact IH.
  - cbn [sinks_of flat_map Datatypes.app]. intros [|j] d0 ks E K; cbn in E.
    + inversion E; subst. destruct S as (_ & _ & _ & S). rewrite K in S. eapply Forall_impl; [|exact S]. cbv beta. intros k [t F].
      apply (proj2 N) in F. lia.
    + specialize (IH (sink_numbered w d N) j d0 ks E K). eapply Forall_impl; [|exact IH]. cbv beta. cbn. intros k. rewrite app_length. cbn. lia.
Qed.
Lemma acts_sane w l w' : acts w l w' -> Forall (fun d => d_name d <> "*" /\ d_level d <> IGNORE) (sinks_of l).
Proof. induction 1 as [|w c l w' S A IH|w d l w' S A IH]; cbn; auto. constructor; auto. destruct S as (? & ? & _). auto. Qed.

(** ** Usual calls *)
Lemma call_tidy w c : sane_call safe w c -> numbered (w_sys w) -> tidy (w_sys w) -> tidy (fst (step (w_sys w) c)).
Proof.
  intros S [NG _] [T1 T2]. set (s := w_sys w) in *. destruct c; try contradiction.
  - destruct S as (N & NP & F & _). fold s in F. destruct (make_effect s name parent sink lv) as [->|(X & EX & ->)]; [now split|].
    unfold register. split; cbn [gmap with_gmap with_groups].
    + assert (Q : forall n, n <> "*" -> find (assign (match find (gmap s) "*" with Some _ => gmap s | None => assign (gmap s) "*" (length (groups s)) end) name (length (groups s))) n =
                 if String.eqb n name then Some (length (groups s)) else find (gmap s) n).
      { intros n Nn. rewrite SysBase.find_assign. destruct (String.eqb n name); auto. destruct (find (gmap s) "*"); auto.
        rewrite SysBase.find_assign. destruct (String.eqb_spec n "*"); congruence. }
      intros n m i Nn Nm Fn Fm. rewrite Q in Fn, Fm by assumption.
      destruct (String.eqb_spec n name), (String.eqb_spec m name); subst; auto.
      * inversion Fn; subst. apply NG in Fm. lia.
      * inversion Fm; subst. apply NG in Fn. lia.
      * eauto.
    + intros i. rewrite !SysBase.find_assign. destruct (String.eqb_spec "*" name) as [|Nn]; [congruence|].
      destruct (find (gmap s) "*") as [i0|] eqn:FS.
      * rewrite FS. intros H. inversion H; subst. destruct (T2 i eq_refl) as (n & Nn' & Fn). exists n. split; auto. rewrite SysBase.find_assign.
        destruct (String.eqb_spec n (g_name X)); [congruence|]. exact Fn.
      * rewrite SysBase.find_assign, String.eqb_refl. intros H. exists name. split; auto. rewrite SysBase.find_assign, String.eqb_refl. congruence.
  - destruct S as (N & F). fold s in F. cbn. destruct (find (gmap s) g) as [i|] eqn:Fg; [|congruence]. split; cbn.
    + intros n m j Nn Nm. rewrite !SysBase.find_assign. destruct (String.eqb_spec n "*"), (String.eqb_spec m "*"); try congruence. apply T1; auto.
    + intros j. rewrite SysBase.find_assign, String.eqb_refl. intros H. exists g. split; auto. rewrite SysBase.find_assign. destruct (String.eqb_spec g "*"); congruence.
  - destruct (set_call_maps ord fuel dbg s (SetParentOfGroup g p) Logic.I) as [M1 _]. unfold tidy. rewrite M1. now split.
  - destruct (set_call_maps ord fuel dbg s (SetSinkOfGroup g k) Logic.I) as [M1 _]. unfold tidy. rewrite M1. now split.
  - destruct (set_call_maps ord fuel dbg s (SetLevelOfGroup g lv) Logic.I) as [M1 _]. unfold tidy. rewrite M1. now split.
Qed.
Lemma call_usual w c : safe -> sane_call safe w c -> tidy (w_sys w) -> usual_sinks (w_sys w) c.
Proof.
  intros SF S [T1 T2]. set (s := w_sys w) in *. destruct c; try contradiction.
  - destruct S as (N & NP & F & _ & R & _). fold s in F. split; [split|]; cbn.
    + exact Logic.I.
    + intros (i & x & Fi & _). congruence.
    + destruct parent; [exact Logic.I|]. destruct sink; [exact Logic.I|]. now apply R.
  - destruct S as (N & F). split; [split|]; cbn; try exact Logic.I.
    intros (i & x & Fi & _ & _ & Q). destruct (T2 i Fi) as (n & Nn & Fn). exact (Q n Nn Fn).
  - destruct S as (N & NP & F & NE). fold s in F. split; [split|]; cbn; try exact Logic.I.
    destruct (find (gmap s) g) as [i|] eqn:Fg; [|now right]. left. intros Q. apply (NE SF). symmetry in Q. exact (T1 g p i N NP Fg Q).
  - split; [split|]; exact Logic.I.
  - split; [split|]; exact Logic.I.
Qed.
Lemma step_sink w d : fst (step (w_sys w) (MakeSink (d_name d))) = w_sys (world_with_sink w d).
Proof. reflexivity. Qed.
Lemma acts_usual w l w' : safe -> acts w l w' -> numbered (w_sys w) -> tidy (w_sys w) ->
  each_ok ord fuel dbg usual_sinks (w_sys w) (map call_of l) /\ tidy (w_sys w').
Proof.
  intros SF. induction 1 as [|w c l w' S A IH|w d l w' S A IH]; intros N T; cbn [map call_of each_ok]; [tauto| |].
  - rewrite fst_call in IH. destruct (IH (call_numbered _ _ S N) (call_tidy _ _ S N T)) as [E T']. split; auto. split; auto. now apply call_usual.
  - destruct (IH (sink_numbered w d N) T) as [E T']. split; auto. split; [repeat split|]. rewrite step_sink. exact E.
Qed.
End Run.

(** ** How many calls a document makes *)
Section Cost.
Variable L : lib.
Variable ord : list nat -> list nat.
Variable fuel : nat.
Variable dbg : bool.
Definition costs {A} (k : nat) (m : M A) : Prop := forall a a' r, m a = (a', r) ->
  length (w_log (a_world a')) <= length (w_log (a_world a)) + k.
Lemma costs_local {A} (m : M A) : local m -> costs 0 m.
Proof. intros H a a' r E. destruct (H _ _ _ E) as [-> _]. lia. Qed.
Lemma costs_bind {A B} j k (m : M A) (f : A -> M B) : costs j m -> (forall x, costs k (f x)) -> costs (j + k) (bind m f).
Proof.
  intros Hm Hf a a' r E. unfold bind in E. destruct (m a) as [a1 [x|e|]] eqn:E1.
  - apply Hm in E1. apply Hf in E. lia.
  - inversion E; subst. apply Hm in E1. lia.
  - inversion E; subst. apply Hm in E1. lia.
Qed.
Lemma costs_more {A} j k (m : M A) : j <= k -> costs j m -> costs k m.
Proof. intros H C a a' r E. apply C in E. lia. Qed.
Lemma costs_call c : costs 1 (do_call ord fuel dbg c).
Proof.
  intros a a' r E. unfold do_call, on_world, world_call in E. destruct (step ord fuel dbg (w_sys (a_world a)) c). inversion E; subst. cbn. rewrite app_length. cbn. lia.
Qed.
Lemma costs_make d : costs 1 (make_sink L ord fuel dbg d).
Proof.
  intros a a' r E. unfold make_sink, on_world, world_sink in E. destruct (build L d); [inversion E; subst; cbn; lia|].
  destruct (_ && _); [inversion E; subst; cbn; lia|]. cbn [step] in E. inversion E; subst. cbn. rewrite app_length. cbn. lia.
Qed.
Lemma costs_step {A B} k (m : M A) (f : A -> M B) : local m -> (forall x, costs k (f x)) -> costs k (bind m f).
Proof. intros H1 H2. apply (costs_bind 0 k); auto. now apply costs_local. Qed.
Lemma costs_say k e w l : costs k (say e w l).
Proof. apply (costs_more 0); [lia|]. apply costs_local, local_say. Qed.
Lemma costs_pure {A} k (x : A) : costs k (pure x).
Proof. apply (costs_more 0); [lia|]. apply costs_local, local_pure. Qed.

Ltac cost := repeat (match goal with
  | |- costs _ (do_call _ _ _ _) => apply costs_call
  | |- costs _ (make_sink _ _ _ _ _) => apply costs_make
  | |- costs _ (pure _) => apply costs_pure
  | |- costs _ (say _ _ _) => apply costs_say
  | |- costs _ (bind _ _) => apply costs_step; [solve [mono]|intros ?]
  | |- costs _ (match ?x with _ => _ end) => destruct x
  | |- costs _ (if ?x then _ else _) => destruct x
  end).

Lemma costs_sink i n : costs 1 (parse_sink L ord fuel dbg i n).
Proof.
  unfold parse_sink, parse_file, parse_syslog, parse_console, parse_with, parse_multisink, error, warning. cost.
Qed.
Lemma costs_sink_list l : forall i, costs (length l) (parse_sink_list L ord fuel dbg i l).
Proof.
  induction l as [|n l IH]; intros i; cbn [parse_sink_list length]; [apply costs_pure|].
  apply (costs_bind 1 (length l)); [|auto]. destruct n; try apply costs_say. apply costs_sink.
Qed.
Lemma costs_group i n p : costs 4 (parse_group L ord fuel dbg i n p).
Proof.
  unfold parse_group.
  apply costs_step; [mono|intros nm]. cbv zeta.
  do 7 (apply costs_step; [solve [mono]|intros ?]).
  destruct nm as [name|]; [|unfold warning; cost].
  match goal with |- costs _ (match ?o with Some _ => _ | None => _ end) => destruct o; [|unfold warning; cost] end.
  match goal with |- costs _ (if ?b then _ else _) => destruct b; [unfold warning; cost|] end.
  destruct (name =? "*"); [unfold error; cost|].
  apply costs_step; [mono|intros g].
  apply (costs_bind 3 1).
  - destruct g; [|apply (costs_more 1); [lia|cost]].
    apply (costs_bind 1 2); [cost|intros _]. apply (costs_bind 1 1); [cost|intros _]. cost.
  - intros _. apply (costs_bind 1 0); [cost|intros _; cost].
Qed.
Lemma size_get l key v : get (NMap l) key = Some v -> size v < size (NMap l).
Proof.
  cbn [get size]. induction l as [|[k x] l IH]; cbn [get_in]; [discriminate|]. destruct k; try (intros H; apply IH in H; lia).
  destruct (String.eqb text key); intros H; [inversion H; subst; lia|apply IH in H; lia].
Qed.
Lemma size_pos n : 1 <= size n.
Proof. destruct n; cbn; lia. Qed.
Lemma costs_group_list ch : (forall c t, costs (4 * size (NSeq c)) (ch (NSeq c) (Some t))) ->
  forall l i p, costs (4 * size (NSeq l)) (parse_group_list L ord fuel dbg ch i l p).
Proof.
  intros CH. induction l as [|n l IH]; intros i p; cbn [parse_group_list]; [apply costs_pure|].
  apply (costs_more (4 * size n + 4 * size (NSeq l))); [cbn [size]; lia|].
  apply costs_bind; [|intros _; apply IH]. destruct n as [|t|x|x]; try apply costs_say.
  destruct (get (NMap x) "children") as [[| |c|]|] eqn:EC.
  all: try (apply (costs_more (4 + 0)); [pose proof (size_pos (NMap x)); lia|]; apply costs_bind; [apply costs_group|intros o; destruct o; solve [cost]]).
  apply size_get in EC. apply (costs_more (4 + 4 * size (NSeq c))); [lia|]. apply costs_bind; [apply costs_group|intros [t|]; [apply CH|cost]].
Qed.
Lemma costs_groups f : forall n p, costs (4 * size n) (parse_groups L ord fuel dbg f n p).
Proof.
  induction f as [|f IH]; intros n p; cbn [parse_groups].
  - intros a a' r E. inversion E; subst. lia.
  - destruct n; try apply costs_say. apply costs_group_list. intros c t. apply IH.
Qed.
Lemma size_items l : length l <= size (NSeq l).
Proof. induction l as [|x l IH]; cbn in *; [lia|]. pose proof (size_pos x). lia. Qed.
Lemma costs_parse n : costs (8 * size n) (parse L ord fuel dbg n).
Proof.
  unfold parse, error. destruct n as [|t|x|l]; try apply costs_say.
  do 2 (apply costs_step; [solve [mono]|intros ?]).
  apply (costs_more (size (NMap l) + 4 * size (NMap l))); [lia|]. apply costs_bind; [|intros _].
  - destruct (get (NMap l) "sinks") as [v|] eqn:E; [|cost]. apply size_get in E. unfold parse_sinks, error.
    destruct v; try apply costs_say. apply (costs_more (length items)); [pose proof (size_items items); lia|apply costs_sink_list].
  - destruct (get (NMap l) "groups") as [v|] eqn:E; [|cost]. apply size_get in E.
    apply (costs_more (4 * size v)); [lia|]. apply costs_groups.
Qed.
End Cost.
