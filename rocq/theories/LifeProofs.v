From Coq Require Import String List Arith Bool Lia.
From Verif Require Import Base LevelModel SysModel SysSpec SysBase GroupModel LifeModel LifeSpec.
Import ListNotations.

Section Keep.
Variable ord : list nat -> list nat.
Variable dbg : bool.
Variables okg oks : nat -> Prop.       (* which groups, which sinks *)

Definition okso (o : option nat) : Prop := match o with Some k => oks k | None => True end.
Definition okgo (o : option nat) : Prop := match o with Some k => okg k | None => True end.
Definition gfine (x : group) : Prop := okgo (g_parent x) /\ okso (g_sink x).
Definition lfine (l : logger) : Prop := l_alive l = true -> okg (l_group l) /\ okso (l_sink l).

Definition GI (gs : list group) : Prop := forall x X, nth_error gs x = Some X -> okg x -> gfine X.
Definition LI (ls : list logger) : Prop := forall i L, nth_error ls i = Some L -> lfine L.

Record SI (s : sys) : Prop := {
  si_g : forall n g, In (n, g) (gmap s) -> okg g;
  si_s : forall n k, In (n, k) (smap s) -> oks k;
  si_gs : GI (groups s);
  si_ls : LI (loggers s) }.

Lemma nth_set {A} (l : list A) i x j y :
  nth_error (set_at l i x) j = Some y -> (j = i /\ y = x) \/ nth_error l j = Some y.
Proof.
  intros H. destruct (Nat.eq_dec j i) as [->|n].
  - left. split; [reflexivity|]. destruct (Nat.lt_ge_cases i (length l)) as [h|h].
    + rewrite nth_set_at in H by exact h. congruence.
    + apply nth_error_None in h. assert (nth_error (set_at l i x) i = None).
      { apply nth_error_None. rewrite set_at_length. apply nth_error_None. exact h. } congruence.
  - right. rewrite nth_set_at_other in H by exact n. exact H.
Qed.

Lemma find_in m k v : find m k = Some v -> In (k, v) m.
Proof.
  induction m as [|[k' v'] m IH]; cbn [find]; [discriminate|]. destruct (String.eqb_spec k' k) as [->|]; intros H.
  - injection H as <-. left. reflexivity.
  - right. auto.
Qed.

Lemma GI_set gs i x : GI gs -> (okg i -> gfine x) -> GI (set_at gs i x).
Proof.
  intros G H j y N O. destruct (nth_set _ _ _ _ _ N) as [[-> ->]|N']; [auto|]. exact (G _ _ N' O).
Qed.
Lemma LI_set ls i x : LI ls -> lfine x -> LI (set_at ls i x).
Proof. intros G H j y N. destruct (nth_set _ _ _ _ _ N) as [[-> ->]|N']; [auto|]. exact (G _ _ N'). Qed.

(* the functions on groups *)
Definition fine_up (up : nat -> group -> group -> group) : Prop :=
  forall p y x, okg p -> gfine y -> gfine x -> gfine (up p y x).
Lemma fine_level : fine_up g_level_from. Proof. intros p y x O Y X. exact X. Qed.
Lemma fine_sink : fine_up g_sink_from. Proof. intros p y x O [_ Y] [X _]. split; assumption. Qed.
Lemma fine_parent : fine_up (fun p y x => g_set_parent (Some (p, y)) x).
Proof.
  intros p y x O [Yp Ys] [Xp Xs]. unfold g_set_parent. cbn zeta. cbn [g_sov].
  destruct (g_sov x); cbn [g_lov g_sink_from]; destruct (g_lov x); split; cbn; assumption.
Qed.

Lemma refresh_GI up gs i : fine_up up -> GI gs -> GI (refresh up gs i).
Proof.
  intros U G. unfold refresh. destruct (nth_error gs i) as [x|] eqn:Ex; [|exact G].
  destruct (g_parent x) as [p|] eqn:Ep; [|exact G]. destruct (nth_error gs p) as [y|] eqn:Ey; [|exact G].
  apply GI_set; [exact G|]. intros O. pose proof (G _ _ Ex O) as Fx.
  assert (Op : okg p) by (destruct Fx as [Fp _]; rewrite Ep in Fp; exact Fp).
  apply U; [exact Op|exact (G _ _ Ey Op)|exact Fx].
Qed.
Lemma stages_GI up gs st : fine_up up -> GI gs -> GI (run_stages ord up gs st).
Proof.
  intros U. unfold run_stages. revert gs. induction st as [|stage st IH]; cbn [fold_left]; intros gs G; [exact G|].
  apply IH. generalize (ord stage). intros l. revert gs G. induction l as [|i l IHl]; cbn [fold_left]; intros gs G; [exact G|].
  apply IHl, refresh_GI; assumption.
Qed.
Lemma refresh_len up gs i : length (refresh up gs i) = length gs.
Proof.
  unfold refresh. destruct (nth_error gs i) as [x|]; [|reflexivity]. destruct (g_parent x) as [p|]; [|reflexivity].
  destruct (nth_error gs p); [|reflexivity]. apply set_at_length.
Qed.
Lemma stages_len up gs st : length (run_stages ord up gs st) = length gs.
Proof.
  unfold run_stages. revert gs. induction st as [|stage st IH]; cbn [fold_left]; intros gs; [reflexivity|].
  rewrite IH. generalize (ord stage). intros l. revert gs. induction l as [|i l IHl]; cbn [fold_left]; intros gs; [reflexivity|].
  rewrite IHl. apply refresh_len.
Qed.

Definition fine_lup (lup : nat -> group -> logger -> logger) : Prop :=
  forall y x, (l_alive x = true -> gfine y) -> lfine x -> lfine (lup (l_group x) y x).

Lemma sink_from_fine i y x : (l_alive x = true -> gfine y) -> lfine x -> lfine (l_sink_from i y x).
Proof.
  intros Y X. unfold l_sink_from. destruct (g_sink y) as [k|] eqn:Ek; [|exact X]. intros A. cbn [l_alive] in A.
  destruct (X A) as [Xg _]. destruct (Y A) as [_ Ys]. rewrite Ek in Ys. split; cbn [l_group l_sink okso]; assumption.
Qed.
Lemma level_from_fine i y x : lfine x -> lfine (l_level_from i y x).
Proof. intros X A. exact (X A). Qed.
Lemma set_group_fine i y x : (l_alive x = true -> okg i /\ gfine y) -> lfine x -> lfine (l_set_group i y x).
Proof.
  intros Y X. unfold l_set_group. cbn zeta. cbn [l_sov].
  assert (B : lfine (mkLogger (l_name x) i (l_sink x) (l_sov x) (l_level x) (l_lov x) (l_alive x))).
  { intros A. cbn [l_alive] in A. split; cbn [l_group l_sink]; [exact (proj1 (Y A))|exact (proj2 (X A))]. }
  match goal with |- lfine (if l_lov ?z then _ else _) => set (z0 := z); assert (lfine z0) end.
  { unfold z0. destruct (l_sov x); [exact B|]. apply sink_from_fine; [cbn [l_alive]; intros A; exact (proj2 (Y A))|exact B]. }
  destruct (l_lov z0); [assumption|]. apply level_from_fine. assumption.
Qed.
Lemma construct_fine n i y : okg i -> gfine y -> lfine (l_construct n i y).
Proof.
  intros O Y. unfold l_construct. apply level_from_fine, sink_from_fine; [intros _; exact Y|].
  intros _. split; cbn; [exact O|exact I].
Qed.
Lemma fine_lup_level : fine_lup lup_level.
Proof. intros y x Y X. unfold lup_level. destruct (l_lov x); [exact X|apply level_from_fine, X]. Qed.
Lemma fine_lup_sink : fine_lup lup_sink.
Proof. intros y x Y X. unfold lup_sink. destruct (l_sov x); [exact X|apply sink_from_fine; assumption]. Qed.
Lemma fine_lup_group : fine_lup lup_group.
Proof.
  intros y x Y X. unfold lup_group. apply set_group_fine; [|exact X]. intros A. split; [exact (proj1 (X A))|exact (Y A)].
Qed.

Lemma spread_loggers_LI lup gs passed ls m : fine_lup lup -> GI gs -> LI ls ->
  LI (fst (spread_loggers lup gs passed ls m)).
Proof.
  intros U G. unfold spread_loggers.
  assert (H : forall m' ls, LI ls -> LI (fst (fold_left (fun (a : list logger * list (string * nat)) (e : string * nat) =>
    let '(ls, m') := a in
    match nth_error ls (snd e) with
    | Some x =>
        if l_alive x then
          match assoc passed (l_group x), nth_error gs (l_group x) with
          | Some (Some _), Some y => (set_at ls (snd e) (lup (l_group x) y x), m' ++ [e])
          | _, _ => (ls, m' ++ [e])
          end
        else (ls, m')
    | None => (ls, m')
    end) m (ls, m')))).
  { induction m as [|e m IH]; intros m' l L; [exact L|]. cbn [fold_left]. destruct (nth_error l (snd e)) as [x|] eqn:Ex; [|apply IH; exact L].
    destruct (l_alive x) eqn:Ax; [|apply IH; exact L].
    destruct (assoc passed (l_group x)) as [[?|]|]; try (apply IH; exact L).
    destruct (nth_error gs (l_group x)) as [y|] eqn:Ey; [|apply IH; exact L].
    apply IH, LI_set; [exact L|]. apply U; [|exact (L _ _ Ex)]. intros _. destruct (L _ _ Ex Ax) as [Og _]. exact (G _ _ Ey Og). }
  intros L. apply H. exact L.
Qed.

Definition same_rest (s s' : sys) : Prop :=
  gmap s' = gmap s /\ smap s' = smap s /\ sinks s' = sinks s /\ length (groups s') = length (groups s).

Lemma SI_like s s' : SI s -> same_rest s s' -> GI (groups s') -> LI (loggers s') -> SI s'.
Proof.
  intros H (Eg & Es & Ek & El) G L. destruct H. constructor; rewrite ?Eg, ?Es, ?Ek, ?El; auto.
Qed.

Lemma spread_SI fuel ov up lup s g s' : fine_up up -> fine_lup lup -> SI s ->
  spread ord fuel ov up lup s g = Some s' -> SI s' /\ same_rest s s'.
Proof.
  intros U V S H. unfold spread in H. destruct (scan _ _ _ _ _ _ _) as [[passed st]|]; [|discriminate].
  pose proof (spread_loggers_LI lup (run_stages ord up (groups s) st) passed (loggers s) (lmap s) V (stages_GI up _ st U (si_gs _ S)) (si_ls _ S)) as L.
  destruct (spread_loggers _ _ _ _ _) as [ls lm]. injection H as <-.
  assert (R : same_rest s (mkSys (run_stages ord up (groups s) st) ls (sinks s) (gmap s) lm (smap s) (configured s))).
  { repeat split. cbn [groups]. apply stages_len. }
  split; [|exact R]. apply (SI_like s _ S R); [apply stages_GI; [exact U|exact (si_gs _ S)]|exact L].
Qed.

Lemma mod_group_SI s g f : SI s -> (forall X, nth_error (groups s) g = Some X -> okg g -> gfine (f X)) ->
  SI (mod_group s g f) /\ same_rest s (mod_group s g f).
Proof.
  intros S F. unfold mod_group. destruct (nth_error (groups s) g) as [X|] eqn:E0; [|split; [exact S|repeat split]].
  assert (R : same_rest s (with_groups s (set_at (groups s) g (f X)))) by (repeat split; apply set_at_length).
  split; [|exact R]. apply (SI_like s _ S R); [|exact (si_ls _ S)]. apply GI_set; [exact (si_gs _ S)|exact (F _ eq_refl)].
Qed.
Lemma mod_logger_SI s i f : SI s -> (forall L, nth_error (loggers s) i = Some L -> lfine (f L)) ->
  SI (mod_logger s i f) /\ same_rest s (mod_logger s i f).
Proof.
  intros S F. unfold mod_logger. destruct (nth_error (loggers s) i) as [X|] eqn:E0; [|split; [exact S|repeat split]].
  assert (R : same_rest s (with_loggers s (set_at (loggers s) i (f X)) (lmap s))) by (repeat split).
  split; [|exact R]. apply (SI_like s _ S R); [exact (si_gs _ S)|]. apply LI_set; [exact (si_ls _ S)|exact (F _ eq_refl)].
Qed.

Definition args (s : sys) (c : call) : Prop :=
  match c with
  | MakeSink _ => oks (length (sinks s))
  | MakeGroup _ _ _ _ => okg (length (groups s))
  | LSetLevelFromGroup _ g | LSetSinkFromGroup _ g | LSetGroup _ g => okg g
  | LSetSink _ k => oks k
  | _ => True
  end.
Definition fine_out (o : out) : Prop :=
  match o with RSink k => oks k | RGroup g => okg g | _ => True end.
Definition grows (s s' : sys) : Prop := length (groups s) <= length (groups s') /\ length (sinks s) <= length (sinks s').

Definition good (s s' : sys) (o : out) : Prop := SI s' /\ fine_out o /\ grows s s'.

Lemma good_same s o : SI s -> fine_out o -> good s s o.
Proof. intros S F. split; [exact S|]. split; [exact F|]. split; lia. Qed.
Lemma rest_grows s s' : same_rest s s' -> grows s s'.
Proof. intros (_ & _ & E1 & E2). split; [rewrite E2|rewrite E1]; lia. Qed.
Lemma rest_trans s s' s'' : same_rest s s' -> same_rest s' s'' -> same_rest s s''.
Proof. intros (a & b & c & d) (a' & b' & c' & d'). repeat split; congruence. Qed.

Lemma parent_fine s g X p y : SI s -> okg g -> nth_error (groups s) g = Some X -> g_parent X = Some p ->
  nth_error (groups s) p = Some y -> okg p /\ gfine y.
Proof.
  intros S O N P Y. destruct (si_gs _ S _ _ N O) as [Op _]. rewrite P in Op. split; [exact Op|exact (si_gs _ S _ _ Y Op)].
Qed.
Lemma parent_of_fine s g y : SI s -> okg g -> parent_of (groups s) g = Some y -> gfine y.
Proof.
  intros S O. unfold parent_of. destruct (nth_error (groups s) g) as [X|] eqn:N; [|discriminate].
  destruct (g_parent X) as [p|] eqn:P; [|discriminate]. intros Y. exact (proj2 (parent_fine s g X p y S O N P Y)).
Qed.

Lemma set_level_SI fuel s g l s' : SI s -> set_level_of_group ord fuel s g l = Some s' -> SI s' /\ same_rest s s'.
Proof.
  intros S H. unfold set_level_of_group in H. cbn zeta in H.
  match type of H with spread _ _ _ _ _ ?s1 _ = _ => assert (A : SI s1 /\ same_rest s s1) end.
  { destruct l; apply mod_group_SI; try exact S; intros X N O; pose proof (si_gs _ S _ _ N O) as F; [exact F|].
    destruct (parent_of (groups s) g); exact F. }
  destruct A as [A1 A2]. destruct (spread_SI _ _ _ _ _ _ _ fine_level fine_lup_level A1 H) as [B1 B2].
  split; [exact B1|exact (rest_trans _ _ _ A2 B2)].
Qed.
Lemma set_sink_SI fuel s g k s' : SI s -> okso k -> set_sink_of_group ord fuel s g k = Some s' -> SI s' /\ same_rest s s'.
Proof.
  intros S K H. unfold set_sink_of_group in H. cbn zeta in H.
  match type of H with spread _ _ _ _ _ ?s1 _ = _ => assert (A : SI s1 /\ same_rest s s1) end.
  { destruct k; apply mod_group_SI; try exact S; intros X N O; pose proof (si_gs _ S _ _ N O) as F.
    - split; [exact (proj1 F)|exact K].
    - destruct (parent_of (groups s) g) as [y|] eqn:Y; [|exact F]. split; [exact (proj1 F)|exact (proj2 (parent_of_fine s g y S O Y))]. }
  destruct A as [A1 A2]. destruct (spread_SI _ _ _ _ _ _ _ fine_sink fine_lup_sink A1 H) as [B1 B2].
  split; [exact B1|exact (rest_trans _ _ _ A2 B2)].
Qed.
Lemma unset_fine x : gfine x -> gfine (g_unset_parent x).
Proof. intros [_ F]. split; [exact I|exact F]. Qed.
Lemma set_parent_SI fuel s g p s' : SI s -> okgo p -> set_parent_of_group ord fuel s g p = Some s' -> SI s' /\ same_rest s s'.
Proof.
  intros S K H. unfold set_parent_of_group in H. cbn zeta in H.
  set (s1 := match p with
            | Some p => match nth_error (groups s) p with
                        | Some y => if oeqb (g_parent y) (Some g) then mod_group s p g_unset_parent else s
                        | None => s
                        end
            | None => s
            end) in H.
  assert (A : SI s1 /\ same_rest s s1).
  { unfold s1. destruct p as [p|]; [|split; [exact S|repeat split]]. destruct (nth_error (groups s) p) as [y|]; [|split; [exact S|repeat split]].
    destruct (oeqb _ _); [|split; [exact S|repeat split]]. apply mod_group_SI; [exact S|]. intros X N O. apply unset_fine, (si_gs _ S _ _ N O). }
  clearbody s1. destruct A as [A1 A2].
  match type of H with spread _ _ _ _ _ ?s2 _ = _ => assert (B : SI s2 /\ same_rest s1 s2) end.
  { apply mod_group_SI; [exact A1|]. intros X N O. pose proof (si_gs _ A1 _ _ N O) as F.
    destruct p as [p|]; [|apply unset_fine, F]. destruct (nth_error (groups s1) p) as [y|] eqn:Y; [|apply unset_fine, F].
    apply (fine_parent p y X); [exact K|exact (si_gs _ A1 _ _ Y K)|exact F]. }
  destruct B as [B1 B2]. destruct (spread_SI _ _ _ _ _ _ _ fine_parent fine_lup_group B1 H) as [C1 C2].
  split; [exact C1|]. exact (rest_trans _ _ _ A2 (rest_trans _ _ _ B2 C2)).
Qed.

Lemma ret_good s x s' o : SI s -> (forall t, x = Some t -> SI t /\ same_rest s t) -> ret s x = (s', o) -> good s s' o.
Proof.
  intros S H. unfold ret. destruct x as [t|]; intros Ht; injection Ht as <- <-.
  - destruct (H t eq_refl) as [A B]. split; [exact A|]. split; [exact I|apply rest_grows, B].
  - apply good_same; [exact S|exact I].
Qed.
Lemma modl_good s i f o : SI s -> fine_out o -> (forall L, nth_error (loggers s) i = Some L -> lfine (f L)) ->
  good s (mod_logger s i f) o.
Proof.
  intros S O F. destruct (mod_logger_SI s i f S F) as [A B]. split; [exact A|]. split; [exact O|apply rest_grows, B].
Qed.
Lemma drop_good s x o : SI s -> fine_out o -> good s (drop_entry s x) o.
Proof.
  intros S O. split; [|split; [exact O|split; apply le_n]]. destruct S. constructor; assumption.
Qed.

Lemma LI_app ls l : LI ls -> lfine l -> LI (ls ++ [l]).
Proof.
  intros L F i y N. destruct (Nat.lt_ge_cases i (length ls)) as [h|h].
  - rewrite nth_error_app1 in N by exact h. exact (L _ _ N).
  - rewrite nth_error_app2 in N by exact h. destruct (i - length ls) as [|[|]]; cbn in N; try discriminate. injection N as <-. exact F.
Qed.
Lemma GI_app gs x : GI gs -> gfine x -> GI (gs ++ [x]).
Proof.
  intros L F i y N O. destruct (Nat.lt_ge_cases i (length gs)) as [h|h].
  - rewrite nth_error_app1 in N by exact h. exact (L _ _ N O).
  - rewrite nth_error_app2 in N by exact h. destruct (i - length gs) as [|[|]]; cbn in N; try discriminate. injection N as <-. exact F.
Qed.
Lemma in_assign_ok (P : nat -> Prop) m k v : (forall n g, In (n, g) m -> P g) -> P v -> forall n g, In (n, g) (assign m k v) -> P g.
Proof. intros H V n g I0. destruct (in_assign _ _ _ _ _ I0) as [[_ ->]|I1]; [exact V|eauto]. Qed.

Lemma live_fine s x i : SI s -> live s x = Some i -> exists L, nth_error (loggers s) i = Some L /\ l_alive L = true /\ okg (l_group L) /\ okso (l_sink L).
Proof.
  intros S. unfold live. destruct (find (lmap s) x) as [j|]; [|discriminate]. destruct (nth_error (loggers s) j) as [L|] eqn:N; [|discriminate].
  destruct (l_alive L) eqn:A; [|discriminate]. intros Hi. injection Hi as <-. exists L. split; [exact N|]. split; [exact A|]. exact (si_ls _ S _ _ N A).
Qed.

Lemma get_logger_good s x g k lv s' o : SI s -> get_logger dbg s x g k lv = (s', o) -> good s s' o.
Proof.
  intros S H. unfold get_logger in H. destruct (negb (configured s)); [injection H as <- <-; apply good_same; [exact S|exact I]|].
  destruct (live s x) as [i|]; [injection H as <- <-; apply good_same; [exact S|exact I]|]. cbn zeta in H.
  assert (C : forall i y, okg i -> nth_error (groups s) i = Some y ->
    good s (with_loggers s (loggers s ++
        [match lv with
         | Some v => l_set_level v (match k with Some n => match find (smap s) n with Some k0 => l_set_sink k0 (l_construct x i y) | None => l_construct x i y end | None => l_construct x i y end)
         | None => match k with Some n => match find (smap s) n with Some k0 => l_set_sink k0 (l_construct x i y) | None => l_construct x i y end | None => l_construct x i y end
         end]) (assign (lmap s) x (length (loggers s)))) (RLogger (length (loggers s)))).
  { intros i y O N. split; [|split; [exact I|split; apply le_n]].
    destruct S as [S1 S2 S3 S4]. constructor; cbn [gmap smap groups loggers sinks with_loggers]; auto.
    apply LI_app; [exact S4|].
    assert (B : lfine (match k with Some n => match find (smap s) n with Some k0 => l_set_sink k0 (l_construct x i y) | None => l_construct x i y end | None => l_construct x i y end)).
    { assert (B : lfine (l_construct x i y)) by (apply construct_fine; [exact O|exact (S3 _ _ N O)]).
      destruct k as [n|]; [|exact B]. destruct (find (smap s) n) as [k0|] eqn:Fk; [|exact B].
      intros A. destruct (B A) as [B1 _]. split; [exact B1|]. exact (S2 _ _ (find_in _ _ _ Fk)). }
    destruct lv; [|exact B]. exact B. }
  assert (W : forall n i warn, find (gmap s) n = Some i ->
     match nth_error (groups s) i with
     | Some y => if warn && negb (can_warn y) then (s, RUB)
        else (with_loggers s (loggers s ++
        [match lv with
         | Some v => l_set_level v (match k with Some n => match find (smap s) n with Some k0 => l_set_sink k0 (l_construct x i y) | None => l_construct x i y end | None => l_construct x i y end)
         | None => match k with Some n => match find (smap s) n with Some k0 => l_set_sink k0 (l_construct x i y) | None => l_construct x i y end | None => l_construct x i y end
         end]) (assign (lmap s) x (length (loggers s))), RLogger (length (loggers s)))
     | None => (s, RUB)
     end = (s', o) -> good s s' o).
  { intros n i warn Fi. destruct (nth_error (groups s) i) as [y|] eqn:N; [|intros R; injection R as <- <-; apply good_same; [exact S|exact I]].
    destruct (warn && _); [intros R; injection R as <- <-; apply good_same; [exact S|exact I]|].
    intros R. injection R as <- <-. apply C; [|exact N]. exact (si_g _ S _ _ (find_in _ _ _ Fi)). }
  destruct (String.eqb g "*").
  - destruct dbg; [injection H as <- <-; apply good_same; [exact S|exact I]|].
    destruct (find (gmap s) "*") as [i|] eqn:Fi; [|injection H as <- <-; apply good_same; [exact S|exact I]].
    exact (W _ _ true Fi H).
  - destruct (find (gmap s) g) as [i|] eqn:Fi; [exact (W _ _ false Fi H)|].
    destruct (find (gmap s) "*") as [i|] eqn:Fi'; [|injection H as <- <-; apply good_same; [exact S|exact I]].
    exact (W _ _ true Fi' H).
Qed.

Lemma g_construct_fine n pg sk lv x :
  (forall i y, pg = Some (Some (i, y)) -> okg i /\ gfine y) -> (forall k, sk = Some (Some k) -> oks k) ->
  g_construct n pg sk lv = Some x -> gfine x.
Proof.
  intros P K. unfold g_construct. cbn zeta.
  set (a := match pg with None => _ | _ => _ end). assert (A : forall z, a = Some z -> gfine z).
  { unfold a. destruct pg as [[[i y]|]|]; intros z Hz; try discriminate; injection Hz as <-; [|split; exact I].
    destruct (P i y eq_refl) as [O Y]. exact (fine_parent i y (mkGroup n None None false OFF false) O Y (conj I I)). }
  clearbody a. destruct a as [z|]; [|discriminate]. specialize (A z eq_refl).
  set (b := match sk with None => _ | _ => _ end). assert (B : forall z, b = Some z -> gfine z).
  { unfold b. destruct sk as [[k|]|]; intros w Hw; try discriminate; injection Hw as <-; [|exact A].
    split; [exact (proj1 A)|exact (K k eq_refl)]. }
  clearbody b. destruct b as [w|]; [|discriminate]. specialize (B w eq_refl).
  destruct lv as [l|]; [intros Hx; injection Hx as <-; exact B|]. destruct (g_parent w); [|discriminate]. intros Hx. injection Hx as <-. exact B.
Qed.

Lemma make_group_good s n p k lv s' i : SI s -> okg (length (groups s)) -> construct s n p k lv = Some (s', i) -> good s (register s' i n) (RGroup i).
Proof.
  intros S O H. unfold construct in H. cbn zeta in H. destruct (g_construct _ _ _ _) as [x|] eqn:G; [|discriminate]. injection H as <- <-.
  assert (F : gfine x).
  { refine (g_construct_fine _ _ _ _ _ _ _ G).
    - intros j y Hj. destruct p as [p|]; [|discriminate]. destruct (find (gmap s) p) as [q|] eqn:Fq; [|discriminate].
      destruct (nth_error (groups s) q) as [z|] eqn:N; [|discriminate]. injection Hj as <- <-.
      assert (Oq : okg q) by exact (si_g _ S _ _ (find_in _ _ _ Fq)). split; [exact Oq|exact (si_gs _ S _ _ N Oq)].
    - intros j Hj. destruct k as [k|]; [|discriminate]. injection Hj as Hj. exact (si_s _ S _ _ (find_in _ _ _ Hj)). }
  split; [|split; [exact O|split; cbn [groups sinks register with_gmap with_groups]; [rewrite app_length; lia|lia]]].
  destruct S as [S1 S2 S3 S4]. constructor; cbn [gmap smap groups loggers sinks register with_gmap with_groups].
  - apply in_assign_ok; [|exact O]. destruct (find (gmap s) "*"); [exact S1|]. apply in_assign_ok; assumption.
  - exact S2.
  - apply GI_app; assumption.
  - exact S4.
Qed.

Lemma swap_in {A} i (l : list A) x : In x (swap i l) -> In x l.
Proof.
  revert l. induction i as [|i IH]; intros [|y l]; cbn [swap]; auto.
  - destruct l as [|z l]; [auto|]. cbn. tauto.
  - intros [H|H]; [left; exact H|right; exact (IH _ H)].
Qed.

Lemma step_good fuel s c s' o : SI s -> args s c -> step ord fuel dbg s c = (s', o) -> good s s' o.
Proof.
  intros S K H.
  assert (Z : forall r, fine_out r -> (s, r) = (s', o) -> good s s' o).
  { intros r R Hr. injection Hr as <- <-. apply good_same; assumption. }
  destruct c; cbn [step] in H.
  - (* MakeSink *) injection H as <- <-. pose proof K as O. cbn [args] in O.
    split; [|split; [exact O|split; cbn [groups sinks]; [lia|rewrite app_length; lia]]].
    destruct S as [S1 S2 S3 S4]. constructor; cbn [gmap smap groups loggers sinks]; auto.
    apply in_assign_ok; assumption.
  - destruct (construct s name parent sink lv) as [[t i]|] eqn:C; [|apply (Z RThrow); [exact I|exact H]].
    injection H as <- <-. exact (make_group_good _ _ _ _ _ _ _ S K C).
  - destruct (find (gmap s) g) as [i|] eqn:Fi; [|apply (Z (RBool false)); [exact I|exact H]]. injection H as <- <-.
    split; [|split; [exact I|split; apply le_n]]. assert (O : okg i) by exact (si_g _ S _ _ (find_in _ _ _ Fi)).
    destruct S as [S1 S2 S3 S4]. constructor; cbn [gmap smap groups loggers sinks with_gmap]; auto. apply in_assign_ok; assumption.
  - destruct (find (gmap s) g) as [gi|]; [|apply (Z (RBool false)); [exact I|exact H]].
    destruct (find (gmap s) p) as [pi|] eqn:Fp; [|apply (Z (RBool false)); [exact I|exact H]]. cbn zeta in H.
    destruct (if oeqb _ _ then _ else _) as [[|]|]; [apply (Z (RBool false)); [exact I|exact H]| |apply (Z RHang); [exact I|exact H]].
    refine (ret_good _ _ _ _ S _ H). intros t Ht. refine (set_parent_SI _ _ _ _ _ S _ Ht). exact (si_g _ S _ _ (find_in _ _ _ Fp)).
  - destruct (find (gmap s) g) as [gi|]; [|apply (Z (RBool false)); [exact I|exact H]].
    refine (ret_good _ _ _ _ S _ H). intros t Ht. refine (set_parent_SI _ _ _ _ _ S _ Ht). exact I.
  - destruct (find (smap s) k) as [ki|] eqn:Fk; [|apply (Z (RBool false)); [exact I|exact H]].
    destruct (find (gmap s) g) as [gi|]; [|apply (Z (RBool false)); [exact I|exact H]].
    refine (ret_good _ _ _ _ S _ H). intros t Ht. refine (set_sink_SI _ _ _ _ _ S _ Ht). exact (si_s _ S _ _ (find_in _ _ _ Fk)).
  - destruct (find (gmap s) g) as [gi|]; [|apply (Z (RBool false)); [exact I|exact H]].
    refine (ret_good _ _ _ _ S _ H). intros t Ht. refine (set_sink_SI _ _ _ _ _ S _ Ht). exact I.
  - destruct (find (gmap s) g) as [gi|]; [|apply (Z (RBool false)); [exact I|exact H]].
    refine (ret_good _ _ _ _ S _ H). intros t Ht. exact (set_level_SI _ _ _ _ _ S Ht).
  - destruct (find (gmap s) g) as [gi|]; [|apply (Z (RBool false)); [exact I|exact H]].
    refine (ret_good _ _ _ _ S _ H). intros t Ht. exact (set_level_SI _ _ _ _ _ S Ht).
  - destruct (find (gmap s) g) as [gi|] eqn:Fg; [|apply (Z (RBool false)); [exact I|exact H]].
    destruct (live s x) as [i|]; [|injection H as <- <-; apply drop_good; [exact S|exact I]].
    destruct (nth_error (groups s) gi) as [y|] eqn:N; injection H as <- <-; [|apply drop_good; [exact S|exact I]].
    apply modl_good; [exact S|exact I|]. intros L NL. apply set_group_fine; [|exact (si_ls _ S _ _ NL)]. intros _.
    assert (O : okg gi) by exact (si_g _ S _ _ (find_in _ _ _ Fg)). split; [exact O|exact (si_gs _ S _ _ N O)].
  - destruct (find (smap s) k) as [ki|] eqn:Fk; [|apply (Z (RBool false)); [exact I|exact H]].
    destruct (live s x) as [i|]; injection H as <- <-; [|apply drop_good; [exact S|exact I]].
    apply modl_good; [exact S|exact I|]. intros L NL A. destruct (si_ls _ S _ _ NL A) as [B _]. split; [exact B|].
    exact (si_s _ S _ _ (find_in _ _ _ Fk)).
  - destruct (live s x) as [i|] eqn:Li; [|apply (Z (RBool false)); [exact I|exact H]].
    destruct (live_fine _ _ _ S Li) as (L & NL & A & O & _). rewrite NL in H.
    destruct (nth_error (groups s) (l_group L)) as [y|] eqn:N; [|apply (Z RUB); [exact I|exact H]]. injection H as <- <-.
    apply modl_good; [exact S|exact I|]. intros L' NL'. apply sink_from_fine; [|exact (si_ls _ S _ _ NL')]. intros _. exact (si_gs _ S _ _ N O).
  - destruct (live s x) as [i|]; injection H as <- <-; [|apply drop_good; [exact S|exact I]].
    apply modl_good; [exact S|exact I|]. intros L NL A. exact (si_ls _ S _ _ NL A).
  - destruct (live s x) as [i|] eqn:Li; [|injection H as <- <-; apply drop_good; [exact S|exact I]].
    destruct (nth_error (loggers s) i) as [L|] eqn:NL; [|apply (Z RUB); [exact I|exact H]].
    destruct (nth_error (groups s) (l_group L)) as [y|] eqn:N; [|apply (Z RUB); [exact I|exact H]]. injection H as <- <-.
    apply modl_good; [exact S|exact I|]. intros L' NL'. apply level_from_fine. exact (si_ls _ S _ _ NL').
  - exact (get_logger_good _ _ _ _ _ _ _ S H).
  - injection H as <- <-. apply modl_good; [exact S|exact I|]. intros L NL A. exact (si_ls _ S _ _ NL A).
  - destruct (nth_error (loggers s) i) as [L|] eqn:NL; [|apply (Z RUB); [exact I|exact H]].
    destruct (nth_error (groups s) (l_group L)) as [y|] eqn:N; [|apply (Z RUB); [exact I|exact H]]. injection H as <- <-.
    apply modl_good; [exact S|exact I|]. intros L' NL'. apply level_from_fine. exact (si_ls _ S _ _ NL').
  - destruct (nth_error (groups s) g) as [y|] eqn:N; [|apply (Z RUB); [exact I|exact H]]. injection H as <- <-.
    apply modl_good; [exact S|exact I|]. intros L' NL'. apply level_from_fine. exact (si_ls _ S _ _ NL').
  - destruct (Nat.ltb k (length (sinks s))); [|apply (Z RUB); [exact I|exact H]]. injection H as <- <-.
    apply modl_good; [exact S|exact I|]. intros L NL A. destruct (si_ls _ S _ _ NL A) as [B _]. split; [exact B|exact K].
  - destruct (nth_error (loggers s) i) as [L|] eqn:NL; [|apply (Z RUB); [exact I|exact H]].
    destruct (nth_error (groups s) (l_group L)) as [y|] eqn:N; [|apply (Z RUB); [exact I|exact H]]. injection H as <- <-.
    apply modl_good; [exact S|exact I|]. intros L' NL' A. rewrite NL in NL'. injection NL' as <-. cbn [l_reset_sink l_alive] in A.
    destruct (si_ls _ S _ _ NL A) as [O _]. split; [exact O|]. exact (proj2 (si_gs _ S _ _ N O)).
  - destruct (nth_error (groups s) g) as [y|] eqn:N; [|apply (Z RUB); [exact I|exact H]]. injection H as <- <-.
    apply modl_good; [exact S|exact I|]. intros L' NL'. apply sink_from_fine; [|exact (si_ls _ S _ _ NL')]. intros _. exact (si_gs _ S _ _ N K).
  - destruct (nth_error (groups s) g) as [y|] eqn:N; [|apply (Z RUB); [exact I|exact H]]. injection H as <- <-.
    apply modl_good; [exact S|exact I|]. intros L' NL'. apply set_group_fine; [|exact (si_ls _ S _ _ NL')]. intros _. split; [exact K|]. exact (si_gs _ S _ _ N K).
  - injection H as <- <-. apply modl_good; [exact S|exact I|]. intros L NL A. discriminate A.
  - injection H as <- <-. split; [|split; [exact I|split; apply le_n]]. destruct S as [S1 S2 S3 S4].
    constructor; cbn [gmap smap groups loggers sinks with_gmap]; auto. intros n g I0. apply swap_in in I0. eauto.
  - injection H as <- <-. split; [|split; [exact I|split; apply le_n]]. destruct S as [S1 S2 S3 S4].
    constructor; cbn [gmap smap groups loggers sinks with_loggers]; auto.
Qed.

Definition gargs (c : gcall) : Prop :=
  match c with
  | GSetLevelFromGroup _ h | GSetSinkFromGroup _ h | GSetParentGroup _ (Some h) => okg h
  | GSetSink _ k => oks k
  | _ => True
  end.
Lemma modg_good s g f : SI s -> (forall X, nth_error (groups s) g = Some X -> okg g -> gfine (f X)) ->
  good s (mod_group s g f) RUnit.
Proof.
  intros S F. destruct (mod_group_SI s g f S F) as [A B]. split; [exact A|]. split; [exact I|apply rest_grows, B].
Qed.
Lemma from_group_good s h f g s' o : SI s -> fine_up f -> okg h -> from_group s h f g = (s', o) -> good s s' o.
Proof.
  intros S F O. unfold from_group. destruct (nth_error (groups s) h) as [y|] eqn:N; intros H; injection H as <- <-.
  - apply modg_good; [exact S|]. intros X NX OX. apply F; [exact O|exact (si_gs _ S _ _ N O)|exact (si_gs _ S _ _ NX OX)].
  - apply good_same; [exact S|exact I].
Qed.
Lemma from_named_good s n f g s' o : SI s -> fine_up f -> from_named s n f g = (s', o) -> good s s' o.
Proof.
  intros S F. unfold from_named. destruct (find (gmap s) n) as [h|] eqn:Fh.
  - apply from_group_good; [exact S|exact F|exact (si_g _ S _ _ (find_in _ _ _ Fh))].
  - intros H. injection H as <- <-. apply good_same; [exact S|exact I].
Qed.
Lemma gstep_good s c s' o : SI s -> gargs c -> gstep s c = (s', o) -> good s s' o.
Proof.
  intros S K H. destruct c; cbn [gstep] in H.
  - injection H as <- <-. apply modg_good; [exact S|]. intros X N O. exact (si_gs _ S _ _ N O).
  - injection H as <- <-. apply modg_good; [exact S|]. intros X N O. pose proof (si_gs _ S _ _ N O) as F.
    destruct (parent_of (groups s) g); exact F.
  - exact (from_group_good _ _ _ _ _ _ S fine_level K H).
  - exact (from_named_good _ _ _ _ _ _ S fine_level H).
  - destruct (Nat.ltb k _); injection H as <- <-; [|apply good_same; [exact S|exact I]].
    apply modg_good; [exact S|]. intros X N O. split; [exact (proj1 (si_gs _ S _ _ N O))|exact K].
  - destruct (find (smap s) n) as [k|] eqn:Fk; injection H as <- <-; [|apply good_same; [exact S|exact I]].
    apply modg_good; [exact S|]. intros X N O. split; [exact (proj1 (si_gs _ S _ _ N O))|exact (si_s _ S _ _ (find_in _ _ _ Fk))].
  - injection H as <- <-. apply modg_good; [exact S|]. intros X N O. pose proof (si_gs _ S _ _ N O) as F.
    destruct (parent_of (groups s) g) as [y|] eqn:Y; [|exact F]. split; [exact (proj1 F)|exact (proj2 (parent_of_fine s g y S O Y))].
  - exact (from_group_good _ _ _ _ _ _ S fine_sink K H).
  - exact (from_named_good _ _ _ _ _ _ S fine_sink H).
  - destruct p as [p|]; [exact (from_group_good _ _ _ _ _ _ S fine_parent K H)|]. injection H as <- <-.
    apply modg_good; [exact S|]. intros X N O. apply unset_fine, (si_gs _ S _ _ N O).
  - exact (from_named_good _ _ _ _ _ _ S fine_parent H).
  - injection H as <- <-. apply modg_good; [exact S|]. intros X N O. apply unset_fine, (si_gs _ S _ _ N O).
Qed.
End Keep.

Section Inv.
Variable ord : list nat -> list nat.
Variable dbg : bool.

Definition ingroups (s : sys) (g : nat) : Prop := g < length (groups s).
Definition insinks (s : sys) (k : nat) : Prop := k < length (sinks s).
Definition isnot (l : list nat) (g : nat) : Prop := ~ In g l.

Record LFI (a : life) : Prop := {
  li_gone : SI (isnot (gone_groups a)) (isnot (gone_sinks a)) (lf_sys a);
  li_in : SI (ingroups (lf_sys a)) (insinks (lf_sys a)) (lf_sys a);
  li_og : forall g, In g (own_groups a) -> isnot (gone_groups a) g /\ ingroups (lf_sys a) g;
  li_os : forall k, In k (own_sinks a) -> isnot (gone_sinks a) k /\ insinks (lf_sys a) k;
  li_parts : forall m k, In (m, k) (parts a) -> k < m /\ insinks (lf_sys a) m /\ (isnot (gone_sinks a) m -> isnot (gone_sinks a) k);
  li_dg : NoDup (gone_groups a) /\ forall g, In g (gone_groups a) -> ingroups (lf_sys a) g;
  li_ds : NoDup (gone_sinks a) /\ forall k, In k (gone_sinks a) -> insinks (lf_sys a) k;
  li_up : lf_up a = false -> gmap (lf_sys a) = [] /\ smap (lf_sys a) = [] }.

Lemma SI_range s (N M : nat) : SI (ingroups s) (insinks s) s -> length (groups s) <= N -> length (sinks s) <= M ->
  SI (fun g => g < N) (fun k => k < M) s.
Proof.
  intros [S1 S2 S3 S4] HN HM. unfold ingroups, insinks in *. constructor.
  - intros n g H. specialize (S1 n g H). lia.
  - intros n k H. specialize (S2 n k H). lia.
  - intros x X H _. assert (Hx : x < length (groups s)) by (apply nth_error_Some; congruence).
    destruct (S3 x X H Hx) as [A B]. split; [destruct (g_parent X)|destruct (g_sink X)]; cbn [okgo okso] in *; auto; lia.
  - intros i L H A. destruct (S4 i L H A) as [B C]. split; [lia|]. destruct (l_sink L); cbn [okso] in *; auto; lia.
Qed.

(** A call that is good for every choice of the sets keeps the invariant. *)
Lemma act_keeps a s o :
  LFI a -> grows (lf_sys a) s ->
  (forall okg oks, SI okg oks (lf_sys a) -> (forall g, In g (own_groups a) -> okg g) -> (forall k, In k (own_sinks a) -> oks k) ->
     (length (groups (lf_sys a)) < length (groups s) -> okg (length (groups (lf_sys a)))) ->
     (length (sinks (lf_sys a)) < length (sinks s) -> oks (length (sinks (lf_sys a)))) -> good okg oks (lf_sys a) s o) ->
  (lf_up a = false -> gmap s = [] /\ smap s = []) ->
  LFI (mkLife s (lf_up a) (took_group o (own_groups a)) (took_sink o (own_sinks a)) (parts a) (gone_groups a) (gone_sinks a)).
Proof.
  intros I [Gg Gs] H U. destruct I as [I1 I2 I3 I4 I5 I6 I7 I8].
  destruct (H (isnot (gone_groups a)) (isnot (gone_sinks a)) I1 (fun g h => proj1 (I3 g h)) (fun g h => proj1 (I4 g h))) as (A1 & A2 & _).
  { intros _ h. apply I6 in h. unfold ingroups in h. lia. }
  { intros _ h. apply I7 in h. unfold insinks in h. lia. }
  destruct (H (ingroups s) (insinks s)) as (B1 & B2 & _).
  { apply SI_range; assumption. }
  { intros g h. destruct (I3 g h) as [_ R]. unfold ingroups in *. lia. }
  { intros g h. destruct (I4 g h) as [_ R]. unfold insinks in *. lia. }
  { unfold ingroups. auto. } { unfold insinks. auto. }
  constructor; cbn [lf_sys lf_up own_groups own_sinks parts gone_groups gone_sinks]; unfold ingroups, insinks in *.
  - exact A1.
  - exact B1.
  - intros g h. destruct o; cbn [took_group] in h; try (destruct (I3 g h); split; [assumption|lia]).
    cbn [fine_out] in A2, B2. destruct h as [<-|h]; [split; assumption|]. destruct (I3 g h). split; [assumption|lia].
  - intros g h. destruct o; cbn [took_sink] in h; try (destruct (I4 g h); split; [assumption|lia]).
    cbn [fine_out] in A2, B2. destruct h as [<-|h]; [split; assumption|]. destruct (I4 g h). split; [assumption|lia].
  - intros m k h. destruct (I5 m k h) as (X & Y & Z). split; [exact X|]. split; [lia|exact Z].
  - destruct I6 as [X Y]. split; [exact X|]. intros g h. specialize (Y g h). lia.
  - destruct I7 as [X Y]. split; [exact X|]. intros g h. specialize (Y g h). lia.
  - exact U.
Qed.

Lemma is_live_lt s i : is_live s i -> i < length (loggers s).
Proof. intros (L & N & _). apply nth_error_Some. congruence. Qed.

Lemma step_grows fuel s c s' o : step ord fuel dbg s c = (s', o) -> grows s s'.
Proof.
  intros H. assert (S : SI (fun _ => True) (fun _ => True) s).
  { constructor; try (intros; exact I).
    - intros x X _ _. split; [destruct (g_parent X)|destruct (g_sink X)]; exact I.
    - intros x X _ _. split; [exact I|]. destruct (l_sink X); exact I. }
  destruct (step_good ord dbg (fun _ => True) (fun _ => True) fuel s c s' o S) as (_ & _ & G); [destruct c; exact I|exact H|exact G].
Qed.
Lemma gstep_grows s c s' o : gstep s c = (s', o) -> grows s s'.
Proof.
  intros H. assert (S : SI (fun _ => True) (fun _ => True) s).
  { constructor; try (intros; exact I).
    - intros x X _ _. split; [destruct (g_parent X)|destruct (g_sink X)]; exact I.
    - intros x X _ _. split; [exact I|]. destruct (l_sink X); exact I. }
  destruct (gstep_good (fun _ => True) (fun _ => True) s c s' o S) as (_ & _ & G); [destruct c as [| | | | | | | | |? [?|]| |]; exact I|exact H|exact G].
Qed.

(* fresh numbers are used only by the functions that make something *)
Lemma make_sink_grows fuel s n s' o : step ord fuel dbg s (MakeSink n) = (s', o) -> length (sinks s) < length (sinks s').
Proof. cbn [step]. intros H. injection H as <- <-. cbn [sinks]. rewrite app_length. cbn. lia. Qed.
Lemma make_group_grows fuel s n p k lv s' o : step ord fuel dbg s (MakeGroup n p k lv) = (s', o) -> o <> RThrow -> length (groups s) < length (groups s').
Proof.
  cbn [step]. unfold construct. cbn zeta. destruct (g_construct _ _ _ _); intros H; injection H as <- <-; [|congruence].
  intros _. cbn [groups register with_gmap with_groups]. rewrite app_length. cbn. lia.
Qed.

(* calls of loggers leave the maps alone *)
Lemma logger_maps fuel s c s' o : (logger_call c \/ exists i, c = LDrop i) -> step ord fuel dbg s c = (s', o) ->
  gmap s' = gmap s /\ smap s' = smap s /\ groups s' = groups s /\ sinks s' = sinks s.
Proof.
  assert (M : forall i f, gmap (mod_logger s i f) = gmap s /\ smap (mod_logger s i f) = smap s /\ groups (mod_logger s i f) = groups s /\ sinks (mod_logger s i f) = sinks s).
  { intros i f. unfold mod_logger. destruct (nth_error (loggers s) i); repeat split. }
  intros C H. destruct c; try (exfalso; destruct C as [C|[? C]]; [exact C|discriminate C]); cbn [step] in H;
    repeat match type of H with match ?e with _ => _ end = _ => destruct e end;
    injection H as <- <-; solve [apply M | repeat split].
Qed.

Lemma call_keeps a c s o : LFI a -> can_call a c -> step ord (enough (lf_sys a)) dbg (lf_sys a) c = (s, o) ->
  LFI (mkLife s (lf_up a) (took_group o (own_groups a)) (took_sink o (own_sinks a)) (parts a) (gone_groups a) (gone_sinks a)).
Proof.
  intros I C H. apply act_keeps; [exact I|exact (step_grows _ _ _ _ _ H)| |].
  - intros okg oks S G K Fg Fs.
    destruct (match o with RThrow => true | _ => false end) eqn:T.
    { (* makeGroup may throw before it makes anything *)
      destruct c; try (apply (step_good ord dbg okg oks _ _ _ _ _ S) with (2 := H); cbn [args can_call] in *; try exact Logic.I; solve [apply G, C | apply K, C | apply Fs, (make_sink_grows _ _ _ _ _ H)]).
      cbn [step] in H. destruct (construct _ _ _ _ _) as [[t i]|]; injection H as <- <-; [discriminate T|]. apply good_same; [exact S|exact Logic.I]. }
    refine (step_good ord dbg okg oks _ _ _ _ _ S _ H).
    destruct c; cbn [args can_call] in *; try exact Logic.I; try (apply G, C); try (apply K, C).
    + apply Fs, (make_sink_grows _ _ _ _ _ H).
    + apply Fg, (make_group_grows _ _ _ _ _ _ _ _ H). intros ->. discriminate T.
  - intros U. destruct (li_up _ I U) as [E1 E2].
    assert (L : logger_call c \/ exists i, c = LDrop i).
    { destruct c; cbn [can_call] in C; try (rewrite U in C; discriminate C); try (left; exact Logic.I). right. eauto. }
    destruct (logger_maps _ _ _ _ _ L H) as (X & Y & _ & _). rewrite X, Y. split; assumption.
Qed.

Lemma gcall_keeps a c s o : LFI a -> can_gcall a c -> gstep (lf_sys a) c = (s, o) ->
  LFI (mkLife s (lf_up a) (took_group o (own_groups a)) (took_sink o (own_sinks a)) (parts a) (gone_groups a) (gone_sinks a)).
Proof.
  intros I C H. apply act_keeps; [exact I|exact (gstep_grows _ _ _ _ H)| |].
  - intros okg oks S G K Fg Fs. refine (gstep_good okg oks _ _ _ _ S _ H).
    destruct c as [| | | | | | | | |? [?|]| |]; cbn [gargs can_gcall] in *; try exact Logic.I; try (apply G, C); try (apply K, C).
  - intros U. destruct (li_up _ I U) as [E1 E2].
    assert (M : forall i f, gmap (mod_group (lf_sys a) i f) = [] /\ smap (mod_group (lf_sys a) i f) = []).
    { intros i f. unfold mod_group. destruct (nth_error (groups (lf_sys a)) i); split; assumption. }
    destruct c as [| | | | | | | | |? [?|]| |]; cbn [gstep] in H; unfold from_named, from_group in H;
      repeat match type of H with match ?e with _ => _ end = _ => destruct e end;
      injection H as <- <-; solve [apply M | split; assumption].
Qed.

Lemma named_keeps a c s o : LFI a -> is_live (lf_sys a) (nlogger c) -> named_call ord dbg a c = (s, o) -> o <> RUB ->
  LFI (mkLife s (lf_up a) (took_group o (own_groups a)) (took_sink o (own_sinks a)) (parts a) (gone_groups a) (gone_sinks a)).
Proof.
  intros I C H NU. unfold named_call in H. destruct (lf_up a) eqn:U; cbn [negb] in H; [|injection H as _ <-; congruence].
  cbn zeta in H. rewrite <- U.
  assert (Z : LFI (mkLife (lf_sys a) (lf_up a) (own_groups a) (own_sinks a) (parts a) (gone_groups a) (gone_sinks a))) by (destruct a; exact I).
  assert (W : forall c', step ord (enough (lf_sys a)) dbg (lf_sys a) c' = (s, o) -> logger_call c' ->
     (forall okg oks, SI okg oks (lf_sys a) -> args okg oks (lf_sys a) c') ->
     LFI (mkLife s (lf_up a) (took_group o (own_groups a)) (took_sink o (own_sinks a)) (parts a) (gone_groups a) (gone_sinks a))).
  { intros c' Hc L A. apply act_keeps; [exact I|exact (step_grows _ _ _ _ _ Hc)| |].
    - intros okg oks S _ _ _ _. exact (step_good ord dbg okg oks _ _ _ _ _ S (A okg oks S) Hc).
    - intros U'. congruence. }
  destruct c; match type of H with context [find ?m ?n] => destruct (find m n) as [j|] eqn:Fj end;
    try (injection H as <- <-; exact Z);
    (refine (W _ H Logic.I _); intros okg oks S; cbn [args]; first [exact (si_g _ _ _ S _ _ (find_in _ _ _ Fj)) | exact (si_s _ _ _ S _ _ (find_in _ _ _ Fj))]).
Qed.

Lemma newborn_LFI : LFI newborn.
Proof.
  constructor; cbn.
  - constructor; cbn; try (intros; tauto).
    + intros n k _ [].
    + intros x X H. destruct x; discriminate.
    + intros x X H. destruct x; discriminate.
  - constructor; cbn; try (intros; tauto).
    + intros n k [H|[]]. injection H as _ <-. unfold insinks. cbn. lia.
    + intros x X H. destruct x; discriminate.
    + intros x X H. destruct x; discriminate.
  - intros g [].
  - intros g [].
  - intros m k [].
  - split; [constructor|intros g []].
  - split; [constructor|intros g []].
  - discriminate.
Qed.

Lemma SI_sub okg oks s s' : SI okg oks s -> groups s' = groups s -> loggers s' = loggers s ->
  (forall x, In x (gmap s') -> In x (gmap s)) -> (forall x, In x (smap s') -> In x (smap s)) -> SI okg oks s'.
Proof. intros [S1 S2 S3 S4] E1 E2 H1 H2. constructor; rewrite ?E1, ?E2; eauto. Qed.

Lemma gets_group_ok a g : LFI a -> gets_group a g -> isnot (gone_groups a) g /\ ingroups (lf_sys a) g.
Proof.
  intros I [n _ F|i L N A <-|x X O N P].
  - split; [exact (si_g _ _ _ (li_gone _ I) _ _ (find_in _ _ _ F))|exact (si_g _ _ _ (li_in _ I) _ _ (find_in _ _ _ F))].
  - split; [exact (proj1 (si_ls _ _ _ (li_gone _ I) _ _ N A))|exact (proj1 (si_ls _ _ _ (li_in _ I) _ _ N A))].
  - destruct (li_og _ I x O) as [O1 O2]. pose proof (proj1 (si_gs _ _ _ (li_gone _ I) _ _ N O1)) as A.
    pose proof (proj1 (si_gs _ _ _ (li_in _ I) _ _ N O2)) as B. rewrite P in A, B. split; assumption.
Qed.
Lemma gets_sink_ok a g : LFI a -> gets_sink a g -> isnot (gone_sinks a) g /\ insinks (lf_sys a) g.
Proof.
  intros I [n _ F|i L N A K|x X O N P].
  - split; [exact (si_s _ _ _ (li_gone _ I) _ _ (find_in _ _ _ F))|exact (si_s _ _ _ (li_in _ I) _ _ (find_in _ _ _ F))].
  - pose proof (proj2 (si_ls _ _ _ (li_gone _ I) _ _ N A)) as X. pose proof (proj2 (si_ls _ _ _ (li_in _ I) _ _ N A)) as Y.
    rewrite K in X, Y. split; assumption.
  - destruct (li_og _ I x O) as [O1 O2]. pose proof (proj2 (si_gs _ _ _ (li_gone _ I) _ _ N O1)) as A.
    pose proof (proj2 (si_gs _ _ _ (li_in _ I) _ _ N O2)) as B. rewrite P in A, B. split; assumption.
Qed.

(** Everything somebody has is not destroyed. *)
Lemma holds_group_ok a g : LFI a -> holds_group a g -> ~ In g (gone_groups a).
Proof.
  intros I [O|n N|x X N D P|i L N A <-].
  - exact (proj1 (li_og _ I g O)).
  - exact (si_g _ _ _ (li_gone _ I) _ _ N).
  - pose proof (proj1 (si_gs _ _ _ (li_gone _ I) _ _ N D)) as H. rewrite P in H. exact H.
  - exact (proj1 (si_ls _ _ _ (li_gone _ I) _ _ N A)).
Qed.
Lemma holds_sink_ok a k : LFI a -> holds_sink a k -> ~ In k (gone_sinks a).
Proof.
  intros I [O|n N|x X N D P|i L N A P|m P D].
  - exact (proj1 (li_os _ I k O)).
  - exact (si_s _ _ _ (li_gone _ I) _ _ N).
  - pose proof (proj2 (si_gs _ _ _ (li_gone _ I) _ _ N D)) as H. rewrite P in H. exact H.
  - pose proof (proj2 (si_ls _ _ _ (li_gone _ I) _ _ N A)) as H. rewrite P in H. exact H.
  - destruct (li_parts _ I m k P) as (_ & _ & H). exact (H D).
Qed.

Lemma lfstep_keeps a m b : LFI a -> lfstep ord dbg a m b -> LFI b.
Proof.
  intros I H. destruct H as [m s o H NH NU|n ks s k U Ks H|U|g G|k G|g|k|U|g Hr Hn Hh|k Hr Hn Hh].
  - destruct H as [c s o C H|c s o C H|c s o C H].
    + exact (call_keeps _ _ _ _ I C H).
    + unfold group_call in H. destruct (by_name c && negb (lf_up a)); [injection H as _ <-; congruence|]. exact (gcall_keeps _ _ _ _ I C H).
    + exact (named_keeps _ _ _ _ I C H NU).
  - pose proof (call_keeps a (MakeSink n) s (RSink k) I U H) as J. rewrite U in J. cbn [took_group took_sink] in J.
    assert (Ek : k = length (sinks (lf_sys a)) /\ length (sinks s) = S k).
    { cbn [step] in H. injection H as <- <-. split; [reflexivity|]. cbn [sinks]. rewrite app_length. cbn. lia. }
    destruct J as [J1 J2 J3 J4 J5 J6 J7 J8]. cbn [lf_sys lf_up own_groups own_sinks parts gone_groups gone_sinks] in *.
    constructor; cbn [lf_sys lf_up own_groups own_sinks parts gone_groups gone_sinks]; auto.
    intros m' k' Hi. apply in_app_or in Hi. destruct Hi as [Hi|Hi]; [|exact (J5 _ _ Hi)].
    apply in_map_iff in Hi. destruct Hi as (x & Hx & Hi). injection Hx as <- <-. specialize (Ks x Hi).
    destruct (li_os _ I x Ks) as [A B]. unfold insinks in *. split; [lia|]. split; [lia|]. intros _. exact A.
  - destruct I as [J1 J2 J3 J4 J5 J6 J7 J8]. constructor; cbn; auto.
    + refine (SI_sub _ _ _ (with_configured (lf_sys a)) J1 eq_refl eq_refl _ _); intros x h; exact h.
    + refine (SI_sub _ _ _ (with_configured (lf_sys a)) J2 eq_refl eq_refl _ _); intros x h; exact h.
  - pose proof (gets_group_ok _ _ I G) as K. destruct I as [J1 J2 J3 J4 J5 J6 J7 J8]. constructor; cbn; auto.
    intros x [<-|h]; [exact K|exact (J3 x h)].
  - pose proof (gets_sink_ok _ _ I G) as K. destruct I as [J1 J2 J3 J4 J5 J6 J7 J8]. constructor; cbn; auto.
    intros x [<-|h]; [exact K|exact (J4 x h)].
  - destruct I as [J1 J2 J3 J4 J5 J6 J7 J8]. constructor; cbn; auto.
    intros x h. apply in_remove in h. exact (J3 x (proj1 h)).
  - destruct I as [J1 J2 J3 J4 J5 J6 J7 J8]. constructor; cbn; auto.
    intros x h. apply in_remove in h. exact (J4 x (proj1 h)).
  - destruct I as [J1 J2 J3 J4 J5 J6 J7 J8]. constructor; cbn; auto.
    + refine (SI_sub _ _ _ (without_maps (lf_sys a)) J1 eq_refl eq_refl _ _); intros x [].
    + refine (SI_sub _ _ _ (without_maps (lf_sys a)) J2 eq_refl eq_refl _ _); intros x [].
  - assert (HH : forall x, holds_group a x -> x <> g) by (intros x h ->; exact (Hh h)).
    destruct I as [J1 J2 J3 J4 J5 J6 J7 J8]. constructor; cbn [lf_sys lf_up own_groups own_sinks parts gone_groups gone_sinks]; auto.
    + destruct J1 as [S1 S2 S3 S4]. constructor.
      * intros n x h [->|d]; [apply (HH x); [eapply hg_name; exact h|reflexivity]|exact (S1 n x h d)].
      * exact S2.
      * intros x X N O. assert (O' : ~ In x (gone_groups a)) by (intros d; apply O; right; exact d). destruct (S3 x X N O') as [A B]. split; [|exact B].
        destruct (g_parent X) as [p|] eqn:P; [|exact Logic.I]. intros [->|d]; [|exact (A d)]. apply (HH p); [eapply hg_child; eassumption|reflexivity].
      * intros i L N A. destruct (S4 i L N A) as [B C]. split; [|exact C]. intros [d|d]; [|exact (B d)].
        apply (HH (l_group L)); [eapply hg_logger; eauto|symmetry; exact d].
    + intros x h. destruct (J3 x h) as [A B]. split; [|exact B]. intros [->|d]; [|exact (A d)]. apply (HH x); [apply hg_own, h|reflexivity].
    + destruct J6 as [A B]. split; [constructor; assumption|]. intros x [<-|h]; [exact Hr|exact (B x h)].
  - assert (HH : forall x, holds_sink a x -> x <> k) by (intros x h ->; exact (Hh h)).
    destruct I as [J1 J2 J3 J4 J5 J6 J7 J8]. constructor; cbn [lf_sys lf_up own_groups own_sinks parts gone_groups gone_sinks]; auto.
    + destruct J1 as [S1 S2 S3 S4]. constructor.
      * exact S1.
      * intros n x h [->|d]; [apply (HH x); [eapply hs_name; exact h|reflexivity]|exact (S2 n x h d)].
      * intros x X N O. destruct (S3 x X N O) as [A B]. split; [exact A|].
        destruct (g_sink X) as [p|] eqn:P; [|exact Logic.I]. intros [->|d]; [|exact (B d)]. apply (HH p); [eapply hs_group; eassumption|reflexivity].
      * intros i L N A. destruct (S4 i L N A) as [B C]. split; [exact B|]. destruct (l_sink L) as [p|] eqn:P; [|exact Logic.I].
        intros [->|d]; [|exact (C d)]. apply (HH p); [eapply hs_logger; eauto|reflexivity].
    + intros x h. destruct (J4 x h) as [A B]. split; [|exact B]. intros [->|d]; [|exact (A d)]. apply (HH x); [apply hs_own, h|reflexivity].
    + intros m' k' h. destruct (J5 m' k' h) as (A & B & C). split; [exact A|]. split; [exact B|]. intros O.
      assert (O' : ~ In m' (gone_sinks a)) by (intros d; apply O; right; exact d). intros [->|d]; [|exact (C O' d)].
      apply (HH k'); [eapply hs_part; eassumption|reflexivity].
    + destruct J7 as [A B]. split; [constructor; assumption|]. intros x [<-|h]; [exact Hr|exact (B x h)].
Qed.

Lemma lives_LFI a : lives ord dbg a -> LFI a.
Proof. induction 1 as [|a m b _ IH H]; [exact newborn_LFI|exact (lfstep_keeps _ _ _ IH H)]. Qed.

(** *** Nothing useful is destroyed *)
Lemma useful_group_kept a g : LFI a -> useful_group a g -> ~ In g (gone_groups a) /\ g < length (groups (lf_sys a)).
Proof.
  intros I H. induction H as [g O|n g U N|i L N A|x X g _ [IH1 IH2] N P].
  - exact (li_og _ I g O).
  - split; [exact (si_g _ _ _ (li_gone _ I) _ _ N)|exact (si_g _ _ _ (li_in _ I) _ _ N)].
  - split; [exact (proj1 (si_ls _ _ _ (li_gone _ I) _ _ N A))|exact (proj1 (si_ls _ _ _ (li_in _ I) _ _ N A))].
  - pose proof (proj1 (si_gs _ _ _ (li_gone _ I) _ _ N IH1)) as B. pose proof (proj1 (si_gs _ _ _ (li_in _ I) _ _ N IH2)) as C.
    rewrite P in B, C. split; assumption.
Qed.
Lemma useful_sink_kept a k : LFI a -> useful_sink a k -> ~ In k (gone_sinks a) /\ k < length (sinks (lf_sys a)).
Proof.
  intros I H. induction H as [k O|n k U N|i L k N A P|x X k H N P|m k _ [IH1 IH2] P].
  - exact (li_os _ I k O).
  - split; [exact (si_s _ _ _ (li_gone _ I) _ _ N)|exact (si_s _ _ _ (li_in _ I) _ _ N)].
  - pose proof (proj2 (si_ls _ _ _ (li_gone _ I) _ _ N A)) as B. pose proof (proj2 (si_ls _ _ _ (li_in _ I) _ _ N A)) as C.
    rewrite P in B, C. split; assumption.
  - destruct (useful_group_kept a x I H) as [H1 H2].
    pose proof (proj2 (si_gs _ _ _ (li_gone _ I) _ _ N H1)) as B. pose proof (proj2 (si_gs _ _ _ (li_in _ I) _ _ N H2)) as C.
    rewrite P in B, C. split; assumption.
  - destruct (li_parts _ I m k P) as (A & B & C). split; [exact (C IH1)|]. unfold insinks in B. lia.
Qed.

Theorem useful_kept a : lives ord dbg a ->
  (forall g, useful_group a g -> ~ In g (gone_groups a) /\ g < length (groups (lf_sys a))) /\
  (forall k, useful_sink a k -> ~ In k (gone_sinks a) /\ k < length (sinks (lf_sys a))).
Proof.
  intros H. apply lives_LFI in H. split; [intros g; apply useful_group_kept, H|intros k; apply useful_sink_kept, H].
Qed.

(** *** What is not useful is destroyed *)
Lemma ancestor_trans s x y z : ancestor s x y -> ancestor s y z -> ancestor s x z.
Proof.
  intros H H'. induction H' as [z Z N P|z Z w N P _ IH]; [eapply anc_step; eassumption|].
  exact (anc_step _ _ _ _ _ N P IH).
Qed.

Lemma no_garbage_group a : LFI a -> settled a -> acyclic (lf_sys a) ->
  forall g, g < length (groups (lf_sys a)) -> ~ In g (gone_groups a) -> useful_group a g.
Proof.
  intros I [SG _] AC.
  assert (H : forall n V g, length V + n = length (groups (lf_sys a)) -> NoDup (g :: V) -> (forall v, In v (g :: V) -> v < length (groups (lf_sys a))) ->
     (forall v, In v V -> ancestor (lf_sys a) v g) -> ~ In g (gone_groups a) -> useful_group a g).
  { induction n as [|n IH]; intros V g E ND R AN NG.
    - exfalso. assert (B : length (g :: V) <= length (seq 0 (length (groups (lf_sys a))))).
      { apply NoDup_incl_length; [exact ND|]. intros v h. apply in_seq. specialize (R v h). lia. }
      rewrite seq_length in B. cbn [length] in B. lia.
    - destruct (SG g (R g (or_introl eq_refl)) NG) as [O|m N|x X N D P|i L N A <-].
      + apply ug_own, O.
      + destruct (lf_up a) eqn:U; [eapply ug_name; eassumption|]. destruct (li_up _ I U) as [E1 _]. rewrite E1 in N. destruct N.
      + assert (A0 : ancestor (lf_sys a) g x) by (eapply anc_parent; eassumption).
        assert (A : forall v, In v (g :: V) -> ancestor (lf_sys a) v x).
        { intros v [<-|h]; [exact A0|]. exact (ancestor_trans _ _ _ _ (AN v h) A0). }
        apply ug_parent with (x := x) (X := X); [|exact N|exact P]. apply (IH (g :: V) x).
        * cbn [length]. lia.
        * constructor; [|exact ND]. intros h. exact (AC x (A x h)).
        * intros v [<-|h]; [apply nth_error_Some; congruence|exact (R v h)].
        * exact A.
        * exact D.
      + eapply ug_logger; eassumption. }
  intros g R NG. apply (H (length (groups (lf_sys a))) [] g).
  - reflexivity.
  - constructor; [intros []|constructor].
  - intros v [<-|[]]. exact R.
  - intros v [].
  - exact NG.
Qed.

Lemma no_garbage_sink a : LFI a -> settled a -> acyclic (lf_sys a) ->
  forall k, k < length (sinks (lf_sys a)) -> ~ In k (gone_sinks a) -> useful_sink a k.
Proof.
  intros I S AC.
  assert (H : forall n k, length (sinks (lf_sys a)) - k <= n -> k < length (sinks (lf_sys a)) -> ~ In k (gone_sinks a) -> useful_sink a k).
  { induction n as [|n IH]; intros k E R NG; [lia|].
    destruct (proj2 S k R NG) as [O|m N|x X N D P|i L N A P|m P D].
    - apply us_own, O.
    - destruct (lf_up a) eqn:U; [eapply us_name; eassumption|]. destruct (li_up _ I U) as [_ E1]. rewrite E1 in N. destruct N.
    - eapply us_group; [|exact N|exact P]. apply no_garbage_group; try assumption. apply nth_error_Some. congruence.
    - eapply us_logger; eassumption.
    - destruct (li_parts _ I m k P) as (B & C & _). unfold insinks in C. eapply us_part; [|exact P]. apply IH; [lia|exact C|exact D]. }
  intros k. apply (H (length (sinks (lf_sys a)))). lia.
Qed.

Theorem no_garbage a : lives ord dbg a -> settled a -> acyclic (lf_sys a) ->
  (forall g, g < length (groups (lf_sys a)) -> (In g (gone_groups a) <-> ~ useful_group a g)) /\
  (forall k, k < length (sinks (lf_sys a)) -> (In k (gone_sinks a) <-> ~ useful_sink a k)).
Proof.
  intros L S AC. pose proof (lives_LFI a L) as I. split; intros x R; split.
  - intros G U. exact (proj1 (useful_group_kept a x I U) G).
  - intros NU. destruct (in_dec Nat.eq_dec x (gone_groups a)) as [G|G]; [exact G|].
    destruct NU. exact (no_garbage_group a I S AC x R G).
  - intros G U. exact (proj1 (useful_sink_kept a x I U) G).
  - intros NU. destruct (in_dec Nat.eq_dec x (gone_sinks a)) as [G|G]; [exact G|].
    destruct NU. exact (no_garbage_sink a I S AC x R G).
Qed.

Lemma abandoned_useless a : abandoned a -> (forall g, ~ useful_group a g) /\ (forall k, ~ useful_sink a k).
Proof.
  intros (U & O1 & O2 & L).
  assert (G : forall g, ~ useful_group a g).
  { intros g H. induction H as [g O|n g U' N|i X N A|x X g _ IH N P]; [rewrite O1 in O; exact O|congruence|apply (L i); exists X; split; assumption|exact IH]. }
  split; [exact G|]. intros k H.
  induction H as [k O|n k U' N|i X k N A P|x X k H N P|m k _ IH P]; [rewrite O2 in O; exact O|congruence|apply (L i); exists X; split; assumption|exact (G x H)|exact IH].
Qed.
Theorem all_destroyed a : lives ord dbg a -> settled a -> acyclic (lf_sys a) -> abandoned a ->
  (forall g, g < length (groups (lf_sys a)) -> In g (gone_groups a)) /\
  (forall k, k < length (sinks (lf_sys a)) -> In k (gone_sinks a)).
Proof.
  intros L S AC AB. destruct (no_garbage a L S AC) as [A B]. destruct (abandoned_useless a AB) as [C D].
  split; intros x R; [apply A; [exact R|apply C]|apply B; [exact R|apply D]].
Qed.

(** *** Destruction ends *)
Lemma frees_lives n a b : lives ord dbg a -> frees ord dbg n a b -> lives ord dbg b.
Proof. intros L. induction 1; [exact L| |]; (eapply lv_step; [|eassumption]; auto). Qed.
Lemma gone_bound a : LFI a -> length (gone_groups a) <= length (groups (lf_sys a)) /\ length (gone_sinks a) <= length (sinks (lf_sys a)).
Proof.
  intros I. destruct (li_dg _ I) as [A B]. destruct (li_ds _ I) as [C D].
  split.
  - rewrite <- (seq_length (length (groups (lf_sys a))) 0). apply NoDup_incl_length; [exact A|]. intros x h. apply in_seq. specialize (B x h). unfold ingroups in B. lia.
  - rewrite <- (seq_length (length (sinks (lf_sys a))) 0). apply NoDup_incl_length; [exact C|]. intros x h. apply in_seq. specialize (D x h). unfold insinks in D. lia.
Qed.
Theorem frees_end n a b : lives ord dbg a -> frees ord dbg n a b ->
  n <= length (groups (lf_sys a)) + length (sinks (lf_sys a)).
Proof.
  intros L F.
  assert (H : length (gone_groups b) + length (gone_sinks b) = n + length (gone_groups a) + length (gone_sinks a) /\ lf_sys b = lf_sys a).
  { induction F as [a|n a b c g F IH S|n a b c g F IH S]; [split; reflexivity| |]; destruct (IH L) as [E1 E2];
      inversion S as [m s o Hm Ho1 Ho2 Em Eb| | | | | | | |g' R N Hd Eg Eb|k' R N Hd Eg Eb];
      try (inversion Hm; fail); subst; cbn [gone_groups gone_sinks lf_sys length]; (split; [lia|exact E2]). }
  destruct H as [E1 E2]. pose proof (gone_bound b (lives_LFI b (frees_lives n a b L F))) as [B1 B2]. rewrite E2 in B1, B2. lia.
Qed.

(** *** Rings *)
Definition on_ring (s : sys) (x y : nat) : Prop := ancestor s x y /\ ancestor s y x.

Lemma ancestor_first s x y : ancestor s x y -> exists Y p, nth_error (groups s) y = Some Y /\ g_parent Y = Some p /\ (p = x \/ ancestor s x p).
Proof. intros [y' Y N P|y' Y p N P A]; [exists Y, x; auto|exists Y, p; auto]. Qed.
(* the child of [x] on the way *)
Lemma ancestor_last s x y : ancestor s x y -> exists c C, nth_error (groups s) c = Some C /\ g_parent C = Some x /\ (c = y \/ ancestor s c y).
Proof.
  intros H. induction H as [y Y N P|y Y p N P A IH]; [exists y, Y; auto|].
  destruct IH as (c & C & N' & P' & [->|B]); [exists p, C; split; [exact N'|]; split; [exact P'|]; right; eapply anc_parent; eassumption|].
  exists c, C. split; [exact N'|]. split; [exact P'|]. right. eapply anc_step; eassumption.
Qed.

Lemma abandoned_step a m b : abandoned a -> lfstep ord dbg a m b ->
  abandoned b /\ groups (lf_sys b) = groups (lf_sys a) /\
  (forall x, In x (gone_groups a) -> In x (gone_groups b)) /\
  (forall g, In g (gone_groups b) -> In g (gone_groups a) \/ ~ holds_group a g) /\
  (forall g, In g (gone_sinks b) -> In g (gone_sinks a) \/ ~ holds_sink a g).
Proof.
  intros (U & O1 & O2 & L) H.
  assert (AB : abandoned a) by (repeat split; assumption).
  assert (NG : forall g, ~ gets_group a g).
  { intros g [n U' _|i X N A _|x X O _ _]; [congruence|apply (L i); exists X; split; assumption|rewrite O1 in O; exact O]. }
  assert (NS : forall g, ~ gets_sink a g).
  { intros g [n U' _|i X N A _|x X O _ _]; [congruence|apply (L i); exists X; split; assumption|rewrite O1 in O; exact O]. }
  destruct H as [m s o H NH NU|n ks s k U' Ks H|U'|g G|k G|g|k|U'|g Hr Hn Hh|k Hr Hn Hh]; try congruence.
  - exfalso. destruct H as [c s o C H|c s o C H|c s o C H].
    + destruct c; cbn [can_call] in C; try congruence; first [exact (L _ C) | exact (L _ (proj1 C))].
    + destruct c as [| | | | | | | | |? [?|]| |]; cbn [can_gcall] in C; rewrite ?O1 in C; tauto.
    + exact (L _ C).
  - destruct (NG g G).
  - destruct (NS k G).
  - split; [repeat split; cbn; try assumption; rewrite O1; reflexivity|]. split; [reflexivity|]. cbn. auto.
  - split; [repeat split; cbn; try assumption; rewrite O2; reflexivity|]. split; [reflexivity|]. cbn. auto.
  - split; [repeat split; cbn; assumption|]. split; [reflexivity|]. cbn [gone_groups gone_sinks]. split; [intros x h; right; exact h|].
    split; [|auto]. intros x [<-|h]; auto.
  - split; [repeat split; cbn; assumption|]. split; [reflexivity|]. cbn [gone_groups gone_sinks]. split; [intros x h; exact h|].
    split; [auto|]. intros x [<-|h]; auto.
Qed.

Theorem ring_forever a x X : lives ord dbg a -> abandoned a -> ancestor (lf_sys a) x x -> ~ In x (gone_groups a) ->
  nth_error (groups (lf_sys a)) x = Some X ->
  forall b, later ord dbg a b -> ~ In x (gone_groups b) /\ forall k, g_sink X = Some k -> ~ In k (gone_sinks b).
Proof.
  intros L AB R NG NX b LT.
  assert (H : LFI b /\ abandoned b /\ groups (lf_sys b) = groups (lf_sys a) /\
     forall y, (y = x \/ ancestor (lf_sys a) y x) -> ~ In y (gone_groups b)).
  { induction LT as [|b m c _ (I & A & E & N) S].
    - pose proof (lives_LFI a L) as I. split; [exact I|]. split; [exact AB|]. split; [reflexivity|].
      assert (N : forall y, ancestor (lf_sys a) y x -> forall z, ancestor (lf_sys a) y z -> ~ In z (gone_groups a) -> ~ In y (gone_groups a)).
      { intros y _ z H. induction H as [z Z Nz P|z Z p Nz P _ IH]; intros Hz.
        - apply (holds_group_ok a y I). eapply hg_child; eassumption.
        - apply IH. apply (holds_group_ok a p I). eapply hg_child; eassumption. }
      intros y [->|H]; [exact NG|]. exact (N y H x H NG).
    - destruct (abandoned_step b m c A S) as (A' & E' & _ & G' & _). split; [exact (lfstep_keeps _ _ _ I S)|]. split; [exact A'|].
      split; [congruence|]. intros y Hy Gy. destruct (G' y Gy) as [G|NH]; [exact (N y Hy G)|]. apply NH.
      assert (Ay : ancestor (lf_sys a) y x) by (destruct Hy as [->|Hy]; [exact R|exact Hy]).
      destruct (ancestor_last _ _ _ Ay) as (d & D & Nd & Pd & Hd). apply hg_child with (x := d) (X := D); [rewrite E; exact Nd| |exact Pd].
      apply N. destruct Hd as [->|Hd]; [left; reflexivity|right; exact Hd]. }
  destruct H as (I & _ & E & N). assert (Nx : ~ In x (gone_groups b)) by (apply N; left; reflexivity).
  split; [exact Nx|]. intros k Hk. apply (holds_sink_ok b k I). apply hs_group with (x := x) (X := X); [rewrite E; exact NX|exact Nx|exact Hk].
Qed.

(** *** Calls *)
Lemma logger_same fuel s s' c t o : same_objects s s' -> logger_call c -> step ord fuel dbg s c = (t, o) ->
  exists t', step ord fuel dbg s' c = (t', o) /\ same_objects t t'.
Proof.
  intros (E1 & E2 & E3) C H.
  assert (M : forall i f, same_objects (mod_logger s i f) (mod_logger s' i f)).
  { intros i f. unfold mod_logger. rewrite E2. destruct (nth_error (loggers s') i); repeat split; cbn [groups loggers sinks with_loggers]; congruence. }
  assert (Z : same_objects s s') by (repeat split; assumption).
  destruct c; try destruct C; cbn [step] in H |- *; rewrite <- ?E1, <- ?E2, <- ?E3;
    repeat match type of H with match ?e with _ => _ end = _ => destruct e end;
    injection H as <- <-; eexists; (split; [reflexivity|]); solve [apply M | exact Z].
Qed.

Lemma live_group a i L : LFI a -> nth_error (loggers (lf_sys a)) i = Some L -> l_alive L = true ->
  exists y, nth_error (groups (lf_sys a)) (l_group L) = Some y.
Proof.
  intros I N A. pose proof (proj1 (si_ls _ _ _ (li_in _ I) _ _ N A)) as B. unfold ingroups in B.
  destruct (nth_error (groups (lf_sys a)) (l_group L)) as [y|] eqn:E; [eauto|]. apply nth_error_None in E. lia.
Qed.
Lemma own_group a g : LFI a -> In g (own_groups a) -> exists y, nth_error (groups (lf_sys a)) g = Some y.
Proof.
  intros I O. destruct (li_og _ I g O) as [_ B]. unfold ingroups in B.
  destruct (nth_error (groups (lf_sys a)) g) as [y|] eqn:E; [eauto|]. apply nth_error_None in E. lia.
Qed.

Lemma call_returns a c : LFI a -> logger_call c -> can_call a c ->
  exists s, step ord (enough (lf_sys a)) dbg (lf_sys a) c = (s, RUnit).
Proof.
  intros I LC C. destruct c; try destruct LC; cbn [can_call] in C; cbn [step].
  - eauto.
  - destruct C as (L & N & A). rewrite N. destruct (live_group a i L I N A) as [y Y]. rewrite Y. eauto.
  - destruct (own_group a g I (proj2 C)) as [y Y]. rewrite Y. eauto.
  - destruct (li_os _ I k (proj2 C)) as [_ B]. apply Nat.ltb_lt in B. rewrite B. eauto.
  - destruct C as (L & N & A). rewrite N. destruct (live_group a i L I N A) as [y Y]. rewrite Y. eauto.
  - destruct (own_group a g I (proj2 C)) as [y Y]. rewrite Y. eauto.
  - destruct (own_group a g I (proj2 C)) as [y Y]. rewrite Y. eauto.
Qed.

Theorem calls_work a c : lives ord dbg a -> logger_call c -> can_call a c ->
  exists s, acts ord dbg a (FCall c) s RUnit /\
    forall s0, same_objects (lf_sys a) s0 -> exists s1,
      step ord (enough s0) dbg s0 c = (s1, RUnit) /\ same_objects s s1.
Proof.
  intros L LC C. destruct (call_returns a c (lives_LFI a L) LC C) as [s H]. exists s. split; [constructor; assumption|].
  intros s0 E. replace (enough s0) with (enough (lf_sys a)) by (unfold enough; rewrite (proj1 E); reflexivity).
  exact (logger_same _ _ _ _ _ _ E LC H).
Qed.

Theorem named_works a c s o : lives ord dbg a -> acts ord dbg a (FNamed c) s o ->
  (o = RUnit <-> lf_up a = true) /\ (o = RUB <-> lf_up a = false).
Proof.
  intros L H. pose proof (lives_LFI a L) as I. inversion H as [| |c' s' o' C H' E1 E2 E3]; subst c' s' o'. clear H.
  assert (K : lf_up a = true -> o = RUnit).
  { intros U. unfold named_call in H'. rewrite U in H'. cbn [negb] in H'. cbn zeta in H'.
    assert (G : forall n g, find (gmap (lf_sys a)) n = Some g -> exists y, nth_error (groups (lf_sys a)) g = Some y).
    { intros n g F. pose proof (si_g _ _ _ (li_in _ I) _ _ (find_in _ _ _ F)) as B. unfold ingroups in B.
      destruct (nth_error (groups (lf_sys a)) g) as [y|] eqn:E; [eauto|]. apply nth_error_None in E. lia. }
    destruct c; match type of H' with context [find ?m ?n] => destruct (find m n) as [j|] eqn:Fj end; try (injection H' as _ <-; reflexivity);
      cbn [step] in H'; try (destruct (G _ _ Fj) as [y Y]; rewrite Y in H'; injection H' as _ <-; reflexivity).
    pose proof (si_s _ _ _ (li_in _ I) _ _ (find_in _ _ _ Fj)) as B. apply Nat.ltb_lt in B. rewrite B in H'. injection H' as _ <-. reflexivity. }
  destruct (lf_up a) eqn:U.
  - rewrite (K eq_refl). split; split; congruence.
  - unfold named_call in H'. rewrite U in H'. injection H' as _ <-. split; split; congruence.
Qed.

Lemma group_same s s' c t o : same_objects s s' -> ~ given_name c -> gstep s c = (t, o) ->
  exists t', gstep s' c = (t', o) /\ same_objects t t'.
Proof.
  intros (E1 & E2 & E3) C H.
  assert (M : forall i f, same_objects (mod_group s i f) (mod_group s' i f)).
  { intros i f. unfold mod_group. rewrite E1. destruct (nth_error (groups s') i); repeat split; cbn [groups loggers sinks with_groups]; congruence. }
  assert (Z : same_objects s s') by (repeat split; assumption).
  destruct c; try (exfalso; apply C; constructor; fail); try destruct p; unfold gstep, from_group in H |- *; rewrite <- ?E1, <- ?E2, <- ?E3;
    repeat match type of H with match ?e with _ => _ end = _ => destruct e end;
    injection H as <- <-; eexists; (split; [reflexivity|]); solve [apply M | exact Z].
Qed.

Lemma named_dec c : given_name c \/ (~ given_name c /\ by_name c = false).
Proof. destruct c; try (left; constructor; fail); right; (split; [intros H; inversion H|reflexivity]). Qed.

Lemma gcall_returns a c : LFI a -> can_gcall a c -> exists s, gstep (lf_sys a) c = (s, RUnit).
Proof.
  intros I C.
  assert (G : forall n g, find (gmap (lf_sys a)) n = Some g -> exists y, nth_error (groups (lf_sys a)) g = Some y).
  { intros n g F. pose proof (si_g _ _ _ (li_in _ I) _ _ (find_in _ _ _ F)) as B. unfold ingroups in B.
    destruct (nth_error (groups (lf_sys a)) g) as [y|] eqn:E; [eauto|]. apply nth_error_None in E. lia. }
  destruct c as [g l|g|g h|g n|g k|g n|g|g h|g n|g [p|]|g n|g]; cbn [can_gcall] in C; unfold gstep, from_named, from_group; try (eexists; reflexivity).
  - destruct (own_group a h I (proj2 C)) as [y Y]. rewrite Y. eauto.
  - destruct (find (gmap (lf_sys a)) n) as [h|] eqn:F; [destruct (G _ _ F) as [y Y]; rewrite Y|]; eauto.
  - destruct (li_os _ I k (proj2 C)) as [_ B]. apply Nat.ltb_lt in B. rewrite B. eauto.
  - destruct (find (smap (lf_sys a)) n); eauto.
  - destruct (own_group a h I (proj2 C)) as [y Y]. rewrite Y. eauto.
  - destruct (find (gmap (lf_sys a)) n) as [h|] eqn:F; [destruct (G _ _ F) as [y Y]; rewrite Y|]; eauto.
  - destruct (own_group a p I (proj2 C)) as [y Y]. rewrite Y. eauto.
  - destruct (find (gmap (lf_sys a)) n) as [h|] eqn:F; [destruct (G _ _ F) as [y Y]; rewrite Y|]; eauto.
Qed.

Theorem groups_work a c : lives ord dbg a -> can_gcall a c ->
  exists s o, acts ord dbg a (FGroup c) s o /\
    (o = RUnit <-> (given_name c -> lf_up a = true)) /\ (o = RUB <-> given_name c /\ lf_up a = false) /\
    forall s0, same_objects (lf_sys a) s0 -> ~ given_name c -> exists s1, gstep s0 c = (s1, RUnit) /\ same_objects s s1.
Proof.
  intros L C. pose proof (lives_LFI a L) as I. destruct (gcall_returns a c I C) as [s H].
  destruct (named_dec c) as [Nm|[Nm B]].
  - destruct (lf_up a) eqn:U.
    + exists s, RUnit. split; [constructor; [exact C|]; unfold group_call; rewrite U, andb_false_r; exact H|].
      split; [tauto|]. split; [split; [discriminate|intros [_ X]; discriminate X]|]. intros s0 _ X. contradiction.
    + exists (lf_sys a), RUB. split.
      { constructor; [exact C|]. unfold group_call. rewrite U. destruct Nm; reflexivity. }
      split; [split; [discriminate|intros X; specialize (X Nm); discriminate X]|]. split; [tauto|]. intros s0 _ X. contradiction.
  - exists s, RUnit. split; [constructor; [exact C|]; unfold group_call; rewrite B; exact H|].
    split; [tauto|]. split; [split; [discriminate|tauto]|]. intros s0 E _. exact (group_same _ _ _ _ _ E Nm H).
Qed.
End Inv.
