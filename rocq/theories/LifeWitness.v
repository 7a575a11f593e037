From Coq Require Import String List Arith Bool Lia.
From Verif Require Import Base LevelModel SysModel SysSpec SysBase SysProps SysWitness GroupModel LifeModel LifeSpec LifeProofs.
Import ListNotations.
Open Scope string_scope.

Lemma usual_lives ord dbg a : usual_life ord dbg a -> lives ord dbg a.
Proof. induction 1; [constructor|eapply lv_step; eassumption]. Qed.

Lemma ancestor_groups s s' : groups s = groups s' -> forall x y, ancestor s x y -> ancestor s' x y.
Proof.
  intros E x y H. induction H as [y Y N P|y Y z N P _ IH]; [eapply anc_parent; [rewrite <- E; exact N|exact P]|].
  eapply anc_step; [rewrite <- E; exact N|exact P|exact IH].
Qed.
Lemma acyclic_groups s s' : groups s = groups s' -> acyclic s -> acyclic s'.
Proof. intros E A x H. apply (A x). apply (ancestor_groups s' s); [symmetry; exact E|exact H]. Qed.

Lemma usual_acyclic ord dbg : rearranges ord -> forall a, usual_life ord dbg a -> acyclic (lf_sys a).
Proof.
  intros R a H.
  assert (K : (lf_up a = true -> reachable ord dbg usual (lf_sys a)) /\ acyclic (lf_sys a)).
  { induction H as [|a m b Ha [IH1 IH2] S U].
    - split; [constructor|]. apply (proj1 (no_cycles ord R dbg init (reach_init _ _ _))).
    - pose proof (lives_LFI ord dbg a (usual_lives _ _ _ Ha)) as I.
      assert (W : (lf_up b = true -> reachable ord dbg usual (lf_sys b)) /\ (lf_up b = false -> groups (lf_sys b) = groups (lf_sys a))).
      { destruct S as [m s o H NH NU|n ks s k U' Ks H|U'|g G|k G|g|k|U'|g Hr Hn Hh|k Hr Hn Hh]; cbn [lf_up lf_sys with_sys];
          try (split; [exact IH1|reflexivity]).
        - destruct H as [c s o C H|c s o C H|c s o C H]; [| destruct U |].
          + split; intros Ub.
            * replace s with (fst (step ord (enough (lf_sys a)) dbg (lf_sys a) c)) by (rewrite H; reflexivity). constructor; [exact (IH1 Ub)|exact U].
            * assert (LC : logger_call c \/ exists i, c = LDrop i).
              { destruct c; cbn [can_call] in C; try (rewrite Ub in C; discriminate C); try (left; exact Logic.I). right. eauto. }
              exact (proj1 (proj2 (proj2 (logger_maps ord dbg _ _ _ _ _ LC H)))).
          + split; intros Ub; [|unfold named_call in H; rewrite Ub in H; injection H as <- <-; reflexivity].
            unfold named_call in H. rewrite Ub in H. cbn [negb] in H. cbn zeta in H.
            assert (Q : forall c', step ord (enough (lf_sys a)) dbg (lf_sys a) c' = (s, o) -> usual (lf_sys a) c' -> reachable ord dbg usual s).
            { intros c' Hc Uc. replace s with (fst (step ord (enough (lf_sys a)) dbg (lf_sys a) c')) by (rewrite Hc; reflexivity). constructor; [exact (IH1 Ub)|exact Uc]. }
            destruct c; match type of H with context [find ?mm ?n] => destruct (find mm n) as [j|] end;
              try (injection H as <- <-; exact (IH1 Ub)); (refine (Q _ H _); split; exact Logic.I).
        - split; [|discriminate]. intros _. replace s with (fst (step ord (enough (lf_sys a)) dbg (lf_sys a) (MakeSink n))) by (rewrite H; reflexivity).
          constructor; [exact (IH1 U')|split; exact Logic.I].
        - split; [|congruence]. intros _. constructor. exact (IH1 U').
        - split; [discriminate|reflexivity]. }
      destruct W as [W1 W2]. split; [exact W1|]. destruct (lf_up b); [exact (proj1 (no_cycles ord R dbg _ (W1 eq_refl)))|].
      apply (acyclic_groups (lf_sys a)); [symmetry; apply W2; reflexivity|exact IH2]. }
  exact (proj2 K).
Qed.

(** ** Concrete histories *)
Definition next (a : life) (m : fmove) : life :=
  let acted (r : sys * out) := mkLife (fst r) (lf_up a) (took_group (snd r) (own_groups a)) (took_sink (snd r) (own_sinks a))
                                 (parts a) (gone_groups a) (gone_sinks a) in
  match m with
  | FCall c => acted (step idord (enough (lf_sys a)) true (lf_sys a) c)
  | FGroup c => acted (group_call a c)
  | FNamed c => acted (named_call idord true a c)
  | FMulti n ks => let k := length (sinks (lf_sys a)) in
      mkLife (fst (step idord (enough (lf_sys a)) true (lf_sys a) (MakeSink n))) true (own_groups a) (k :: own_sinks a) (map (pair k) ks ++ parts a)
        (gone_groups a) (gone_sinks a)
  | FConfigured => with_sys a (with_configured (lf_sys a))
  | FTakeGroup g => mkLife (lf_sys a) (lf_up a) (g :: own_groups a) (own_sinks a) (parts a) (gone_groups a) (gone_sinks a)
  | FTakeSink k => mkLife (lf_sys a) (lf_up a) (own_groups a) (k :: own_sinks a) (parts a) (gone_groups a) (gone_sinks a)
  | FDropGroup g => mkLife (lf_sys a) (lf_up a) (remove Nat.eq_dec g (own_groups a)) (own_sinks a) (parts a) (gone_groups a) (gone_sinks a)
  | FDropSink k => mkLife (lf_sys a) (lf_up a) (own_groups a) (remove Nat.eq_dec k (own_sinks a)) (parts a) (gone_groups a) (gone_sinks a)
  | FDestroySystem => mkLife (without_maps (lf_sys a)) false (own_groups a) (own_sinks a) (parts a) (gone_groups a) (gone_sinks a)
  | FreeGroup g => mkLife (lf_sys a) (lf_up a) (own_groups a) (own_sinks a) (parts a) (g :: gone_groups a) (gone_sinks a)
  | FreeSink k => mkLife (lf_sys a) (lf_up a) (own_groups a) (own_sinks a) (parts a) (gone_groups a) (k :: gone_sinks a)
  end.
Fixpoint nexts (a : life) (ms : list fmove) : life := match ms with [] => a | m :: ms => nexts (next a m) ms end.
Fixpoint steps (a : life) (ms : list fmove) : Prop :=
  match ms with [] => True | m :: ms => lfstep idord true a m (next a m) /\ steps (next a m) ms end.

Lemma nexts_lives ms : forall a, lives idord true a -> steps a ms -> lives idord true (nexts a ms).
Proof. induction ms as [|m ms IH]; intros a L D; [exact L|]. destruct D as [S D]. apply IH; [eapply lv_step; eassumption|exact D]. Qed.
Lemma nexts_later ms : forall a b, later idord true a b -> steps b ms -> later idord true a (nexts b ms).
Proof. induction ms as [|m ms IH]; intros a b L D; [exact L|]. destruct D as [S D]. apply IH; [eapply la_step; eassumption|exact D]. Qed.

Fixpoint usuals (a : life) (ms : list fmove) : Prop :=
  match ms with [] => True | m :: ms => usual_move a m /\ usuals (next a m) ms end.
Lemma nexts_usual ms : forall a, usual_life idord true a -> steps a ms -> usuals a ms -> usual_life idord true (nexts a ms).
Proof.
  induction ms as [|m ms IH]; intros a L D U; [exact L|]. destruct D as [S D]. destruct U as [M U]. apply IH; [eapply ul_step; eassumption|exact D|exact U].
Qed.

Lemma no_group a g : (forall n, ~ In (n, g) (gmap (lf_sys a))) -> ~ In g (own_groups a) ->
  (forall x X, nth_error (groups (lf_sys a)) x = Some X -> ~ In x (gone_groups a) -> g_parent X <> Some g) ->
  (forall i L, nth_error (loggers (lf_sys a)) i = Some L -> l_alive L = true -> l_group L <> g) -> ~ holds_group a g.
Proof. intros H1 H2 H3 H4 [O|n N|x X N D P|i L N A P]; [exact (H2 O)|exact (H1 n N)|exact (H3 x X N D P)|exact (H4 i L N A P)]. Qed.

Ltac go_step :=
  first
  [ apply f_acts; [ first [ apply a_call; [ cbn; first [ reflexivity | eexists; split; reflexivity | split; [eexists; split; reflexivity|cbn; tauto] ] | reflexivity ]
                          | apply a_group; [ cbn; tauto | reflexivity ]
                          | apply a_named; [ eexists; split; reflexivity | reflexivity ] ]
                  | discriminate | discriminate ]
  | apply f_multi; [ reflexivity | cbn; tauto | reflexivity ]
  | apply f_configured; reflexivity
  | apply f_take_group; first [ eapply gg_name; [reflexivity|cbn; reflexivity] | eapply gg_logger; reflexivity ]
  | apply f_drop_group | apply f_drop_sink | apply f_destroy; reflexivity ].

(** A group that is its own parent. *)
Definition ring_made : list fmove :=
  [FCall (MakeSink "f"); FCall (MakeGroup "a" None (Some "f") (Some INFO)); FCall (SetParentOfGroup "a" "a");
   FDropSink 1; FDropGroup 0; FDestroySystem].
Definition ring_left : life := Eval vm_compute in nexts newborn ring_made.
Lemma ring_steps : steps newborn ring_made.
Proof. unfold ring_made. repeat (split; [go_step|]). exact I. Qed.
Lemma ring_lives : lives idord true ring_left.
Proof. change ring_left with (nexts newborn ring_made). apply nexts_lives; [constructor|exact ring_steps]. Qed.
Definition ring_end : life := next ring_left (FreeSink 0).
Lemma ring_end_step : lfstep idord true ring_left (FreeSink 0) ring_end.
Proof.
  apply f_free_sink; [cbn; lia|intros []|]. intros [O|n N|x X N D P|i L N A P|m P D]; cbn in *; try tauto.
  - destruct x as [|[|x]]; cbn in N; try discriminate. injection N as <-. discriminate P.
  - destruct i; discriminate.
Qed.
Lemma ring_abandoned : abandoned ring_end.
Proof. repeat split. intros i (L & N & _). destruct i; discriminate. Qed.
Lemma ring_settled : settled ring_end.
Proof.
  split; cbn.
  - intros [|g] R NG; [|lia]. eapply hg_child with (x := 0); [reflexivity|exact NG|reflexivity].
  - intros [|[|k]] R NG; [destruct NG; left; reflexivity| |lia]. eapply hs_group with (x := 0); [reflexivity|intros []|reflexivity].
Qed.
Lemma ring_end_lives : lives idord true ring_end.
Proof. eapply lv_step; [exact ring_lives|exact ring_end_step]. Qed.

(** The same without the ring, with a multisink, a child and a logger. *)
Definition plain_made : list fmove :=
  [FCall (MakeSink "f"); FMulti "m" [1]; FCall (MakeGroup "a" None (Some "m") (Some INFO));
   FCall (MakeGroup "b" (Some "a") None None); FConfigured; FCall (GetLogger "l" "b" None None);
   FDropSink 1; FDropSink 2; FDropGroup 0; FDropGroup 1; FDestroySystem].
Definition plain_down : life := Eval vm_compute in nexts newborn plain_made.
Lemma plain_steps : steps newborn plain_made.
Proof. unfold plain_made. repeat (split; [go_step|]). exact I. Qed.
Lemma plain_usuals : usuals newborn plain_made.
Proof.
  unfold plain_made. repeat (split; [first [exact I | split; [exact I|try exact I]]|]); try exact I;
    (intros (i & x & H & N & P & _); cbn in H; try discriminate H; injection H as <-; cbn in N; injection N as <-; exact (P eq_refl)).
Qed.
Lemma plain_usual : usual_life idord true plain_down.
Proof. change plain_down with (nexts newborn plain_made). apply nexts_usual; [constructor|exact plain_steps|exact plain_usuals]. Qed.
Definition plain_end_moves : list fmove :=
  [FreeSink 0; FCall (LDrop 0); FreeGroup 1; FreeGroup 0; FreeSink 2; FreeSink 1].
Definition plain_end : life := Eval vm_compute in nexts plain_down plain_end_moves.
Ltac unheld := intros [O|n N|x X N D P|i L N A P|m P D]; cbn in *; try tauto;
  repeat match goal with
  | H : nth_error (_ :: _) ?x = Some _ |- _ => destruct x; cbn in H
  | H : nth_error [] ?x = Some _ |- _ => destruct x; cbn in H
  | H : Some _ = Some _ |- _ => injection H as <-; cbn in *
  | H : None = Some _ |- _ => discriminate H
  | H : _ \/ False |- _ => destruct H as [H|[]]
  | H : (_, _) = (_, _) |- _ => inversion H; subst; clear H
  end; try discriminate; try tauto; try lia; try (match goal with D : ~ _ |- _ => apply D; auto end).
Ltac unheld_g := intros [O|n N|x X N D P|i L N A P]; cbn in *; try tauto;
  repeat match goal with
  | H : nth_error (_ :: _) ?x = Some _ |- _ => destruct x; cbn in H
  | H : nth_error [] ?x = Some _ |- _ => destruct x; cbn in H
  | H : Some _ = Some _ |- _ => injection H as <-; cbn in *
  | H : None = Some _ |- _ => discriminate H
  | H : _ \/ False |- _ => destruct H as [H|[]]
  | H : (_, _) = (_, _) |- _ => inversion H; subst; clear H
  end; try discriminate; try tauto; try lia; try (match goal with D : ~ _ |- _ => apply D; auto end).
Lemma plain_end_steps : steps plain_down plain_end_moves.
Proof.
  unfold plain_end_moves. cbn [steps].
  split; [apply f_free_sink; [cbn; lia|intros []|unheld]|].
  split; [go_step|].
  split; [apply f_free_group; [cbn; lia|intros []|unheld_g]|].
  split; [apply f_free_group; [cbn; lia|cbn; intros [h|[]]; discriminate h|unheld_g]|].
  split; [apply f_free_sink; [cbn; lia|cbn; intros [h|[]]; discriminate h|unheld]|].
  split; [apply f_free_sink; [cbn; lia|cbn; intros [h|[h|[]]]; discriminate h|unheld]|exact I].
Qed.
Lemma plain_end_usual : usual_life idord true plain_end.
Proof.
  change plain_end with (nexts plain_down plain_end_moves). apply nexts_usual; [exact plain_usual|exact plain_end_steps|].
  cbn [usuals plain_end_moves usual_move]. repeat split.
Qed.
