(** * Concrete systems *)
From Coq Require Import String List Arith Bool Lia.
From Verif Require Import Base LevelModel SysModel SysSpec SysBase SysProps.
Import ListNotations.
Open Scope string_scope.

Definition idord (l : list nat) : list nat := l.
Lemma idord_ok : rearranges idord.
Proof. intros l. apply Permutation.Permutation_refl. Qed.

(** Two trees, a - b - c and d; two loggers. *)
Definition ex_calls : list call :=
  [MakeSink "k1"; MakeSink "k2"; MakeGroup "a" None (Some "k1") (Some INFO); MakeGroup "b" (Some "a") None None;
   MakeGroup "c" (Some "b") None (Some DEBUG); MakeGroup "d" None (Some "k2") (Some ERROR)].
Definition ex_calls2 : list call := [GetLogger "l1" "b" None None; GetLogger "l2" "c" (Some "k2") (Some TRACE)].

Definition ex_unconfigured : sys := Eval vm_compute in fst (run idord 10 true init ex_calls).
Definition ex_sys : sys := Eval vm_compute in fst (run idord 10 true (with_configured ex_unconfigured) ex_calls2).

Fixpoint go (ord : list nat -> list nat) (dbg : bool) (s : sys) (cs : list call) : sys :=
  match cs with [] => s | c :: cs' => go ord dbg (fst (step ord (enough s) dbg s c)) cs' end.
Fixpoint go_ok (ord : list nat -> list nat) (dbg : bool) (ok : sys -> call -> Prop) (s : sys) (cs : list call) : Prop :=
  match cs with [] => True | c :: cs' => ok s c /\ go_ok ord dbg ok (fst (step ord (enough s) dbg s c)) cs' end.
Lemma reach_go ord dbg (ok : sys -> call -> Prop) cs : forall s, reachable ord dbg ok s -> go_ok ord dbg ok s cs -> reachable ord dbg ok (go ord dbg s cs).
Proof. induction cs as [|c cs IH]; intros s H Ho; cbn; [exact H|]. destruct Ho. apply IH; [apply reach_call|]; assumption. Qed.

Lemma fresh_name s n p k lv : find (gmap s) n = None -> (p = None -> k <> None) -> usual_sinks s (MakeGroup n p k lv).
Proof.
  intros H Hk. split; [split; [exact I|]|].
  - intros (i & x & F & _). congruence.
  - cbn. destruct p; [exact I|]. destruct k; [exact I|]. apply Hk; reflexivity.
Qed.

Ltac ok1 := first [exact I | split; [first [apply fresh_name; [reflexivity|discriminate] | (repeat split; exact I)]|ok1]].
Ltac reach cs := match goal with |- reachable ?o ?d _ ?s =>
  replace s with (go o d init cs) by (vm_compute; reflexivity); apply reach_go; [apply reach_init|ok1] end.

Lemma ex_unconfigured_reachable ord dbg : reachable ord dbg usual_sinks ex_unconfigured.
Proof. reach ex_calls. Qed.

Lemma ex_reachable ord dbg : reachable ord dbg usual_sinks ex_sys.
Proof.
  replace ex_sys with (go ord dbg (with_configured ex_unconfigured) ex_calls2) by (vm_compute; reflexivity).
  apply reach_go; [apply reach_configure; apply ex_unconfigured_reachable|ok1].
Qed.

Lemma ex_usual ord dbg : reachable ord dbg usual ex_sys.
Proof.
  pose proof (ex_reachable ord dbg) as H. clear - H. induction H; [constructor|apply reach_call; [assumption|apply H0]|apply reach_configure; assumption].
Qed.

(** ** C47: a group as its own parent *)
Definition any_call (s : sys) (c : call) : Prop := True.
Definition loop_sys : sys := Eval vm_compute in
  fst (run idord 10 true init [MakeGroup "a" None (Some "*") (Some INFO); MakeGroup "b" None (Some "*") (Some INFO); SetParentOfGroup "a" "a"]).

Lemma loop_reachable ord dbg : reachable ord dbg any_call loop_sys.
Proof.
  reach [MakeGroup "a" None (Some "*") (Some INFO); MakeGroup "b" None (Some "*") (Some INFO); SetParentOfGroup "a" "a"].
Qed.
Lemma loop_accepted ord fuel dbg : exists s,
  step ord fuel dbg s (SetParentOfGroup "a" "a") = (loop_sys, RBool true) /\ s = fst (run idord 10 true init [MakeGroup "a" None (Some "*") (Some INFO); MakeGroup "b" None (Some "*") (Some INFO)]).
Proof. eexists. split; [|reflexivity]. destruct fuel; vm_compute; reflexivity. Qed.

Lemma loop_ancestor : ancestor loop_sys 0 0.
Proof. eapply anc_parent; reflexivity. Qed.

Lemma loop_fn fuel ov st x : (forall y, ov y = false) -> nth_error (groups loop_sys) 0 = Some x -> fn fuel ov (groups loop_sys) 1 [] st 0 = None.
Proof. intros Hv E. revert st. induction fuel as [|f IH]; intros st; cbn; rewrite Hv; [reflexivity|]. cbn in IH. rewrite IH. reflexivity. Qed.

Lemma loop_level ord fuel dbg l : snd (step ord fuel dbg loop_sys (SetLevelOfGroup "b" l)) = RHang.
Proof.
  assert (H : forall st, fn fuel g_lov (groups (mod_group loop_sys 1 (g_set_level l))) 1 [] st 0 = None).
  { induction fuel as [|f IH]; intros st; cbn; [reflexivity|]. cbn in IH. rewrite IH. reflexivity. }
  cbn [step]. change (find (gmap loop_sys) "b") with (Some 1). cbn iota. unfold set_level_of_group, spread.
  change (gmap (mod_group loop_sys 1 (g_set_level l))) with (("*", 0) :: [("a", 0); ("b", 1)]). cbn [scan]. rewrite H. reflexivity.
Qed.
Lemma loop_parent ord fuel dbg : snd (step ord fuel dbg loop_sys (SetParentOfGroup "b" "a")) = RHang.
Proof.
  assert (H : climbs_to fuel (groups loop_sys) 1 (Some 0) = None).
  { induction fuel as [|f IH]; cbn; [reflexivity|]. exact IH. }
  cbn [step]. change (find (gmap loop_sys) "b") with (Some 1). change (find (gmap loop_sys) "a") with (Some 0). cbn iota zeta.
  change (nth_error (groups loop_sys) 0) with (Some (mkGroup "a" (Some 0) (Some 0) false INFO false)). cbn [g_parent oeqb Nat.eqb]. rewrite H. reflexivity.
Qed.

(** ** C52: the level of a root, set explicitly, is lost *)
Definition root_sys : sys := Eval vm_compute in
  fst (run idord 10 true init [MakeGroup "p" None (Some "*") (Some ERROR); MakeGroup "a" None (Some "*") (Some INFO); MakeSink "k"]).
Lemma root_reachable ord dbg : reachable ord dbg usual_sinks root_sys.
Proof. reach [MakeGroup "p" None (Some "*") (Some ERROR); MakeGroup "a" None (Some "*") (Some INFO); MakeSink "k"]. Qed.

Definition level_of (s : sys) (n : string) : option level :=
  match find (gmap s) n with Some i => option_map g_level (nth_error (groups s) i) | None => None end.
Definition sink_of (s : sys) (n : string) : option (option nat) :=
  match find (gmap s) n with Some i => option_map g_sink (nth_error (groups s) i) | None => None end.

Lemma root_level_lost ord fuel dbg l :
  let '(s1, os1) := run ord (S (S fuel)) dbg root_sys [SetLevelOfGroup "a" l; SetSinkOfGroup "a" "k"] in
  let '(s2, os2) := run ord (S (S fuel)) dbg s1 [SetParentOfGroup "a" "p"] in
  os1 = [RBool true; RBool true] /\ os2 = [RBool true] /\
  level_of s1 "a" = Some l /\ sink_of s1 "a" = Some (Some 1) /\ level_of s2 "a" = Some ERROR /\ sink_of s2 "a" = Some (Some 0).
Proof. vm_compute. repeat split. Qed.

(** What a group had from its parent when it was cut off is lost, too. *)
Definition cut_sys : sys := Eval vm_compute in
  fst (run idord 10 true init [MakeGroup "p" None (Some "*") (Some ERROR); MakeGroup "q" None (Some "*") (Some INFO); MakeGroup "a" (Some "p") None None]).
Lemma cut_reachable ord dbg : reachable ord dbg usual_sinks cut_sys.
Proof. reach [MakeGroup "p" None (Some "*") (Some ERROR); MakeGroup "q" None (Some "*") (Some INFO); MakeGroup "a" (Some "p") None None]. Qed.
Lemma cut_level_lost ord fuel dbg :
  let '(s1, os1) := run ord (S (S fuel)) dbg cut_sys [UnsetParentOfGroup "a"] in
  let '(s2, os2) := run ord (S (S fuel)) dbg s1 [SetParentOfGroup "a" "q"] in
  os1 = [RBool true] /\ os2 = [RBool true] /\ level_of s1 "a" = Some ERROR /\ level_of s2 "a" = Some INFO.
Proof. vm_compute. repeat split. Qed.

(** ** C54 *)
Definition race_sys : sys := Eval vm_compute in
  fst (run idord 10 true init [MakeGroup "a" None (Some "*") (Some ERROR)]).
Lemma race_reachable ord dbg : reachable ord dbg usual_sinks race_sys.
Proof. reach [MakeGroup "a" None (Some "*") (Some ERROR)]. Qed.
Lemma race_stale ord fuel dbg (Hord : rearranges ord) :
  exists s2, interleaved ord (S fuel) dbg race_sys "b" (Some "a") None None (SetLevelOfGroup "a" TRACE) = Some (s2, 1, RBool true) /\
    level_of s2 "a" = Some TRACE /\ level_of s2 "b" = Some ERROR /\
    (exists B, nth_error (groups s2) 1 = Some B /\ g_parent B = Some 0 /\ g_lov B = false) /\
    ~ reachable ord dbg usual s2.
Proof.
  eexists. split; [vm_compute; reflexivity|]. split; [reflexivity|]. split; [reflexivity|]. split; [eexists; repeat split|].
  intros H. destruct (proj1 (group_level ord Hord dbg _ 1 _ H eq_refl) 0 eq_refl eq_refl) as (P & E & HL). injection E as <-. discriminate HL.
Qed.

(** ** C55: a root without sink *)
Definition bare_sys : sys := Eval vm_compute in
  with_configured (fst (run idord 10 true init [MakeGroup "a" None None (Some INFO)])).
Lemma bare_reachable ord dbg : reachable ord dbg usual bare_sys.
Proof.
  replace bare_sys with (with_configured (go ord dbg init [MakeGroup "a" None None (Some INFO)])) by (vm_compute; reflexivity).
  apply reach_configure. apply reach_go; [apply reach_init|]. split; [|exact I]. split; [exact I|]. intros (i & x & F & _). discriminate.
Qed.

(** ** The guard of C41-C43 is necessary: the name of a group with a parent is used again *)
Definition orphan_sys : sys := Eval vm_compute in
  fst (run idord 10 true (with_configured (fst (run idord 10 true init
    [MakeGroup "a" None (Some "*") (Some INFO); MakeGroup "b" (Some "a") None None])))
    [GetLogger "l" "b" None None; MakeGroup "b" None (Some "*") (Some INFO); SetLevelOfGroup "a" TRACE]).
Lemma orphan_reachable ord dbg : reachable ord dbg no_self_parent orphan_sys.
Proof.
  replace orphan_sys with (go ord dbg (with_configured (go ord dbg init
    [MakeGroup "a" None (Some "*") (Some INFO); MakeGroup "b" (Some "a") None None]))
    [GetLogger "l" "b" None None; MakeGroup "b" None (Some "*") (Some INFO); SetLevelOfGroup "a" TRACE]) by (vm_compute; reflexivity).
  apply reach_go; [apply reach_configure; apply reach_go; [apply reach_init|]|]; repeat split.
Qed.
