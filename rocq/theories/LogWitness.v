(** * Concrete runs for C83-C85 *)
From Coq Require Import String List Arith Bool Lia.
From Verif Require Import Base LevelModel SysModel SysSpec SysBase SysProps SysWitness LogModel LogSpec LogProofs.
Import ListNotations.
Open Scope string_scope.

Section Go.
Variable ord : list nat -> list nat.
Variable dbg : bool.
Variable ok : sys -> call -> Prop.

Definition lmake (a : lst) (m : lmove) : lst :=
  match m with
  | Call c => let '(s, o) := step ord (enough (lsys a)) dbg (lsys a) c in mkL s (returned o (held a)) (pc a)
  | Configured => mkL (with_configured (lsys a)) (held a) (pc a)
  | Hold n => match find (smap (lsys a)) n with Some k => mkL (lsys a) (k :: held a) (pc a) | None => a end
  | Release k => mkL (lsys a) (remove Nat.eq_dec k (held a)) (pc a)
  | Log t i lv => mkL (lsys a) (held a) (upd (pc a) t (LTest i lv))
  | Go t => mkL (lsys a) (held a) (upd (pc a) t (advance (lsys a) (pc a t)))
  end.
Definition lgood (a : lst) (m : lmove) : Prop :=
  match m with
  | Call c => match snd (step ord (enough (lsys a)) dbg (lsys a) c) with RHang | RUB => False | _ => True end /\
              ok (lsys a) c /\ fair_call a c
  | Hold n => match find (smap (lsys a)) n with Some _ => True | None => False end
  | Log t i lv => pc a t = LIdle /\ match nth_error (loggers (lsys a)) i with Some L => l_alive L = true | None => False end
  | _ => True
  end.
Lemma lmake_step a m : lgood a m -> lstep ord dbg ok a m (lmake a m).
Proof.
  intros H. destruct m as [c| |n|k|t i lv|t]; cbn in *.
  - destruct H as (H1 & H2 & H3). destruct (step ord (enough (lsys a)) dbg (lsys a) c) as [s o] eqn:E. cbn in H1.
    apply l_call; auto; intros ->; exact H1.
  - constructor.
  - destruct (find (smap (lsys a)) n) eqn:E; [|destruct H]. constructor. exact E.
  - constructor.
  - destruct H as (H1 & H2). destruct (nth_error (loggers (lsys a)) i) as [L|] eqn:E; [|destruct H2]. econstructor; eauto.
  - constructor.
Qed.

Fixpoint lgo (a : lst) (ms : list lmove) : lst := match ms with [] => a | m :: ms' => lgo (lmake a m) ms' end.
Fixpoint lgo_ok (a : lst) (ms : list lmove) : Prop := match ms with [] => True | m :: ms' => lgood a m /\ lgo_ok (lmake a m) ms' end.
Fixpoint lstates (a : lst) (ms : list lmove) : list lst := match ms with [] => [a] | m :: ms' => a :: lstates (lmake a m) ms' end.

Lemma lreach_go ms : forall a, lreach ord dbg ok a -> lgo_ok a ms -> lreach ord dbg ok (lgo a ms).
Proof.
  induction ms as [|m ms IH]; intros a H Ho; cbn; [exact H|]. destruct Ho. apply IH; [|assumption].
  eapply lr_step; [exact H|]. apply lmake_step. assumption.
Qed.
Lemma path_app a sts b sts' c : path ord dbg ok a sts b -> path ord dbg ok b sts' c -> path ord dbg ok a (sts ++ tl sts')%list c.
Proof.
  intros H H'. induction H' as [|sts' c m d H' IH Hs]; cbn; [rewrite app_nil_r; exact H|].
  destruct sts' as [|x sts']; [destruct (path_last _ _ _ _ _ _ H')|]. cbn in *. rewrite app_assoc. eapply path_snoc; [exact IH|exact Hs].
Qed.
Lemma path_go ms : forall a, lgo_ok a ms -> path ord dbg ok a (lstates a ms) (lgo a ms).
Proof.
  induction ms as [|m ms IH]; intros a Ho; cbn; [constructor|]. destruct Ho as (H1 & H2).
  pose proof (path_snoc ord dbg ok a [a] a m _ (path_one ord dbg ok a) (lmake_step a m H1)) as P.
  pose proof (path_app _ _ _ _ _ P (IH _ H2)) as Q. destruct ms as [|m' ms']; cbn in *; exact Q.
Qed.
End Go.

Ltac lusual := first [ apply fresh_name; [vm_compute; reflexivity|discriminate]
  | lazymatch goal with |- usual_sinks _ _ => repeat split; exact I | |- usual _ _ => repeat split; exact I end
  | lazymatch goal with |- usual _ _ => apply (fresh_name _ _ _ _ _); [vm_compute; reflexivity|discriminate] end ].
Ltac lok := lazymatch goal with
  | |- True => exact I
  | |- lgo_ok _ _ _ _ [] => exact I
  | |- lgo_ok _ _ _ _ (_ :: _) => split; [cbn [lgood]; first [exact I | split; [vm_compute; exact I|split; [lusual|exact I]]
        | split; [reflexivity|vm_compute; reflexivity] | vm_compute; exact I]|lok]
  end.

(** A logger "l" of group "a"; thread 0 logs; meanwhile the sink of "l" is changed. *)
Definition set_up : list lmove :=
  [Call (MakeSink "k1"); Call (MakeSink "k2"); Call (MakeGroup "a" None (Some "k1") (Some INFO)); Configured;
   Call (GetLogger "l" "a" None None)].
Definition moved : list lmove :=
  [Go 0; Go 0; Call (SetSinkOfLogger "l" "k2"); Go 0; Go 0; Go 0].

Definition at_start ord dbg : lst := lgo ord dbg lstart (set_up ++ [Log 0 0 INFO]).
Lemma at_start_reach ord dbg : lreach ord dbg usual_sinks (at_start ord dbg).
Proof. apply lreach_go; [constructor|]. unfold set_up. cbn [app]. lok. Qed.

Lemma moved_during ord dbg : during ord dbg usual_sinks 0 0 INFO (at_start ord dbg) (lstates ord dbg (at_start ord dbg) moved) (lgo ord dbg (at_start ord dbg) moved).
Proof.
  split; [|split].
  - apply path_go. unfold moved. lok.
  - reflexivity.
  - repeat constructor; cbn; discriminate.
Qed.

(** The sink is replaced under its name while thread 0 is inside its push. *)
Definition replaced : list lmove :=
  [Call (MakeSink "s"); Call (MakeGroup "a" None (Some "s") (Some INFO)); Configured; Call (GetLogger "l" "a" None None);
   Release 1; Log 0 0 INFO; Go 0; Go 0;
   Call (MakeSink "s"); Call (SetSinkOfGroup "a" "s")].
Definition at_replaced ord dbg : lst := lgo ord dbg lstart replaced.
Lemma replaced_reach ord dbg : lreach ord dbg usual_sinks (at_replaced ord dbg).
Proof. apply lreach_go; [constructor|]. unfold replaced. lok. Qed.
Lemma replaced_inside ord dbg : pushing (at_replaced ord dbg) 0 0 INFO 1.
Proof. reflexivity. Qed.
Lemma replaced_lost ord dbg : ~ sink_owned (at_replaced ord dbg) 1.
Proof.
  assert (H1 : held (at_replaced ord dbg) = [2]) by reflexivity.
  assert (H2 : smap (lsys (at_replaced ord dbg)) = [("*", 0); ("s", 2)]) by reflexivity.
  assert (H3 : loggers (lsys (at_replaced ord dbg)) = [mkLogger "l" 0 (Some 2) false INFO false true]) by reflexivity.
  assert (H4 : groups (lsys (at_replaced ord dbg)) = [mkGroup "a" None (Some 2) false INFO false]) by reflexivity.
  intros H. destruct H as [H|n H|i L E A H|g G E EG H].
  - rewrite H1 in H. cbn in H. lia.
  - rewrite H2 in H. destruct H as [H|[H|[]]]; discriminate.
  - rewrite H3 in E. destruct i as [|[|i]]; cbn in E; try discriminate. injection E as <-. discriminate.
  - rewrite H4 in EG. destruct g as [|[|g]]; cbn in EG; try discriminate. injection EG as <-. discriminate.
Qed.

(** Likewise, but every sink has its own name. *)
Definition renamed : list lmove :=
  [Call (MakeSink "s"); Call (MakeGroup "a" None (Some "s") (Some INFO)); Configured; Call (GetLogger "l" "a" None None);
   Release 1; Log 0 0 INFO; Go 0; Go 0;
   Call (MakeSink "s2"); Call (SetSinkOfGroup "a" "s2")].
Lemma fresh_usual s n p k lv : find (gmap s) n = None -> usual s (MakeGroup n p k lv).
Proof. intros H. split; [exact I|]. intros (i & x & F & _). congruence. Qed.
Definition at_renamed ord dbg : lst := lgo ord dbg lstart renamed.
Lemma renamed_reach ord dbg : lreach ord dbg usual_new (at_renamed ord dbg).
Proof.
  apply lreach_go; [constructor|]. unfold renamed.
  repeat (split; [cbn [lgood]; first [exact I | split; [vm_compute; exact I|split; [split; [first [apply fresh_usual; vm_compute; reflexivity|repeat split; exact I]|first [exact I|vm_compute; reflexivity]]|exact I]]
    | split; [reflexivity|vm_compute; reflexivity] | vm_compute; exact I]|]). exact I.
Qed.
Lemma renamed_inside ord dbg : pushing (at_renamed ord dbg) 0 0 INFO 1.
Proof. reflexivity. Qed.

(** A root without a sink. *)
Definition bare_run : list lmove :=
  [Call (MakeGroup "a" None None (Some INFO)); Configured; Call (GetLogger "l" "a" None None); Log 0 0 INFO; Go 0; Go 0].
Definition at_bare ord dbg : lst := lgo ord dbg lstart bare_run.
Lemma bare_run_reach ord dbg : lreach ord dbg usual (at_bare ord dbg).
Proof.
  apply lreach_go; [constructor|]. unfold bare_run.
  repeat (split; [cbn [lgood]; first [exact I | split; [vm_compute; exact I|split; [first [apply fresh_usual; vm_compute; reflexivity|repeat split; exact I]|exact I]]
    | split; [reflexivity|vm_compute; reflexivity] | vm_compute; exact I]|]). exact I.
Qed.
Lemma bare_null ord dbg : pc (at_bare ord dbg) 0 = LNull 0.
Proof. reflexivity. Qed.

(** An undisturbed call. *)
Definition calm : list lmove := [Go 0; Go 0; Go 0; Go 0; Go 0].
Lemma calm_during ord dbg : during ord dbg usual_sinks 0 0 INFO (at_start ord dbg) (lstates ord dbg (at_start ord dbg) calm) (lgo ord dbg (at_start ord dbg) calm) /\
  (forall s, In s (lstates ord dbg (at_start ord dbg) calm) -> has_level s 0 INFO /\ has_sink s 0 (Some 1)) /\
  pc (lmake ord dbg (lgo ord dbg (at_start ord dbg) calm) (Go 0)) 0 = LIdle.
Proof.
  split; [split; [apply path_go; unfold calm; lok|split; [reflexivity|repeat constructor; cbn; discriminate]]|]. split; [|reflexivity].
  intros s Hs. cbn [lstates calm In] in Hs. repeat destruct Hs as [<-|Hs]; [..|destruct Hs]; (split; [eexists; split; vm_compute; reflexivity|eexists; split; vm_compute; reflexivity]).
Qed.
