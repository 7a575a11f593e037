(** * Who gets out of the buffer (C123) *)
From Coq Require Import Ascii String List Arith NArith Bool Lia.
From Verif Require CircSpec CircModel CircProofs.
From Verif Require Import Base LevelModel SinkModel SinkSpec SinkWitness FullModel FullSpec FullProofs FullEnd.
Import ListNotations.

Section Alone.
Context {E : Type}.
Variable C : cfg E.

Lemma mu_le (p : fpc E) rp : mu p rp <= 23.
Proof. destruct p, rp; cbn; lia. Qed.

Lemma alone_leaves N : forall s a g t, rel C s a g -> others_out t s -> weight s t <= N ->
  exists k s' l p, k <= N /\ fexec C s (repeat (MThread t (CGo false)) k) = Some (s', l) /\
    (nth_error (pcs s) t <> None -> nth_error (pcs s') t = Some p /\ inside p = false).
Proof.
  induction N as [|N IH]; intros s a g t R O HN; (destruct (nth_error (pcs s) t) as [p|] eqn:Hp;
    [|exists 0, s, [], (At Idle); split; [lia|]; split; [reflexivity|]; intros []; congruence]);
    (destruct (inside p) eqn:Hi; [|exists 0, s, [], p; split; [lia|]; split; [reflexivity|]; intros _; auto]).
  - exfalso. destruct (sim_step (MThread t (CGo false)) R) as (s1 & l1 & a1 & g1 & m1 & F1 & _).
    destruct (step_down t _ R Hp Hi F1) as (p' & _ & _ & W). specialize (W (alone_need R O Hp)). lia.
  - destruct (sim_step (MThread t (CGo false)) R) as (s1 & l1 & a1 & g1 & m1 & F1 & _ & R1 & _).
    destruct (step_down t _ R Hp Hi F1) as (p' & Hp' & _ & W). specialize (W (alone_need R O Hp)).
    destruct (IH s1 a1 g1 t R1 (@out_step _ _ _ _ _ _ _ O F1) ltac:(lia)) as (k & s' & l & q & K1 & K2 & K3).
    exists (S k), s', (l1 ++ l), q. split; [lia|]. split; [cbn [repeat fexec]; rewrite F1, K2; reflexivity|]. intros _. apply K3. congruence.
Qed.

Theorem alone_out op n s ls t p : 1 <= c_cap C -> freach C op n s ls -> nth_error (pcs s) t = Some p ->
  (forall u q, u <> t -> nth_error (pcs s) u = Some q -> in_buffer q = false) ->
  exists k s' l q, k <= 23 /\ fexec C s (repeat (MThread t (CGo false)) k) = Some (s', l) /\
    nth_error (pcs s') t = Some q /\ in_buffer q = false.
Proof.
  intros C1 (ms & X) Hp O.
  destruct (sim_exec ms (rel_init C op n C1)) as (s1 & l1 & a & g & ms' & X1 & _ & R). rewrite X in X1. injection X1 as <- <-.
  assert (W : weight s t <= 23) by (rewrite (weight_at _ _ Hp); apply mu_le).
  destruct (alone_leaves 23 s a g t R O W) as (k & s' & l & q & K1 & K2 & K3). exists k, s', l, q. split; [exact K1|]. split; [exact K2|]. apply K3. congruence.
Qed.
End Alone.

(** ** Passed over for ever *)
Definition turn123 (k : sink_kind) : list (move string) :=
  [MThread 0 (CWake true)] ++ go 0 3 ++ go 1 1 ++ go 0 (match k with KSyslog => 5 | _ => 6 end).
Definition rest123 : state string := mkSt [] 0%N false false false false true [] [] [] [] [] [] [] [].
Definition passed (s : fstate string) : Prop :=
  pcs s = [At WWait; InPut "x"] /\ rest s = rest123 /\ CircModel.g_busy (ring s) = false /\ CircModel.g_size (ring s) = 0 /\
  CircModel.g_push (ring s) = 0 /\ CircModel.g_pop (ring s) = 0 /\
  CircModel.t_pc (CircModel.thr (ring s) 0) = CircModel.Idle /\ CircModel.t_pc (CircModel.thr (ring s) 1) = CircModel.PSpin "x".

Lemma one_more {E} (C : cfg E) s m s1 l1 ms s' l : fstep C s m = Some (s1, l1) -> fexec C s1 ms = Some (s', l) -> fexec C s (m :: ms) = Some (s', l1 ++ l).
Proof. intros H1 H2. cbn [fexec]. rewrite H1, H2. reflexivity. Qed.

Lemma turn_passed k s : passed s -> exists s' l, fexec (wcfg k false) s (turn123 k) = Some (s', l) /\ passed s' /\ accepted l = [].
Proof.
  intros (H1 & H2 & H3 & H4 & H5 & H6 & H7 & H8). destruct s as [[b sz pu po nd th] r ps]. cbn [pcs rest ring CircModel.g_busy CircModel.g_size CircModel.g_push CircModel.g_pop CircModel.thr] in *. subst.
  destruct (th 0) as [c0 r0] eqn:T0. destruct (th 1) as [c1 r1] eqn:T1. cbn [CircModel.t_pc] in *. subst.
  unfold turn123. destruct k; cbn [repeat go List.app]; eexists _, _; (split; [|split]).
  all: try (repeat (eapply one_more;
      [lazy beta iota zeta delta [fstep fstep_thread nth_error pcs call taken CircModel.step CircModel.t_pc CircModel.thr ring CircModel.upd CircModel.set_pc CircModel.set_thr CircModel.set_lock CircModel.g_busy CircModel.g_size CircModel.g_push CircModel.g_pop CircModel.t_refs CircModel.nodes Nat.eqb andb negb fupd];
       rewrite ?T0, ?T1; lazy; rewrite ?T0, ?T1; lazy; reflexivity|]); cbn [fexec]; reflexivity).
  all: unfold passed, rest123; lazy; rewrite ?T1; repeat split.
Qed.

Lemma turn_fair k : all_have_a_turn 1 (turn123 k).
Proof.
  split.
  - intros t Ht. destruct t as [|[|t]]; [exists (CWake true); left; reflexivity| |lia].
    exists (CGo false). destruct k; cbn; tauto.
  - intros m Hm. destruct k; cbn in Hm; repeat (destruct Hm as [<-|Hm]; [eauto|]); destruct Hm.
Qed.

Definition start123 (k : sink_kind) : list (move string) := push 1 INFO "x" ++ go 1 1.
Theorem passed_over k : exists s ls, freach (wcfg k false) true 1 s ls /\ nth_error (pcs s) 1 = Some (InPut "x") /\
  forall r, exists rounds s' l, length rounds = r /\ Forall (all_have_a_turn 1) rounds /\
    fexec (wcfg k false) s (concat rounds) = Some (s', l) /\ nth_error (pcs s') 1 = Some (InPut "x") /\ accepted l = [].
Proof.
  destruct (fexec (wcfg k false) (finit (wcfg k false) true 1) (start123 k)) as [[s ls]|] eqn:X; [|destruct k; vm_compute in X; discriminate].
  assert (P : passed s).
  { destruct k; vm_compute in X; injection X as <- <-; unfold passed, rest123; vm_compute; repeat split. }
  exists s, ls. split; [exists (start123 k); exact X|]. split; [destruct P as (-> & _); reflexivity|].
  clear X. intros r. revert s P. induction r as [|r IH]; intros s P.
  - exists [], s, []. split; [reflexivity|]. split; [constructor|]. split; [reflexivity|]. split; [destruct P as (-> & _); reflexivity|reflexivity].
  - destruct (turn_passed k s P) as (s1 & l1 & X1 & P1 & A1). destruct (IH s1 P1) as (rs & s' & l & L & F & X & I1 & A).
    exists (turn123 k :: rs), s', (l1 ++ l). split; [cbn; now rewrite L|]. split; [constructor; [apply turn_fair|exact F]|].
    split; [|split; [exact I1|unfold accepted, accepts in *; rewrite flat_map_app, map_app, A1, A; reflexivity]].
    cbn [concat]. clear - X1 X. revert s l1 X1. generalize (turn123 k) as ms. induction ms as [|m ms IHm]; intros s l1 X1; cbn [List.app fexec] in *.
    + injection X1 as <- <-. exact X.
    + destruct (fstep (wcfg k false) s m) as [[s2 l2]|]; [|discriminate]. destruct (fexec (wcfg k false) s2 ms) as [[s3 l3]|] eqn:Y; [|discriminate].
      injection X1 as -> <-. rewrite (IHm s2 l3 Y), app_assoc. reflexivity.
Qed.
