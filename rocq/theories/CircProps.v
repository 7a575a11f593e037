(** * Final lemmas behind Prop_Circ *)
From Coq Require Import List Arith NArith Lia.
From Verif Require Import CircSpec CircModel CircVocab CircProofs CircFacts LayoutModel LayoutProofs.
Import ListNotations.

Section P.
Variable A : Type.

Lemma exec_inv cap (sched : list (nat * choice A)) s tr :
  1 <= cap -> exec cap init sched = Ok s tr ->
  exists ss, sruns cap s_init tr ss /\ Inv cap s ss.
Proof.
  intros Hc Ex. destruct (@exec_init A cap sched Hc) as (s0 & tr0 & ss & E & R & HI).
  rewrite Ex in E. injection E as <- <-. eauto.
Qed.

Lemma linearizable (cap : nat) : 1 <= cap ->
  forall (sched : list (nat * choice A)) s tr,
    exec cap init sched = Ok s tr -> accepted cap tr.
Proof.
  intros Hc sched s tr Ex. destruct (exec_inv cap sched s tr Hc Ex) as (ss & R & _).
  exists ss. exact R.
Qed.

Lemma fifo_log (cap : nat) (tr1 tr2 : list (label A)) s1 s2 :
  sruns cap s_init tr1 s1 -> sruns cap s1 tr2 s2 ->
  exists log ext : list A, logged s1 log /\ logged s2 (log ++ ext).
Proof.
  intros R1 R2. destruct (logged_run R1 (logged_init (A:=A))) as [l1 L1].
  destruct (logged_run R2 L1) as [l2 L2]. exists ([] ++ l1), l2. auto.
Qed.

Lemma refusal (cap : nat) : 1 <= cap ->
  forall (sched : list (nat * choice A)) s tr t tr1 tr2,
    exec cap init sched = Ok s tr -> tr = tr1 ++ LRet t RNone :: tr2 ->
    exists tra trb s1,
      tr1 = tra ++ LLin t :: trb /\ sruns cap s_init tra s1 /\
      Forall (fun l => ~ mentions t l) trb /\
      ((exists a, s_phase s1 t = PhCalled (OPut a) /\ length (s_items s1) = cap) \/
       (s_phase s1 t = PhCalled OGet /\ s_items s1 = [])).
Proof.
  intros Hc sched s tr t tr1 tr2 Ex ->.
  destruct (exec_inv cap sched s _ Hc Ex) as (ss & R & _).
  exact (refusal_instant _ _ _ R).
Qed.

Lemma answers (cap : nat) : 1 <= cap ->
  forall (sched : list (nat * choice A)) s tr t n tr1 tr2,
    exec cap init sched = Ok s tr -> tr = tr1 ++ LRet t (RNum n) :: tr2 ->
    exists tra trb s1 q,
      tr1 = tra ++ LLin t :: trb /\ sruns cap s_init tra s1 /\
      Forall (fun l => ~ mentions t l) trb /\
      s_phase s1 t = PhCalled (OQuery q) /\
      length (s_items s1) <= cap /\
      match q with
      | QSize => n = length (s_items s1)
      | QAvail => n + length (s_items s1) = cap
      | QCapacity => n = cap
      end.
Proof.
  intros Hc sched s tr t n tr1 tr2 Ex ->.
  destruct (exec_inv cap sched s _ Hc Ex) as (ss & R & _).
  destruct (answer_instant _ _ _ _ R) as (ta & tb & s1 & q & E & Ra & F & Hp & Hn).
  exists ta, tb, s1, q. split; [exact E|]. split; [exact Ra|]. split; [exact F|].
  split; [exact Hp|]. assert (Hl : length (s_items s1) <= cap).
  { apply (len_le_cap Ra). simpl. lia. }
  split; [exact Hl|]. subst n. destruct q; simpl; lia.
Qed.

Lemma exclusive (cap : nat) : 1 <= cap ->
  forall (sched : list (nat * choice A)) s tr,
    exec cap init sched = Ok s tr ->
    (forall t, NoDup (t_refs (thr s t))) /\
    (forall t t' i, In i (t_refs (thr s t)) -> In i (t_refs (thr s t')) -> t = t') /\
    (forall t t' a i, In i (t_refs (thr s t)) ->
        t_pc (thr s t') <> PBuild a i /\ t_pc (thr s t') <> PBuilt a i) /\
    (forall t i, In i (t_refs (thr s t)) -> i < cap /\ exists a, n_cell (nodes s i) = Full a).
Proof.
  intros Hc sched s tr Ex. destruct (exec_inv cap sched s tr Hc Ex) as (ss & _ & HI).
  pose proof (inv_hold HI) as HH. split; [|split; [|split]].
  - exact (ih_nodup HH).
  - intros t t' i H1 H2. apply (ih_uniq HH) with (i := i); right; assumption.
  - intros t t' a i Hin.
    split; intros E; (eapply holds_not_ref with (t := t') (i := i);
      [exact HI|unfold PC; rewrite E; reflexivity|exact Hin]).
  - intros t i Hin. split.
    + apply (ih_lt HH) with (t := t). right. exact Hin.
    + destruct (iv_refs (inv_live HI) _ _ Hin) as (n & a & _ & Hf). eauto.
Qed.

Lemma stable (cap : nat) : 1 <= cap ->
  forall (sched sched' : list (nat * choice A)) s tr s' tr' t i,
    exec cap init sched = Ok s tr -> exec cap s sched' = Ok s' tr' ->
    In i (t_refs (thr s t)) -> ~ In (LRel t i) tr' ->
    In i (t_refs (thr s' t)) /\ n_cell (nodes s' i) = n_cell (nodes s i).
Proof.
  intros Hc sched sched' s tr s' tr' t i E1 E2 Hin Hn.
  destruct (exec_inv cap sched s tr Hc E1) as (ss & _ & HI).
  exact (@exec_keeps_ref A cap sched' s ss s' tr' t i HI E2 Hin Hn).
Qed.

Lemma no_ub (cap : nat) : 1 <= cap ->
  forall (sched : list (nat * choice A)) b, exec cap init sched <> Bad b.
Proof.
  intros Hc sched b E. destruct (@exec_init A cap sched Hc) as (s0 & tr0 & ss & E' & _).
  congruence.
Qed.

Lemma capacity0 (a : A) t : exists sched,
    sched = (t, CPut a) :: repeat (t, CPut a) 3 /\ exec 0 init sched = Bad OutOfBounds.
Proof.
  eexists. split; [reflexivity|]. cbn [repeat exec].
  do 4 (unfold step at 1; unfold set_pc, set_lock, upd, init;
        cbn [thr t_pc t_refs g_busy g_push g_pop g_size nodes]; rewrite ?Nat.eqb_refl;
        cbn [thr t_pc t_refs g_busy g_push g_pop g_size nodes Nat.eqb negb andb Nat.ltb Nat.leb]).
  reflexivity.
Qed.

Lemma progress (cap : nat) : 1 <= cap ->
  forall (sched : list (nat * choice A)) s tr t c,
    exec cap init sched = Ok s tr -> quiescent s -> op_of c <> None ->
    returns_alone cap s t c 8.
Proof.
  intros Hc sched s tr t c Ex HQ Hop.
  destruct (exec_inv cap sched s tr Hc Ex) as (ss & _ & HI).
  eapply all_alone; eauto.
Qed.

Lemma not_lock_free (cap : nat) (a b : A) : 1 <= cap ->
  exists sched s, exec cap init sched = Ok s [LInv 0 (OPut a)] /\
    forall n, exists s', exec cap s ((1, CPut b) :: repeat (1, CPut b) n) = Ok s' [LInv 1 (OPut b)].
Proof.
  intros Hc. exists [(0, CPut a); (0, CPut a)]. eexists. split; [reflexivity|].
  intros n. eexists. cbn [exec]. unfold step at 1. simpl t_pc. cbv iota.
  rewrite spin_forever; [reflexivity|reflexivity|].
  exists b. reflexivity.
Qed.

Lemma self_deadlock (a b : A) :
  exists sched s tr, exec 1 init sched = Ok s tr /\
    (forall t, t_pc (thr s t) = Idle) /\ (forall t, t <> 0 -> t_refs (thr s t) = []) /\
    forall n, exists s', exec 1 s ((0, CPut b) :: repeat (0, CPut b) n) = Ok s' [LInv 0 (OPut b)].
Proof.
  exists (repeat (0, CPut a) 9 ++ [(0, CRel 0)] ++ repeat (0, CGet) 7).
  eexists _, _. split; [vm_compute; reflexivity|]. split; [|split].
  - intros t. destruct t; reflexivity.
  - intros t Ht. destruct t; [congruence|reflexivity].
  - intros n.
    match goal with |- context [exec 1 ?st] => set (s := st) end.
    assert (Hs : put_stuck 1 (set_pc s 0 (PSpin b)) 0).
    { split; [vm_compute; lia|]. split; [reflexivity|]. split; [reflexivity|].
      exists b. left. split; reflexivity. }
    destruct (@stuck_forever A 1 0 (CPut b) n _ Hs) as (s' & E & _).
    exists s'. cbn [exec]. change (step 1 s 0 (CPut b)) with
      (Ok (set_pc s 0 (PSpin b)) [LInv 0 (OPut b)]). cbv iota. rewrite E. reflexivity.
Qed.
End P.

Lemma wrap :
  exists cap padding : N,
    (1 <= cap /\ padding < 2 ^ 64 /\ ctor_defined 104 8 cap padding /\
     element_size 104 8 padding < node_size 104 8 + padding)%N.
Proof.
  exists 1%N, (2 ^ 64 - 1)%N. split; [lia|]. split; [reflexivity|].
  split; [|reflexivity]. split; [vm_compute; discriminate|].
  split; [vm_compute; discriminate|]. intros i Hi.
  assert (i = 0)%N as -> by lia. vm_compute. discriminate.
Qed.

(** ** Example execution: put, read, release, then a get and a refused put
    overlapping it, capacity 1. *)
Definition ex_sched : list (nat * choice nat) :=
  repeat (0, CPut 7) 9 ++ [(0, CRead 0); (0, CRel 0); (1, CGet)] ++
  repeat (0, CPut 8) 4 ++ repeat (1, CGet) 6 ++ [(1, CRead 0); (1, CRel 0)].

Definition ex_trace : list (label nat) :=
  [LInv 0 (OPut 7); LLin 0; LRet 0 (RRef 0); LRead 0 0 7; LRel 0 0;
   LInv 1 OGet; LInv 0 (OPut 8); LLin 0; LRet 0 RNone; LLin 1; LRet 1 (RRef 0);
   LRead 1 0 7; LRel 1 0].

Lemma ex_run : exists s, exec 1 init ex_sched = Ok s ex_trace.
Proof. eexists. vm_compute. reflexivity. Qed.

Lemma ex_quiescent : exists s tr, exec 1 init ex_sched = Ok s tr /\ quiescent s.
Proof.
  eexists _, _. split; [vm_compute; reflexivity|].
  intros t. destruct t as [|[|t]]; split; reflexivity.
Qed.
