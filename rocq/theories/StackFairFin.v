From Coq Require Import Ascii String NArith ZArith List Arith Bool Lia.
From Verif Require Import Base LevelModel SinkConfig SysModel SysSpec YamlModel YamlSpec YamlActSpec DeployModel DeploySpec DeployProofs DeployEnd StackModel StackProofs StackDoc StackEnd StackFin StackFairSpec StackFair.
From Verif Require EventModel RecordModel SinkModel SinkSpec FullModel FullProofs PoolModel PoolSpec PoolProofs PoolFair PoolEnd EndModel EndSpec.
Import ListNotations.

Section Run.
Variable lt : N -> RecordModel.tm.
Variable memory : EventModel.mem.
Variable address : N.
Variable fg_first : bool.
Variable ds : list sink_desc.
Variable op : nat -> bool.
Variable n : nat.
Variable ord : list nat -> list nat.
Variable dbg : bool.
Notation cfg_at := (cfg_at lt memory address fg_first ds).
Notation count := (count ds).
Notation xexec := (xexec lt memory address fg_first ds n ord dbg).
Notation xstart := (xstart lt memory address fg_first ds op n).
Section Any.
Hypothesis caps : forall id, 1 <= SinkModel.c_cap (cfg_at id).
Hypothesis OK : open_ok ds op.
Let sz id (_ : id < count) := cfg_sizes lt memory address fg_first ds id.
Let dest id (_ : id < count) := cfg_dest lt memory address fg_first ds op OK id.

Lemma reached_J s0 ms x tr : xexec (xstart s0) ms = Some (x, tr) -> exists p, J count cfg_at op n (x_pool x) p.
Proof.
  intros X. destruct (reached_pool lt memory address fg_first ds op n ord dbg caps _ _ _ _ X) as (ms' & s & _ & LK & V).
  exists (d_pool s). split; [exact LK|eauto].
Qed.

Theorem any_calls_return s0 ms x tr k more x' l : xexec (xstart s0) ms = Some (x, tr) ->
  srounds count cfg_at n k (x_pool x) more -> 40 * (senough count cfg_at n (x_pool x) + 101 * length (filter PoolSpec.weak more)) <= k ->
  xexec x (map DPool more) = Some (x', l) -> forall t, 1 <= t <= n -> sresting count (x_pool x') t.
Proof.
  intros X R Hk Y. destruct (reached_J _ _ _ _ X) as (p & HJ).
  pose proof (srounds_on count cfg_at n _ _ _ R) as G.
  destruct (jrun_exists count cfg_at op n more G _ _ HJ) as (s2 & p2 & JR).
  destruct (StackModel.spexec count cfg_at n (x_pool x) more) as [[s3 l3]|] eqn:S.
  - rewrite (stack_goes_on lt memory address fg_first ds n ord dbg more x s3 l3 (goes_closing more G) (or_intror G) S) in Y.
    injection Y as <- _. cbn [x_pool]. exact (calls_return_J count cfg_at op n caps sz dest _ _ _ _ _ _ HJ R Hk S).
  - exfalso. clear - S JR. induction JR as [|s p m s1 p1 ms s2 p2 T R IH]; cbn [StackModel.spexec] in S; [discriminate|].
    destruct (j_step _ _ _ _ _ _ _ _ _ T) as (l' & T'). rewrite T' in S. destruct (StackModel.spexec count cfg_at n s1 ms) as [[? ?]|]; [discriminate|exact (IH eq_refl)].
Qed.

Theorem any_rounds_exist s0 ms x tr k : xexec (xstart s0) ms = Some (x, tr) ->
  exists more x' l, srounds count cfg_at n k (x_pool x) more /\ filter PoolSpec.weak more = [] /\ xexec x (map DPool more) = Some (x', l).
Proof.
  intros X. destruct (reached_J _ _ _ _ X) as (p & HJ).
  destruct (rounds_J count cfg_at op n k _ _ HJ) as (more & s' & l & R & W & S).
  pose proof (srounds_on count cfg_at n _ _ _ R) as G.
  exists more, (mkX (x_sys x) s' (x_up x)), (map DIn l). split; [exact R|]. split; [exact W|].
  exact (stack_goes_on lt memory address fg_first ds n ord dbg more x s' l (goes_closing more G) (or_intror G) S).
Qed.
End Any.

(** For a document. *)
Section Doc.
Variable L : lib.
Variable busy : bool.
Variable doc : node.
Variable w1 : world.
Variable gs : list gdecl.
Hypothesis DR : doc_read L false (before_configure busy) doc w1 gs.
Hypothesis HD : ds = sinks_of (w_log w1).
Let caps id : 1 <= SinkModel.c_cap (cfg_at id) := doc_caps lt memory address fg_first ds L busy doc w1 gs DR HD id.

Theorem program_calls_return (OK : open_ok ds op) s0 ms x tr k more x' l : xexec (xstart s0) ms = Some (x, tr) ->
  srounds count cfg_at n k (x_pool x) more -> 40 * (senough count cfg_at n (x_pool x) + 101 * length (filter PoolSpec.weak more)) <= k ->
  xexec x (map DPool more) = Some (x', l) -> forall t, 1 <= t <= n -> sresting count (x_pool x') t.
Proof. exact (any_calls_return caps OK s0 ms x tr k more x' l). Qed.

Theorem program_rounds_exist s0 ms x tr k : xexec (xstart s0) ms = Some (x, tr) ->
  exists more x' l, srounds count cfg_at n k (x_pool x) more /\ filter PoolSpec.weak more = [] /\ xexec x (map DPool more) = Some (x', l).
Proof. exact (any_rounds_exist caps s0 ms x tr k). Qed.
End Doc.
End Run.
