(** * The whole stack does what the stack over ideal queues does (C121) *)
From Coq Require Import Ascii String NArith List Arith Bool Lia.
From Verif Require Import Base LevelModel SysModel SysSpec YamlModel DeployModel DeploySpec StackModel.
From Verif Require CircSpec TreeModel EventModel RecordModel SinkModel SinkSpec FullModel FullProofs PoolModel PoolSpec.
Import ListNotations.

Section SPool.
Context {E : Type}.
Variable K : nat.
Variable cf : nat -> SinkModel.cfg E.
Variable op : nat -> bool.
Variable n : nat.
Hypothesis caps : forall id, 1 <= SinkModel.c_cap (cf id).
Notation pstep := (PoolModel.pstep K cf n).
Notation spstep := (spstep K cf n).

Record like (s : spool E) (p : PoolModel.pstate E) : Prop := {
  l_leaf : forall id, exists g, FullProofs.rel (cf id) (sleaf s id) (PoolModel.leaf p id) g;
  l_todo : forall t, stodo s t = PoolModel.todo p t
}.

Lemma prel_free (C : SinkModel.cfg E) g t (p : FullModel.fpc E) (pa : SinkModel.pc E) : FullProofs.prel C g t p pa ->
  match FullModel.show p with SinkModel.Idle | SinkModel.Dead => true | _ => false end =
  match pa with SinkModel.Idle | SinkModel.Dead => true | _ => false end.
Proof.
  destruct p; cbn [FullProofs.prel FullModel.show].
  - intros (_ & _ & -> & _). reflexivity.
  - intros (_ & [[_ ->]|[(m & _ & ->)|[_ ->]]]); reflexivity.
  - intros (_ & m & e & _ & ->). reflexivity.
  - intros (_ & m & e & _ & ->). reflexivity.
  - intros (_ & [[_ ->]|[(m & e & _ & ->)|[_ ->]]]); unfold FullProofs.after_none; destruct (SinkModel.c_kind C); reflexivity.
  - intros (_ & m & e & _ & ->). reflexivity.
  - intros (_ & m & _ & ->). unfold FullProofs.after_sub. destruct (SinkModel.c_kind C); reflexivity.
  - intros (_ & [[_ ->]|(m & _ & ->)]); unfold FullProofs.after_size; [|destruct (Nat.eqb m 0)]; reflexivity.
Qed.
Lemma rel_free (C : SinkModel.cfg E) (s : FullModel.fstate E) (a : SinkModel.state E) g t : FullProofs.rel C s a g -> PoolModel.free_in (FullModel.outside s) t = PoolModel.free_in a t.
Proof.
  intros R. unfold PoolModel.free_in, FullModel.outside. cbn [SinkModel.thr]. rewrite nth_error_map.
  destruct (nth_error (FullModel.pcs s) t) as [p|] eqn:P; cbn [option_map].
  - destruct (nth_error (SinkModel.thr a) t) as [pa|] eqn:A.
    + exact (prel_free _ _ _ _ _ (FullProofs.r_thr R _ P A)).
    + apply nth_error_None in A. rewrite <- (FullProofs.r_len R) in A. apply nth_error_None in A. congruence.
  - apply nth_error_None in P. rewrite (FullProofs.r_len R) in P. apply nth_error_None in P. rewrite P. reflexivity.
Qed.

Lemma like_free s p t : like s p -> sfree K s t = PoolModel.free K p t.
Proof.
  intros [L _]. unfold sfree, PoolModel.free. induction (seq 0 K) as [|id l IH]; [reflexivity|]. cbn [forallb]. rewrite IH. f_equal.
  destruct (L id) as [g R]. exact (rel_free _ _ _ _ t R).
Qed.
Lemma like_usable s p : like s p -> forall d, susable K cf s d = PoolModel.usable K cf p d.
Proof.
  intros L. fix IH 1. intros [id lv|id|lv ms]; cbn [susable PoolModel.usable].
  - destruct (l_leaf _ _ L id) as [g R]. rewrite (FullProofs.rel_alive R). reflexivity.
  - reflexivity.
  - induction ms as [|m ms IHm]; [reflexivity|]. cbn [forallb]. rewrite IH, IHm. reflexivity.
Qed.
Lemma like_unused s p id : like s p -> sunused n s id = PoolModel.unused n p id.
Proof. intros L. unfold sunused, PoolModel.unused. induction (seq 1 n) as [|t l IH]; [reflexivity|]. cbn [forallb]. rewrite IH, (l_todo _ _ L t). reflexivity. Qed.

Lemma like_set_todo s p t cs : like s p -> like (set_stodo s t cs) (PoolModel.set_todo p t cs).
Proof. intros [L T]. constructor; [exact L|]. intros u. cbn [set_stodo stodo PoolModel.set_todo PoolModel.todo]. rewrite T. reflexivity. Qed.
Lemma like_set_leaf s p id x a g : like s p -> FullProofs.rel (cf id) x a g -> like (set_sleaf s id x) (PoolModel.set_leaf p id a).
Proof.
  intros [L T] R. constructor; [|exact T]. intros i. cbn [set_sleaf sleaf PoolModel.set_leaf PoolModel.leaf].
  destruct (Nat.eqb_spec i id) as [->|]; [exists g; exact R|apply L].
Qed.
Lemma like_set_sleaf s p id x g : like s p -> FullProofs.rel (cf id) x (PoolModel.leaf p id) g -> like (set_sleaf s id x) p.
Proof.
  intros [L T] R. constructor; [|exact T]. intros i. cbn [set_sleaf sleaf].
  destruct (Nat.eqb_spec i id) as [->|]; [exists g; exact R|apply L].
Qed.

Lemma like_in_leaf s p id m : like s p ->
  exists s' ls, sin_leaf cf s id m = Some (s', ls) /\
    ((exists p', PoolModel.in_leaf cf p id m = (p', ls) /\ like s' p') \/
     (ls = [] /\ like s' p /\ forall t c, m = SinkModel.MThread t c -> exists q, nth_error (FullModel.pcs (sleaf s id)) t = Some q /\ FullProofs.between (sleaf s id) q = true)).
Proof.
  intros L. destruct (l_leaf _ _ L id) as [g R].
  destruct (FullProofs.sim_step m R) as (x & ls & a & g' & ms & F & X & R' & [-> |[-> NI]]).
  - unfold sin_leaf. rewrite F. eexists _, _. split; [reflexivity|]. left. unfold PoolModel.in_leaf. cbn [SinkModel.exec] in X.
    destruct (SinkModel.step (cf id) (PoolModel.leaf p id) m) as [a1 l1]. injection X as -> <-. rewrite app_nil_r.
    eexists. split; [reflexivity|]. eapply like_set_leaf; eassumption.
  - unfold sin_leaf. rewrite F. eexists _, _. split; [reflexivity|]. right. cbn [SinkModel.exec] in X. injection X as <- <-.
    split; [reflexivity|]. split; [|exact NI]. eapply like_set_sleaf; eassumption.
Qed.
(** A thread outside the sink: both move. *)
Lemma like_begin s p id t c : like s p -> PoolModel.free_in (FullModel.outside (sleaf s id)) t = true ->
  exists s' ls p', sin_leaf cf s id (SinkModel.MThread t c) = Some (s', ls) /\
    PoolModel.in_leaf cf p id (SinkModel.MThread t c) = (p', ls) /\ like s' p'.
Proof.
  intros L F. destruct (like_in_leaf s p id (SinkModel.MThread t c) L) as (s' & ls & S & [(p' & P & L')|(-> & L' & NI)]).
  - eauto 6.
  - exfalso. destruct (NI t c eq_refl) as (q & Q & B). unfold PoolModel.free_in, FullModel.outside in F. cbn [SinkModel.thr] in F.
    rewrite nth_error_map, Q in F. cbn [option_map] in F. destruct q as [q|e|i|i|k|k i|k e i|]; try discriminate F; try discriminate B.
    destruct q; try discriminate F; discriminate B.
Qed.

Definition inner (m : PoolModel.pmove E) : bool := match m with PoolModel.XLeaf _ _ => true | _ => false end.
Lemma like_step s p m : like s p ->
  exists s' ls, spstep s m = Some (s', ls) /\
    ((exists p', pstep p m = (p', ls) /\ like s' p') \/ (ls = [] /\ like s' p /\ inner m = true)).
Proof.
  intros L. destruct m as [t o|t|id m|id t]; cbn [StackModel.spstep PoolModel.pstep].
  - rewrite (like_free _ _ _ L), (like_usable _ _ L), (l_todo _ _ L).
    destruct (_ && _ && _ && _); [|eauto 8]. destruct (PoolModel.plan o) as [cs|]; [|eauto 8].
    eexists _, _. split; [reflexivity|]. left. eexists. split; [reflexivity|]. now apply like_set_todo.
  - rewrite (l_todo _ _ L). destruct (PoolModel.todo p t) as [|c cs]; [eauto 8|]. rewrite (like_free _ _ _ L).
    destruct (PoolModel.free K p t) eqn:F; [|eauto 8]. destruct (Nat.ltb_spec (PoolModel.target c) K) as [Hk|Hk].
    + destruct (like_begin (set_stodo s t cs) (PoolModel.set_todo p t cs) (PoolModel.target c) t (PoolModel.begin_call c)) as (s' & ls & p' & S & P & L').
      * now apply like_set_todo.
      * rewrite <- (like_free _ _ _ L) in F. unfold sfree in F. rewrite forallb_forall in F. apply F. apply in_seq. lia.
      * exists s', ls. split; [exact S|]. left. eauto.
    + eexists _, _. split; [reflexivity|]. left. eexists. split; [reflexivity|]. now apply like_set_todo.
  - destruct (Nat.ltb id K && negb (PoolModel.begins m)); [|eauto 8].
    destruct (like_in_leaf s p id m L) as (s' & ls & S & [(p' & P & L')|(-> & L' & _)]); exists s'; eexists; (split; [exact S|]); [left; eauto|right; auto].
  - rewrite (like_free _ _ _ L), (like_unused _ _ _ L), (l_todo _ _ L).
    destruct (_ && _ && _ && _ && _) eqn:B; [|eauto 8]. apply andb_prop in B as [B _]. apply andb_prop in B as [B Hk]. apply andb_prop in B as [_ F].
    apply Nat.ltb_lt in Hk. destruct (like_begin s p id t SinkModel.CDestroy L) as (s' & ls & p' & S & P & L').
    + rewrite <- (like_free _ _ _ L) in F. unfold sfree in F. rewrite forallb_forall in F. apply F. apply in_seq. lia.
    + exists s', ls. split; [exact S|]. left. eauto.
Qed.
Lemma like_init : like (spinit cf op n) (PoolModel.pinit cf op n).
Proof. constructor; [|reflexivity]. intros id. exists CircSpec.s_init. apply FullProofs.rel_init. apply caps. Qed.
End SPool.

Section Stack.
Variable lt : N -> RecordModel.tm.
Variable memory : EventModel.mem.
Variable address : N.
Variable fg_first : bool.
Variable ds : list sink_desc.
Variable op : nat -> bool.
Variable n : nat.
Variable ord : list nat -> list nat.
Variable dbg : bool.
Notation cfg_at := (cfg_at lt memory address fg_first ds).
Notation count := (count ds).
Notation dstep := (dstep lt memory address fg_first ds n ord dbg).
Notation dexec := (dexec lt memory address fg_first ds n ord dbg).
Notation xstep := (xstep lt memory address fg_first ds n ord dbg).
Notation xexec := (xexec lt memory address fg_first ds n ord dbg).

Record similar (x : xstate) (s : dstate) : Prop := {
  m_sys : x_sys x = d_sys s;
  m_up : x_up x = d_up s;
  m_pool : like cfg_at (x_pool x) (d_pool s)
}.

Lemma similar_pool x s m : similar x s ->
  exists x' ls, xin_pool lt memory address fg_first ds n x m = Some (x', ls) /\
    ((exists s', in_pool lt memory address fg_first ds n s m = (s', ls) /\ similar x' s') \/ (ls = [] /\ similar x' s /\ inner m = true)).
Proof.
  intros [A B L]. unfold xin_pool, in_pool. destruct (like_step count cfg_at n _ _ m L) as (p & ls & -> & [(p' & -> & L')|(-> & L' & Q)]).
  - eexists _, _. split; [reflexivity|]. left. eexists. split; [reflexivity|]. constructor; auto.
  - eexists _, _. split; [reflexivity|]. right. split; [reflexivity|]. split; [constructor; auto|exact Q].
Qed.

Lemma similar_step x s m : similar x s ->
  exists x' ls, xstep x m = Some (x', ls) /\
    ((exists s', dstep s m = (s', ls) /\ similar x' s') \/ (ls = [] /\ similar x' s /\ exists m', m = DPool m')).
Proof.
  intros S. pose proof S as [A B L].
  assert (STAY : exists x' ls, Some (x, @nil dlabel) = Some (x', ls) /\ ((exists s', (s, @nil dlabel) = (s', ls) /\ similar x' s') \/ (ls = [] /\ similar x' s /\ exists m', m = DPool m'))).
  { exists x, []. split; [reflexivity|]. left. eauto. }
  destruct m as [c|t y g kn lv e|t i e|t k|t k| |m]; cbn [StackModel.xstep DeployModel.dstep]; rewrite ?A, ?B.
  - destruct (d_up s && silent ds dbg (d_sys s) c); [|exact STAY]. eexists _, _. split; [reflexivity|]. left. eexists. split; [reflexivity|]. constructor; auto.
  - destruct (warning dbg (d_sys s) y g) as [[[Lg G] text]|]; [|exact STAY]. destruct (l_sink Lg) as [k|]; [|exact STAY]. destruct (d_up s); [|exact STAY].
    destruct (similar_pool x s (PoolModel.XStart t (PoolModel.OLog (l_level Lg) (tree_at ds k) WARN (by_logger Lg (warned e text)))) S) as (x' & ls & -> & [(s' & -> & S')|(_ & _ & Q)]); [|discriminate Q].
    destruct ls as [|l0 ls]; [exact STAY|]. eexists _, _. split; [reflexivity|]. left. eexists. split; [reflexivity|]. destruct S' as [_ _ P']. constructor; auto.
  - destruct (nth_error (loggers (d_sys s)) i) as [Lg|]; [|exact STAY]. destruct (nth_error (groups (d_sys s)) (l_group Lg)) as [G|]; [|exact STAY].
    destruct (l_sink Lg) as [k|]; [|exact STAY]. destruct (d_up s && l_alive Lg); [|exact STAY].
    destruct (similar_pool x s (PoolModel.XStart t (PoolModel.OLog (l_level Lg) (tree_at ds k) (x_level e) (by_logger Lg e))) S) as (x' & ls & -> & [(s' & -> & S')|(_ & _ & Q)]); [|discriminate Q].
    eexists _, _. split; [reflexivity|]. left. eauto.
  - destruct (d_up s && Nat.ltb k (List.length (sinks (d_sys s)))); [|exact STAY].
    destruct (similar_pool x s (PoolModel.XStart t (PoolModel.OFlush (tree_at ds k))) S) as (x' & ls & -> & [(s' & -> & S')|(_ & _ & Q)]); [|discriminate Q].
    eexists _, _. split; [reflexivity|]. left. eauto.
  - destruct (d_up s && Nat.ltb k (List.length (sinks (d_sys s)))); [|exact STAY].
    destruct (similar_pool x s (PoolModel.XStart t (PoolModel.ORotate (tree_at ds k))) S) as (x' & ls & -> & [(s' & -> & S')|(_ & _ & Q)]); [|discriminate Q].
    eexists _, _. split; [reflexivity|]. left. eauto.
  - eexists _, _. split; [reflexivity|]. left. eexists. split; [reflexivity|]. constructor; auto.
  - destruct (match m with PoolModel.XStart _ _ => false | PoolModel.XDestroy _ _ => negb (d_up s) | _ => true end); [|exact STAY].
    destruct (similar_pool x s m S) as (x' & ls & -> & [(s' & -> & S')|(-> & S' & Q)]); eexists _, _; (split; [reflexivity|]); [left; eauto|right; eauto].
Qed.

Lemma similar_exec ms : forall x s, similar x s ->
  exists x' tr ms' s', xexec x ms = Some (x', tr) /\ dexec s ms' = (s', tr) /\ similar x' s' /\ forall P : dmove -> Prop, Forall P ms -> Forall P ms'.
Proof.
  induction ms as [|m ms IH]; intros x s S; cbn [StackModel.xexec].
  - exists x, [], [], s. auto.
  - destruct (similar_step x s m S) as (x1 & l1 & -> & [(s1 & D1 & S1)|(-> & S1 & _)]); destruct (IH _ _ S1) as (x2 & l2 & ms' & s2 & -> & D2 & S2 & F).
    + exists x2, (l1 ++ l2), (m :: ms'), s2. split; [reflexivity|]. cbn [DeployModel.dexec]. rewrite D1, D2. split; [reflexivity|]. split; [exact S2|].
      intros P H. inversion H; subst. constructor; auto.
    + exists x2, l2, ms', s2. split; [reflexivity|]. split; [exact D2|]. split; [exact S2|]. intros P H. inversion H; subst. auto.
Qed.

Hypothesis caps : forall id, 1 <= SinkModel.c_cap (cfg_at id).
Theorem stack s0 ms :
  exists x tr ms' s, xexec (xstart lt memory address fg_first ds op n s0) ms = Some (x, tr) /\
    dexec (dstart lt memory address fg_first ds op n s0) ms' = (s, tr) /\ (forall P : dmove -> Prop, Forall P ms -> Forall P ms') /\
    x_sys x = d_sys s /\ x_up x = d_up s /\
    (forall t, stodo (x_pool x) t = PoolModel.todo (d_pool s) t) /\
    (forall id, FullModel.rest (sleaf (x_pool x) id) = FullModel.strip (PoolModel.leaf (d_pool s) id)) /\
    (forall id t, PoolModel.free_in (FullModel.outside (sleaf (x_pool x) id)) t = PoolModel.free_in (PoolModel.leaf (d_pool s) id) t) /\
    (forall m, (forall m', m <> DPool m') -> exists x', xstep x m = Some (x', snd (dstep s m))).
Proof.
  destruct (similar_exec ms (xstart lt memory address fg_first ds op n s0) (dstart lt memory address fg_first ds op n s0)) as (x & tr & ms' & s & X & D & [A B L] & F).
  { constructor; [reflexivity|reflexivity|]. apply like_init. exact caps. }
  exists x, tr, ms', s. split; [exact X|]. split; [exact D|]. split; [exact F|]. split; [exact A|]. split; [exact B|]. split; [exact (l_todo _ _ _ L)|].
  split; [|split]; [intros id|intros id t|intros m Hm]; try (destruct (l_leaf _ _ _ L id) as [g R]; first [exact (FullProofs.r_rest R)|exact (rel_free _ _ _ _ t R)]).
  destruct (similar_step x s m (Build_similar _ _ A B L)) as (x' & ls & Q & [(s' & W & _)|(_ & _ & m' & ->)]); [|destruct (Hm m' eq_refl)].
  exists x'. rewrite W. exact Q.
Qed.
End Stack.
