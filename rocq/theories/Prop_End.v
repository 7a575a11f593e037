(** * Property C119: everything comes to its end *)
From Coq Require Import Ascii String NArith Arith List Bool Lia.
From Verif Require Import Base LevelModel SinkConfig SinkModel SinkSpec TreeSpec PoolModel PoolSpec PoolProofs PoolFair PoolEnd Prop_Pool.
From Verif Require TreeModel SysModel SysSpec SysWitness YamlModel YamlSpec YamlActSpec YamlDoc YamlWitness
  DeployModel DeploySpec DeployProofs DeployEnd DeployWitness EndModel EndSpec.
Import ListNotations.
Open Scope string_scope.
Open Scope list_scope.

(** Any number of threads are in the middle of logging, flushing, rotating or destroying sinks
    (whatever is happening in them).  If the scheduler forgets no thread and no worker, every one
    of these calls returns, the destructors too. *)
Theorem C119_all_calls_return :
  forall (E : Type) K (cf : nat -> cfg E) op n,
    (forall id, id < K -> 1 <= c_cap (cf id)) -> (forall id, id < K -> sizes_ok (cf id)) ->
    (forall id, id < K -> has_dest (cf id) (op id)) ->
  forall s tr k ms s' l,
    preach K cf op n s tr -> prounds K cf n k s ms -> enough K cf n s + 101 * length (filter weak ms) <= k ->
    pexec K cf n s ms = (s', l) -> forall t, 1 <= t <= n -> resting K s' t.
Proof. intros E K cf op n H1 H2 H3 s tr k ms s' l. exact (all_end K cf op n H1 H2 H3 s tr k ms s' l). Qed.
Print Assumptions C119_all_calls_return.

(** No reachable state is a dead end. *)
Theorem C119_no_dead_end :
  forall (E : Type) K (cf : nat -> cfg E) op n,
    (forall id, id < K -> 1 <= c_cap (cf id)) -> (forall id, id < K -> sizes_ok (cf id)) ->
    (forall id, id < K -> has_dest (cf id) (op id)) ->
  forall s tr, preach K cf op n s tr ->
    exists ms s' l, Forall goes_on ms /\ pexec K cf n s ms = (s', l) /\ forall t, 1 <= t <= n -> resting K s' t.
Proof. intros E K cf op n H1 H2 H3 s tr. exact (completable_end K cf op n H1 H2 H3 s tr). Qed.
Print Assumptions C119_no_dead_end.

(** And from every one the program can be brought to its end: all calls return and all sinks
    are destroyed. *)
Theorem C119_can_close :
  forall (E : Type) K (cf : nat -> cfg E) op n,
    (forall id, id < K -> 1 <= c_cap (cf id)) -> (forall id, id < K -> sizes_ok (cf id)) ->
    (forall id, id < K -> has_dest (cf id) (op id)) -> 1 <= n ->
  forall s tr, preach K cf op n s tr ->
    exists ms s' l, Forall closing ms /\ pexec K cf n s ms = (s', l) /\
      (forall t, 1 <= t <= n -> resting K s' t) /\ forall id, id < K -> gone s' id.
Proof. intros E K cf op n H1 H2 H3 H4 s tr. exact (can_close K cf op n H1 H2 H3 s tr H4). Qed.
Print Assumptions C119_can_close.

(** Thread 1 is destroying sink 0 and waits for its worker, thread 2 is logging to sink 1. *)
Definition moves119 : list (pmove string) :=
  [XStart 2 (OLog INFO (TreeModel.Leaf 1 INFO) WARN "y"); XNext 2; XDestroy 0 1; XLeaf 0 (MThread 1 (CGo false)); XLeaf 0 (MThread 1 (CGo false))].
Definition state119 := fst (pexec 2 cf102 2 (pinit cf102 (fun _ => true) 2) moves119).
Example C119_nonvacuous :
  preach 2 cf102 (fun _ => true) 2 state119 (snd (pexec 2 cf102 2 (pinit cf102 (fun _ => true) 2) moves119)) /\
  (forall id, id < 2 -> 1 <= c_cap (cf102 id) /\ sizes_ok (cf102 id)) /\
  nth_error (thr (leaf state119 0)) 1 = Some DJoin /\ nth_error (thr (leaf state119 1)) 2 = Some (PPut "y") /\
  ~ settled 2 state119.
Proof.
  split; [exists moves119; vm_compute; reflexivity|]. split; [intros id _; split; [cbn; lia|intros e; reflexivity]|].
  split; [vm_compute; reflexivity|]. split; [vm_compute; reflexivity|].
  intros H. destruct (H 0 ltac:(lia)) as [G|(t & G)]; [vm_compute in G; discriminate|].
  destruct t as [|[|[|t]]]; [vm_compute in G; discriminate..|]. rewrite (proj2 (nth_error_None _ _)) in G; [discriminate|vm_compute; lia].
Qed.

(** The spurious failures must be counted: a worker that keeps reading an old value of
    "need to finalize" keeps the destructor waiting. *)
Definition x119 : state string := leaf (fst (pexec 1 cf102 1 (pinit cf102 (fun _ => true) 1)
  [XDestroy 0 1; XLeaf 0 (MThread 1 (CGo false)); XLeaf 0 (MThread 1 (CGo false))])) 0.
Definition turn119 : list (pmove string) :=
  XLeaf 0 (MThread 0 (CWake true)) :: repeat (XLeaf 0 (MThread 0 (CGo false))) 5 ++ [XLeaf 0 (MThread 0 (CGo true))].
Definition waiting (s : pstate string) : Prop := leaf s 0 = x119 /\ todo s 0 = [] /\ todo s 1 = [].
Lemma turn_waits s : waiting s -> waiting (fst (pexec 1 cf102 1 s turn119)).
Proof.
  intros (H1 & H2 & H3). destruct s as [lf td]. unfold waiting. cbn [leaf todo] in *. unfold turn119. cbn [repeat List.app].
  cbn [pexec pstep Nat.ltb Nat.leb begins negb andb]. unfold in_leaf. cbn [leaf]. rewrite H1.
  repeat (lazymatch goal with |- context [step (cf102 0) ?x ?m] => is_ground x; let v := eval vm_compute in (step (cf102 0) x m) in change (step (cf102 0) x m) with v end;
    cbv beta iota zeta; cbn [leaf set_leaf todo Nat.eqb fst]).
  split; [reflexivity|]. split; assumption.
Qed.
Lemma round_waits s : waiting s -> pround 1 cf102 1 s turn119.
Proof.
  intros (H1 & H2 & H3). split; [unfold turn119; cbn [repeat List.app]; repeat constructor|]. intros a [<-|[<-|[]]].
  - apply t_now. right. intros (m & G & N). apply N. clear N. cbn [place seq map]. destruct m as [t o|t|id m|id t]; try destruct G; cbn [pstep].
    + destruct t as [|[|t]]; [rewrite H2; reflexivity|rewrite H3; cbn [fst]; rewrite H3; reflexivity|].
      destruct (todo s (S (S t))) as [|c cs]; [reflexivity|]. destruct (free 1 s (S (S t))) eqn:F; [|reflexivity].
      exfalso. unfold free in F. cbn [seq forallb] in F. unfold free_in in F. rewrite H1 in F.
      rewrite (proj2 (nth_error_None (thr x119) (S (S t)))) in F; [discriminate|vm_compute; lia].
    + destruct id as [|id]; [|reflexivity]. cbn [Nat.ltb Nat.leb andb]. destruct (begins m) eqn:B; [reflexivity|]. cbn [negb].
      unfold in_leaf. rewrite H1. destruct m as [u c|k].
      * destruct u as [|[|u]].
        -- destruct c as [| | | | |[|]| |[|]|]; try discriminate B; destruct s as [lf td]; cbn [todo leaf] in *; cbn [set_leaf todo leaf]; rewrite ?H1, ?H3; vm_compute; rewrite ?H3; reflexivity.
        -- destruct c as [| | | | |[|]| |[|]|]; try discriminate B; destruct s as [lf td]; cbn [todo leaf] in *; cbn [set_leaf todo leaf]; rewrite ?H1, ?H3; vm_compute; rewrite ?H3; reflexivity.
        -- cbn [step]. rewrite (proj2 (nth_error_None (thr x119) (S (S u)))); [|vm_compute; lia]. cbn [fst todo set_leaf leaf Nat.eqb]. reflexivity.
      * cbn [step fst todo set_leaf leaf Nat.eqb]. reflexivity.
  - apply t_move. cbn [place pstep Nat.ltb Nat.leb begins negb andb]. unfold in_leaf. rewrite H1. vm_compute. discriminate.
Qed.
Example C119_old_values_count :
  exists s tr, preach 1 cf102 (fun _ => true) 1 s tr /\
    forall k, exists ms, prounds 1 cf102 1 k s ms /\ ~ resting 1 (fst (pexec 1 cf102 1 s ms)) 1.
Proof.
  pose (ms0 := [XDestroy 0 1; XLeaf 0 (MThread 1 (CGo false)); XLeaf 0 (MThread 1 (CGo false))] : list (pmove string)).
  exists (fst (pexec 1 cf102 1 (pinit cf102 (fun _ => true) 1) ms0)), (snd (pexec 1 cf102 1 (pinit cf102 (fun _ => true) 1) ms0)).
  split; [exists ms0; apply surjective_pairing|]. intros k.
  assert (W : waiting (fst (pexec 1 cf102 1 (pinit cf102 (fun _ => true) 1) ms0))) by (repeat split).
  revert W. generalize (fst (pexec 1 cf102 1 (pinit cf102 (fun _ => true) 1) ms0)). induction k as [|k IH]; intros s W.
  - exists []. split; [constructor|]. cbn [pexec fst]. intros [_ R]. specialize (R 0 ltac:(lia)). destruct W as (W & _). rewrite W in R. vm_compute in R. discriminate.
  - destruct (IH _ (turn_waits s W)) as (ms & I1 & I2). exists (turn119 ++ ms). split; [constructor; [exact (round_waits s W)|exact I1]|].
    rewrite pexec_app. destruct (pexec 1 cf102 1 s turn119) as [s1 l1]. cbn [fst] in I2. destruct (pexec 1 cf102 1 s1 ms). exact I2.
Qed.

(** ** A program configured by a document *)
(** All calls return, whatever threads do, while and after the system exists. *)
Theorem C119_program_calls_return :
  forall lt memory address fg_first ds op n ord dbg L busy doc w1 gs,
    YamlSpec.doc_read L false (DeploySpec.before_configure busy) doc w1 gs -> ds = YamlActSpec.sinks_of (YamlModel.w_log w1) ->
    (forall j d, nth_error ds j = Some d -> op (S j) = false -> exists path ti z, YamlModel.d_kind d = YamlModel.KFile path ti z) ->
  forall s0 ms s tr k more s' l,
    DeployModel.dexec lt memory address fg_first ds n ord dbg (DeployModel.dstart lt memory address fg_first ds op n s0) ms = (s, tr) ->
    prounds (DeployModel.count ds) (DeployModel.cfg_at lt memory address fg_first ds) n k (DeployModel.d_pool s) more ->
    enough (DeployModel.count ds) (DeployModel.cfg_at lt memory address fg_first ds) n (DeployModel.d_pool s) + 101 * length (filter weak more) <= k ->
    DeployModel.dexec lt memory address fg_first ds n ord dbg s (map DeployModel.DPool more) = (s', l) ->
    forall t, 1 <= t <= n -> resting (DeployModel.count ds) (DeployModel.d_pool s') t.
Proof.
  intros lt memory address fg_first ds op n ord dbg L busy doc w1 gs H1 H2 H3 s0 ms s tr k more s' l H4 H5 H6 H7.
  exact (DeployEnd.doc_all_end lt memory address fg_first ds op n ord dbg L busy doc w1 gs H1 H2 s0 ms s tr k more s' l H3 H4 H5 H6 H7).
Qed.
Print Assumptions C119_program_calls_return.

(** At every moment the program can let the system and the loggers go and come to its end: then
    all sinks of the document are destroyed, *)
Theorem C119_program_can_end :
  forall lt memory address fg_first ds op n ord dbg L busy doc w1 gs,
    YamlSpec.doc_read L false (DeploySpec.before_configure busy) doc w1 gs -> ds = YamlActSpec.sinks_of (YamlModel.w_log w1) ->
    (forall j d, nth_error ds j = Some d -> op (S j) = false -> exists path ti z, YamlModel.d_kind d = YamlModel.KFile path ti z) -> 1 <= n ->
  forall s0 ms s tr,
    DeployModel.dexec lt memory address fg_first ds n ord dbg (DeployModel.dstart lt memory address fg_first ds op n s0) ms = (s, tr) ->
  exists more s' l, Forall closing more /\
    DeployModel.dexec lt memory address fg_first ds n ord dbg s (DeployModel.DEnd :: map DeployModel.DPool more) = (s', l) /\
    (forall t, DeploySpec.said_by t l = []) /\ (forall t, 1 <= t <= n -> resting (DeployModel.count ds) (DeployModel.d_pool s') t) /\
    forall id, id < DeployModel.count ds -> exists u, In (LDestroyed u) (DeploySpec.in_sink id (tr ++ l)).
Proof.
  intros lt memory address fg_first ds op n ord dbg L busy doc w1 gs H1 H2 H3 H4 s0 ms s tr H5.
  exact (DeployEnd.doc_can_end lt memory address fg_first ds op n ord dbg L busy doc w1 gs H1 H2 s0 ms s tr H3 H4 H5).
Qed.
Print Assumptions C119_program_can_end.

(** and in each file sink (with a worker) the lines of the files are exactly what the document
    makes due there of the calls made so far. *)
Theorem C119_program_ends_complete :
  forall lt memory address fg_first ds op n ord dbg L fuel, YamlSpec.usual_lib L -> YamlSpec.refuses_huge_buffers L ->
  forall busy src doc w1 gs, YamlActSpec.document src doc -> YamlSpec.doc_read L false (DeploySpec.before_configure busy) doc w1 gs ->
    NoDup (map YamlSpec.e_name (YamlSpec.all_entries None gs)) -> ds = YamlActSpec.sinks_of (YamlModel.w_log w1) ->
  forall w' ms s tr,
    fst (YamlModel.yaml L ord fuel dbg None src (DeploySpec.before_configure busy)) = w' -> Forall DeploySpec.plain ms ->
    DeployModel.dexec lt memory address fg_first ds n ord dbg (DeployModel.dstart lt memory address fg_first ds op n (YamlModel.w_sys w')) ms = (s, tr) ->
    (forall j d, nth_error ds j = Some d -> op (S j) = false -> exists path ti z, YamlModel.d_kind d = YamlModel.KFile path ti z) -> 1 <= n ->
    DeploySpec.platform_ok L lt address ->
    (forall t g Lg e id, In (DeployModel.DSaid t g Lg e) tr ->
       EndSpec.call_ok (DeploySpec.taken_down id (DeploySpec.named Lg e)) /\ EndSpec.legible (DeploySpec.taken_down id (DeploySpec.named Lg e))) ->
  exists more s' l, Forall closing more /\
    DeployModel.dexec lt memory address fg_first ds n ord dbg s (DeployModel.DEnd :: map DeployModel.DPool more) = (s', l) /\
    (forall t, DeploySpec.said_by t l = []) /\
    forall j d path ti z, nth_error ds j = Some d -> YamlModel.d_kind d = YamlModel.KFile path ti z ->
      YamlModel.z_latency z <> Some 0%N -> op (S j) = true ->
      let F := DeployModel.file_settings lt memory address (YamlModel.d_level d) ti z in
      exists runs : list (list (nat * DeployModel.said)),
        map (EndSpec.read_file F) (disk (leaf (DeployModel.d_pool s') (S j))) =
          map (map (fun x => EndSpec.reads F (DeploySpec.taken_down (S j) (snd x)))) runs /\
        Forall (fun x => 1 <= fst x <= n) (concat runs) /\
        forall t, 1 <= t <= n ->
          map snd (filter (fun x => Nat.eqb (fst x) t) (concat runs)) = flat_map (DeploySpec.due gs ds (S j)) (DeploySpec.said_by t tr).
Proof. exact DeployEnd.doc_ends_complete. Qed.
Print Assumptions C119_program_ends_complete.

(** The program of C117, in the middle of its calls. *)
Definition dep119 := DeployWitness.dep_run (firstn 20 DeployWitness.dep_calls).
Example C119_program :
  YamlSpec.doc_read YamlWitness.ex_lib false (DeploySpec.before_configure false) DeployWitness.dep_doc DeployWitness.dep_w1 DeployWitness.dep_gs /\
  DeployWitness.dep_ds = YamlActSpec.sinks_of (YamlModel.w_log DeployWitness.dep_w1) /\
  DeployModel.d_up (fst dep119) = true /\ length (DeploySpec.said_by 1 (snd dep119)) = 1 /\ length (DeploySpec.said_by 2 (snd dep119)) = 1 /\
  ~ resting (DeployModel.count DeployWitness.dep_ds) (DeployModel.d_pool (fst dep119)) 1.
Proof.
  split; [exact DeployWitness.dep_read|]. split; [reflexivity|]. split; [vm_compute; reflexivity|]. split; [vm_compute; reflexivity|].
  split; [vm_compute; reflexivity|]. intros [R _]. vm_compute in R. discriminate.
Qed.
