(** * Property C122: no state of the whole library is a dead end, buffers included *)
From Coq Require Import Ascii String NArith ZArith List Arith Bool Lia.
From Verif Require Import Base LevelModel SinkConfig SysModel SysSpec SysWitness YamlModel YamlSpec YamlActSpec YamlWitness DeployModel DeploySpec DeployWitness StackModel StackFin.
From Verif Require EventModel RecordModel SinkModel SinkSpec FullModel PoolModel PoolSpec EndModel EndSpec Prop_Stack.
Import ListNotations.

(** The program stands between any two atomic operations, threads anywhere inside put(), get() and
    size() of the buffers.  From there on the threads and the workers can go on, without any new
    call of the user, until every call has returned. *)
Theorem C122_no_dead_end :
  forall lt memory address fg_first ds op n ord dbg L busy doc w1 gs,
    doc_read L false (before_configure busy) doc w1 gs -> ds = sinks_of (w_log w1) ->
    (forall j d, nth_error ds j = Some d -> op (S j) = false -> exists path ti z, d_kind d = KFile path ti z) ->
  forall s0 ms x tr,
    xexec lt memory address fg_first ds n ord dbg (xstart lt memory address fg_first ds op n s0) ms = Some (x, tr) ->
  exists more x' l, Forall PoolSpec.goes_on more /\
    xexec lt memory address fg_first ds n ord dbg x (map DPool more) = Some (x', l) /\
    (forall t, said_by t l = []) /\ x_sys x' = x_sys x /\ x_up x' = x_up x /\
    forall t, 1 <= t <= n -> stodo (x_pool x') t = [] /\
      forall id, id < count ds -> PoolModel.free_in (FullModel.outside (sleaf (x_pool x') id)) t = true.
Proof. exact program_calls_end. Qed.
Print Assumptions C122_no_dead_end.

(** And the program can come to its end: all sinks of the document are destroyed, *)
Theorem C122_can_end :
  forall lt memory address fg_first ds op n ord dbg L busy doc w1 gs,
    doc_read L false (before_configure busy) doc w1 gs -> ds = sinks_of (w_log w1) ->
    (forall j d, nth_error ds j = Some d -> op (S j) = false -> exists path ti z, d_kind d = KFile path ti z) ->
  forall s0 ms x tr, 1 <= n ->
    xexec lt memory address fg_first ds n ord dbg (xstart lt memory address fg_first ds op n s0) ms = Some (x, tr) ->
  exists more x' l, Forall PoolSpec.closing more /\
    xexec lt memory address fg_first ds n ord dbg x (DEnd :: map DPool more) = Some (x', l) /\
    (forall t, said_by t l = []) /\
    (forall t, 1 <= t <= n -> stodo (x_pool x') t = [] /\
      forall id, id < count ds -> PoolModel.free_in (FullModel.outside (sleaf (x_pool x') id)) t = true) /\
    forall id, id < count ds -> exists u, In (SinkModel.LDestroyed u) (in_sink id (tr ++ l)).
Proof. exact program_ends. Qed.
Print Assumptions C122_can_end.

(** and the lines of the files are exactly what the document makes due there of the calls made so far. *)
Theorem C122_ends_complete :
  forall lt memory address fg_first ds op n ord dbg L fuel, usual_lib L -> refuses_huge_buffers L ->
  forall busy src doc w1 gs, document src doc -> doc_read L false (before_configure busy) doc w1 gs ->
    NoDup (map e_name (all_entries None gs)) -> ds = sinks_of (w_log w1) ->
    (forall j d, nth_error ds j = Some d -> op (S j) = false -> exists path ti z, d_kind d = KFile path ti z) -> 1 <= n ->
  forall w' ms x tr,
    fst (yaml L ord fuel dbg None src (before_configure busy)) = w' -> Forall plain ms ->
    xexec lt memory address fg_first ds n ord dbg (xstart lt memory address fg_first ds op n (w_sys w')) ms = Some (x, tr) ->
    platform_ok L lt address ->
    (forall t g Lg e id, In (DSaid t g Lg e) tr ->
       EndSpec.call_ok (taken_down id (named Lg e)) /\ EndSpec.legible (taken_down id (named Lg e))) ->
  exists more x' l, Forall PoolSpec.closing more /\
    xexec lt memory address fg_first ds n ord dbg x (DEnd :: map DPool more) = Some (x', l) /\
    (forall t, said_by t l = []) /\
    forall j d path ti z, nth_error ds j = Some d -> d_kind d = KFile path ti z -> z_latency z <> Some 0%N -> op (S j) = true ->
      let F := file_settings lt memory address (d_level d) ti z in
      exists runs : list (list (nat * said)),
        map (EndSpec.read_file F) (SinkSpec.disk (FullModel.rest (sleaf (x_pool x') (S j)))) =
          map (map (fun x => EndSpec.reads F (taken_down (S j) (snd x)))) runs /\
        Forall (fun x => 1 <= fst x <= n) (concat runs) /\
        forall t, 1 <= t <= n ->
          map snd (filter (fun x => Nat.eqb (fst x) t) (concat runs)) = flat_map (due gs ds (S j)) (said_by t tr).
Proof. exact program_ends_complete. Qed.
Print Assumptions C122_ends_complete.

(** The program of C121, both threads in the middle of put() of the buffer of sink 1. *)
Local Open Scope string_scope.
Local Open Scope list_scope.
Definition stk122 := Prop_Stack.stk_run ([DSys (GetLogger "x" "b" None None); DSys (GetLogger "y" "c" None None); DLog 1 1 dep_e1; DLog 2 1 dep_e2] ++
  onward 1 6 ++ onward 2 16).
Example C122_nonvacuous :
  doc_read ex_lib false (before_configure false) dep_doc dep_w1 dep_gs /\ dep_ds = sinks_of (w_log dep_w1) /\
  match stk122 with
  | Some (x, tr) =>
      map (fun p => match p with FullModel.InPut _ => true | _ => false end) (FullModel.pcs (sleaf (x_pool x) 1)) = [false; true; true] /\
      PoolModel.free_in (FullModel.outside (sleaf (x_pool x) 1)) 1 = false /\ length (said_by 1 tr) = 1 /\ x_up x = true
  | None => False
  end.
Proof. split; [exact dep_read|]. split; [reflexivity|]. vm_compute. repeat split. Qed.

(** Steps of the threads and workers from there on: both calls return. *)
Example C122_returns :
  match stk122 with
  | Some (x, tr) =>
      match xexec dep_lt dep_mem 4096 true dep_ds 2 idord true x (onward 1 200 ++ onward 2 200) with
      | Some (x', l) => map (stodo (x_pool x')) [1; 2] = [[]; []] /\
          forallb (fun id => PoolModel.free_in (FullModel.outside (sleaf (x_pool x') id)) 1) (seq 0 (count dep_ds)) = true /\
          forallb (fun id => PoolModel.free_in (FullModel.outside (sleaf (x_pool x') id)) 2) (seq 0 (count dep_ds)) = true
      | None => False
      end
  | None => False
  end.
Proof. vm_compute. repeat split. Qed.
