(** * Property C120: the group a logger was asked for *)
From Coq Require Import Ascii String NArith Arith List Bool Lia.
From Verif Require Import Base LevelModel SinkConfig SysModel SysSpec SysWitness YamlModel YamlSpec YamlActSpec YamlDoc YamlWitness
  DeployModel DeploySpec DeployProofs DeployWitness DeployGroup.
From Verif Require EventModel RecordModel SinkModel SinkSpec FullModel PoolModel PoolSpec YamlOutSpec YamlConf.
Import ListNotations.

(** configure() with the document leaves the system the programs of C117 start with, without an
    error, and with a warning for each group whose sink is the one to nowhere. *)
Theorem C120_configured :
  forall L ord fuel dbg, SysProps.rearranges ord -> usual_lib L -> refuses_huge_buffers L ->
  forall busy src doc w1 gs, document src doc -> doc_read L false (before_configure busy) doc w1 gs ->
    NoDup (map e_name (all_entries None gs)) -> all_entries None gs <> [] ->
    enough init + 8 * total_size [src] <= fuel ->
  let w' := fst (yaml L ord fuel dbg None src (before_configure busy)) in
  exists out, configure ord fuel dbg init (script_of (yaml L ord fuel dbg None src) busy init) = (w_sys w', (Some out, RUnit)) /\
    has_error out = false /\ message out = map nowhere_warning (filter (sends_nowhere (w_sys w')) (gmap (w_sys w'))).
Proof.
  intros L ord fuel dbg HO UL RH busy src doc w1 gs D DR ND NE HF.
  exact (doc_configured (fun _ => RecordModel.mkTm 0 0 0 0 0 0) 0%N _ (fun _ => true) 0 ord dbg L fuel UL RH busy src doc w1 gs D DR ND eq_refl HO NE HF).
Qed.
Print Assumptions C120_configured.

(** getLogger(x, g), no logger of that name being alive, answers a new logger; once the call has
    been made ([asks]: with a warning, or without one), all that is ever logged with that logger
    carries the name x and belongs to the group meant by g in the document: the one of that name, or
    else the fallback ("*" may not be asked for in a debug build). *)
Theorem C120_asked :
  forall lt memory address fg_first ds op n ord dbg L fuel, usual_lib L -> refuses_huge_buffers L ->
  forall busy src doc w1 gs, document src doc -> doc_read L false (before_configure busy) doc w1 gs ->
    NoDup (map e_name (all_entries None gs)) -> ds = sinks_of (w_log w1) ->
  forall w' ms s tr x g,
    fst (yaml L ord fuel dbg None src (before_configure busy)) = w' -> Forall plain ms ->
    dexec lt memory address fg_first ds n ord dbg (dstart lt memory address fg_first ds op n (w_sys w')) ms = (s, tr) ->
    all_entries None gs <> [] -> (g = "*"%string -> dbg = false) -> (forall i, ~ live_named (d_sys s) x i) ->
  let i := List.length (loggers (d_sys s)) in
  snd (step ord (enough (d_sys s)) dbg (d_sys s) (GetLogger x g None None)) = RLogger i /\
  forall t0 e0 m, asks x g t0 e0 m -> live_named (d_sys (fst (dstep lt memory address fg_first ds n ord dbg s m))) x i ->
  forall ms2 s2 tr2, Forall plain ms2 ->
    dexec lt memory address fg_first ds n ord dbg s (m :: ms2) = (s2, tr2) ->
  forall t e u g' Lg e', In (DSaid u g' Lg e') (snd (dstep lt memory address fg_first ds n ord dbg s2 (DLog t i e))) ->
    u = t /\ e' = e /\ l_name Lg = x /\ group_meant gs g = Some g'.
Proof.
  intros lt memory address fg_first ds op n ord dbg L fuel UL RH busy src doc w1 gs D DR ND HD w' ms s tr x g EY HP HR NE HS HL.
  exact (asked lt memory address fg_first ds op n ord dbg L fuel UL RH busy src doc w1 gs D DR ND HD w' ms s tr x g EY HP HR NE HS HL).
Qed.
Print Assumptions C120_asked.

(** Any thread between two calls can ask. If the document has no such group (or "*" is asked for)
    the call logs one warning in the name of that thread, with a logger "Soralog" of the group
    that takes its place; else it logs nothing. *)
Theorem C120_asking :
  forall lt memory address fg_first ds op n ord dbg L fuel, usual_lib L -> refuses_huge_buffers L ->
  forall busy src doc w1 gs, document src doc -> doc_read L false (before_configure busy) doc w1 gs ->
    NoDup (map e_name (all_entries None gs)) -> ds = sinks_of (w_log w1) ->
  forall w' ms s tr x g,
    fst (yaml L ord fuel dbg None src (before_configure busy)) = w' -> Forall plain ms ->
    dexec lt memory address fg_first ds n ord dbg (dstart lt memory address fg_first ds op n (w_sys w')) ms = (s, tr) ->
    all_entries None gs <> [] -> (g = "*"%string -> dbg = false) -> (forall i, ~ live_named (d_sys s) x i) ->
  forall t e, d_up s = true -> (forall d, In d ds -> d_kind d <> KMulti []) -> 1 <= t <= n -> PoolSpec.resting (count ds) (d_pool s) t ->
  exists m, asks x g t e m /\
    live_named (d_sys (fst (dstep lt memory address fg_first ds n ord dbg s m))) x (List.length (loggers (d_sys s))) /\
    if String.eqb g "*" || negb (in_document gs g)
    then exists g' Lw e', said_by t (snd (dstep lt memory address fg_first ds n ord dbg s m)) = [(g', Lw, e')] /\
           l_name Lw = "Soralog"%string /\ x_level e' = WARN /\
           x_result e' = EventModel.FmtOk (bs (complaint x g g')) /\ group_meant gs g = Some g'
    else snd (dstep lt memory address fg_first ds n ord dbg s m) = [].
Proof.
  intros lt memory address fg_first ds op n ord dbg L fuel UL RH busy src doc w1 gs D DR ND HD w' ms s tr x g EY HP HR NE HS HL.
  exact (asking lt memory address fg_first ds op n ord dbg L fuel UL RH busy src doc w1 gs D DR ND HD w' ms s tr x g EY HP HR NE HS HL).
Qed.
Print Assumptions C120_asking.

(** Nothing else is ever said by asking. *)
Theorem C120_asking_says :
  forall lt memory address fg_first ds op n ord dbg L fuel, usual_lib L -> refuses_huge_buffers L ->
  forall busy src doc w1 gs, document src doc -> doc_read L false (before_configure busy) doc w1 gs ->
    NoDup (map e_name (all_entries None gs)) -> ds = sinks_of (w_log w1) ->
  forall w' ms s tr x g,
    fst (yaml L ord fuel dbg None src (before_configure busy)) = w' -> Forall plain ms ->
    dexec lt memory address fg_first ds n ord dbg (dstart lt memory address fg_first ds op n (w_sys w')) ms = (s, tr) ->
    all_entries None gs <> [] -> (g = "*"%string -> dbg = false) -> (forall i, ~ live_named (d_sys s) x i) ->
  forall t e m u g' Lw e', asks x g t e m -> In (DSaid u g' Lw e') (snd (dstep lt memory address fg_first ds n ord dbg s m)) ->
    u = t /\ l_name Lw = "Soralog"%string /\ x_level e' = WARN /\ x_result e' = EventModel.FmtOk (bs (complaint x g g')) /\
    group_meant gs g = Some g' /\ (g = "*"%string \/ in_document gs g = false).
Proof.
  intros lt memory address fg_first ds op n ord dbg L fuel UL RH busy src doc w1 gs D DR ND HD w' ms s tr x g EY HP HR NE HS HL.
  exact (asking_says lt memory address fg_first ds op n ord dbg L fuel UL RH busy src doc w1 gs D DR ND HD w' ms s tr x g EY HP HR NE HS HL).
Qed.
Print Assumptions C120_asking_says.

Local Open Scope string_scope.
Local Open Scope list_scope.
(** Three groups; the fallback is the first, unless one is marked. *)
Example C120_meant :
  group_meant dep_gs "b" = Some "b" /\ group_meant dep_gs "nobody" = Some "a" /\ group_meant dep_gs "*" = Some "a" /\
  fallback_of [GDecl "a" false None None [GDecl "b" true None None []; GDecl "c" true None None []]; GDecl "d" false None None []] = Some "c" /\
  group_meant [] "b" = None.
Proof. vm_compute. repeat split. Qed.

(** The program of C117 goes on to ask for a logger of an unknown group: it is warned, with the
    name of group "a", and the logger is one of "a". *)
Example C120_nonvacuous :
  let '(s, tr) := dep_run dep_calls in
  let i := List.length (loggers (d_sys s)) in
  d_up s = true /\ i = 2 /\ live (d_sys s) "z" = None /\
  PoolModel.todo (d_pool s) 1 = [] /\ PoolModel.free (count dep_ds) (d_pool s) 1 = true /\
  let said_in ls := map (fun x => match x with DSaid u g L e => (u, g, l_name L, x_level e) | DIn _ => (0, "", "", OFF) end) ls in
  let '(s1, l1) := dstep dep_lt dep_mem 4096 true dep_ds 2 idord true s (DGet 1 "z" "nobody" None None dep_e1) in
  firstn 1 (said_in l1) = [(1, "a", "Soralog", WARN)] /\ live (d_sys s1) "z" = Some i /\
  let '(s2, tr2) := dexec dep_lt dep_mem 4096 true dep_ds 2 idord true s1 (DSys (LDrop 0) :: onward 1 60) in
  firstn 1 (said_in (snd (dstep dep_lt dep_mem 4096 true dep_ds 2 idord true s2 (DLog 1 i dep_e2)))) = [(1, "a", "z", WARN)] /\
  (* asked for in the other way nothing happens *)
  live (d_sys (fst (dstep dep_lt dep_mem 4096 true dep_ds 2 idord true s (DSys (GetLogger "z" "nobody" None None))))) "z" = None /\
  complaint "z" "nobody" "a" =
    "Group 'nobody' for logger 'z' is not found. Fallback group will be used (it is group 'a' right now)." /\
  complaint "z" "*" "a" =
    "Default group (calling with name '*') is deprecated and should not used anymore; Define existing group explicitly".
Proof. vm_compute. repeat split. Qed.
(** The warning in the file: a program that asks, and ends. *)
Example C120_warning_in_file :
  let '(s, tr) := dep_run ([DGet 1 "z" "nobody" None None dep_e1] ++ onward 1 60 ++ [DLog 1 0 dep_e2] ++ onward 1 60 ++
     [DEnd; DPool (PoolModel.XDestroy 1 1)] ++ onward 1 3 ++ worker 1 60 ++ onward 1 3) in
  SinkSpec.disk (PoolModel.leaf (d_pool s) 1) =
    [bs "24.02.29 12:17:35.000001  main             Warning   Soralog  Group 'nobody' for logger 'z' is not found. Fallback group will be used (it is group 'a' right now)." ++ [newline] ++
     bs "24.02.29 12:17:35.000001  side             Warning   z  two" ++ [newline]].
Proof. vm_compute. reflexivity. Qed.

(** With a logger of that name alive the group asked for is not looked at. *)
Example C120_alive_needed :
  let '(s, tr) := dep_run dep_calls in
  snd (step idord (enough (d_sys s)) true (d_sys s) (GetLogger "x" "c" None None)) = RLogger 0 /\
  map (fun x => match x with DSaid u g L _ => (u, g, l_name L) | DIn _ => (0, "", "") end)
    (firstn 1 (snd (dstep dep_lt dep_mem 4096 true dep_ds 2 idord true
       (fst (dexec dep_lt dep_mem 4096 true dep_ds 2 idord true s [DSys (GetLogger "x" "c" None None)])) (DLog 1 0 dep_e2)))) = [(1, "b", "x")].
Proof. vm_compute. repeat split. Qed.
(** A document without groups has no group to mean: the answer is undefined. *)
Example C120_groups_needed :
  let s := w_sys (fst (yaml ex_lib idord 100 false None (FromContent (inl (doc [] []))) (before_configure false))) in
  snd (step idord 100 false s (GetLogger "x" "a" None None)) = RUB.
Proof. vm_compute. reflexivity. Qed.

Example C120_configured_nonvacuous :
  enough init + 8 * total_size [FromContent (inl dep_doc)] <= 1000 /\
  all_entries None dep_gs <> [] /\
  snd (configure idord 1000 true init (script_of (yaml ex_lib idord 1000 true None (FromContent (inl dep_doc))) false init)) =
    (Some (mkResult false false []), RUnit) /\
  snd (configure idord 1000 true init (script_of (yaml ex_lib idord 1000 true None
    (FromContent (inl (doc [] [root "a" "info" [("sink", S_ "*")]])))) false init)) =
    (Some (mkResult false true ["W: Group 'a' has undefined sink; Sink to nowhere will be used"]), RUnit).
Proof.
  split; [vm_compute; lia|]. split; [discriminate|]. split; vm_compute; reflexivity.
Qed.
