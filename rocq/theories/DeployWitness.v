(** * A program with a document, for C117 *)
From Coq Require Import Ascii String NArith ZArith List Arith Bool Lia.
From Verif Require Import Base LevelModel SinkConfig SysModel SysSpec SysWitness YamlModel YamlSpec YamlActSpec YamlDoc YamlWitness DeployModel DeploySpec DeployProofs.
From Verif Require EventModel RecordModel SinkModel PoolModel EndModel.
Import ListNotations.
Local Open Scope string_scope.
Local Open Scope list_scope.

Definition dep_doc : node := doc
  [M_ [("name", S_ "f"); ("type", S_ "file"); ("path", S_ "/tmp/f"); ("thread", S_ "name")];
   M_ [("name", S_ "k"); ("type", S_ "console"); ("level", S_ "warn")];
   M_ [("name", S_ "m"); ("type", S_ "multisink"); ("sinks", NSeq [S_ "k"; S_ "f"]); ("level", S_ "info")]]
  [root "a" "info" [("sink", S_ "m"); children [inner "b" [("level", S_ "debug"); ("sink", S_ "f")]; inner "c" []]]].
Definition dep_d1 := mkDesc "f" TRACE (KFile "/tmp/f" EventModel.TI_NAME no_sizes).
Definition dep_d2 := mkDesc "k" WARN (KConsole STDOUT false EventModel.TI_NONE no_sizes).
Definition dep_d3 := mkDesc "m" INFO (KMulti [2; 1]).
Definition dep_ds := [dep_d1; dep_d2; dep_d3].
Definition dep_w1 : world := world_with_sink (world_with_sink (world_with_sink (before_configure false) dep_d1) dep_d2) dep_d3.
Definition dep_gs : list gdecl :=
  [GDecl "a" false (Some "m") (Some INFO) [GDecl "b" false (Some "f") (Some DEBUG) []; GDecl "c" false None None []]].

Lemma dep_read : doc_read ex_lib false (before_configure false) dep_doc dep_w1 dep_gs.
Proof.
  unfold doc_read. split; [keys|]. split.
  - right. eexists. split; [reflexivity|]. cbv beta iota. unfold dep_w1.
    eapply (sr_cons ex_lib _ _ dep_d1); [|right; reflexivity|split; [reflexivity|intros [Q _]; discriminate]|].
    { split; [reflexivity|]. split; [discriminate|]. split.
      - exists None. split; [absent|reflexivity].
      - eapply kr_file; [reflexivity|reflexivity|eapply is_set; [reflexivity|constructor]| |keys]. repeat split; absent. }
    eapply (sr_cons ex_lib _ _ dep_d2); [|right; reflexivity|split; [reflexivity|intros [Q _]; discriminate]|].
    { split; [reflexivity|]. split; [discriminate|]. split.
      - exists (Some WARN). split; [lev|reflexivity].
      - eapply kr_console; [reflexivity|absent|absent|absent| |keys]. repeat split; absent. }
    eapply (sr_cons ex_lib _ _ dep_d3); [|left; reflexivity|split; [reflexivity|intros [Q _]; discriminate]|].
    { split; [reflexivity|]. split; [discriminate|]. split.
      - exists (Some INFO). split; [lev|reflexivity].
      - eapply (kr_multi _ _ _ ["k"; "f"]); [reflexivity| | |keys].
        + eexists. split; [reflexivity|]. repeat constructor.
        + repeat constructor. }
    apply sr_nil.
  - eexists. split; [reflexivity|]. unfold dep_gs, dep_doc. cbn [groups_read group_read].
    repeat match goal with
    | |- _ /\ _ => split
    | |- exists l, _ /\ _ => eexists; split; [first [left; reflexivity|right; split; [left; reflexivity|reflexivity]]|]
    | |- True => exact I
    | |- match _ with _ => _ end => progress cbv beta iota
    | |- _ <> _ => discriminate
    | |- _ -> _ => discriminate || (intros _; discriminate)
    | |- only_keys _ _ => keys
    | |- setting _ "level" _ _ _ => first [absent|lev]
    | |- setting _ "sink" _ _ _ => first [absent|eapply is_set; [reflexivity|split; [reflexivity|discriminate]]]
    | |- setting _ _ _ _ _ => first [absent|eapply is_set; reflexivity]
    | |- _ = _ => reflexivity
    end.
Qed.

Definition dep_lt (s : N) : RecordModel.tm := RecordModel.mkTm 24 2 29 12 (s / 60 mod 60) (s mod 60).
Definition dep_mem : EventModel.mem := fun _ => "x"%char.
Definition dep_w' : world := fst (yaml ex_lib idord 100 true None (FromContent (inl dep_doc)) (before_configure false)).
Definition dep_run (ms : list dmove) := dexec dep_lt dep_mem 4096 true dep_ds 2 idord true
  (dstart dep_lt dep_mem 4096 true dep_ds (fun _ => true) 2 (w_sys dep_w')) ms.

Definition says (tn : string) (lv : level) (r : string) : said :=
  mkSaid (fun id => (1709209055000000000 + N.of_nat id * 1000)%N) (bs tn ++ repeat nul (16 - String.length tn)) 7 lv [] (EventModel.FmtOk (bs r)) (bs "{}").
(** Thread [t], and the workers, go on. *)
Definition onward (t k : nat) : list dmove :=
  concat (repeat [DPool (PoolModel.XNext t); DPool (PoolModel.XLeaf 1 (SinkModel.MThread t (SinkModel.CGo false)));
                  DPool (PoolModel.XLeaf 2 (SinkModel.MThread t (SinkModel.CGo false)))] k).
Definition worker (id k : nat) : list dmove :=
  concat (repeat [DPool (PoolModel.XLeaf id (SinkModel.MThread 0 (SinkModel.CWake true))); DPool (PoolModel.XLeaf id (SinkModel.MThread 0 (SinkModel.CGo false)));
                  DPool (PoolModel.XLeaf id (SinkModel.MThread 0 (SinkModel.COpen SinkModel.ROFresh)))] k).
Definition dep_e1 := says "main" INFO "one".
Definition dep_e2 := says "side" WARN "two".
Definition dep_e3 := says "side" DEBUG "three".
Definition dep_e4 := says "main" DEBUG "four".
Definition dep_calls : list dmove :=
  [DSys (GetLogger "x" "b" None None); DSys (GetLogger "y" "c" None None);
   DLog 1 1 dep_e1; DLog 2 1 dep_e2] ++ onward 1 4 ++ onward 2 60 ++ onward 1 60 ++ onward 2 60 ++
  [DLog 1 1 dep_e4; DLog 2 0 dep_e3] ++ onward 1 60 ++ onward 2 60.
Definition dep_end : list dmove :=
  dep_calls ++ [DEnd; DPool (PoolModel.XDestroy 1 1)] ++ onward 1 3 ++ worker 1 60 ++ onward 1 3 ++
  [DPool (PoolModel.XDestroy 2 1)] ++ onward 1 3 ++ worker 2 60 ++ onward 1 3.

(** With the syslog. *)
Definition dep_doc2 : node := doc
  [M_ [("name", S_ "l"); ("type", S_ "syslog"); ("ident", S_ "me"); ("thread", S_ "name")]]
  [root "a" "info" [("sink", S_ "l")]].
Definition dep_l := mkDesc "l" TRACE (KSyslog "me" EventModel.TI_NAME no_sizes).
Definition dep_w2 : world := world_with_sink (before_configure false) dep_l.
Definition dep_gs2 : list gdecl := [GDecl "a" false (Some "l") (Some INFO) []].
Lemma dep_read2 : doc_read ex_lib false (before_configure false) dep_doc2 dep_w2 dep_gs2.
Proof.
  unfold doc_read. split; [keys|]. split.
  - right. eexists. split; [reflexivity|]. cbv beta iota. unfold dep_w2.
    eapply (sr_cons ex_lib _ _ dep_l); [|right; reflexivity|split; [reflexivity|intros [_ Q]; discriminate]|].
    { split; [reflexivity|]. split; [discriminate|]. split.
      - exists None. split; [absent|reflexivity].
      - eapply kr_syslog; [reflexivity|reflexivity|eapply is_set; [reflexivity|constructor]| |keys]. repeat split; absent. }
    apply sr_nil.
  - eexists. split; [reflexivity|]. unfold dep_gs2, dep_doc2. cbn [groups_read group_read].
    repeat match goal with
    | |- _ /\ _ => split
    | |- exists l, _ /\ _ => eexists; split; [first [left; reflexivity|right; split; [left; reflexivity|reflexivity]]|]
    | |- True => exact I
    | |- match _ with _ => _ end => progress cbv beta iota
    | |- _ <> _ => discriminate
    | |- _ -> _ => discriminate || (intros _; discriminate)
    | |- only_keys _ _ => keys
    | |- setting _ "level" _ _ _ => first [absent|lev]
    | |- setting _ "sink" _ _ _ => first [absent|eapply is_set; [reflexivity|split; [reflexivity|discriminate]]]
    | |- setting _ _ _ _ _ => first [absent|eapply is_set; reflexivity]
    | |- _ = _ => reflexivity
    end.
Qed.
Definition dep_w2' : world := fst (yaml ex_lib idord 100 true None (FromContent (inl dep_doc2)) (before_configure false)).
Definition dep_run2 (ms : list dmove) := dexec dep_lt dep_mem 4096 true [dep_l] 2 idord true
  (dstart dep_lt dep_mem 4096 true [dep_l] (fun _ => true) 2 (w_sys dep_w2')) ms.
Definition dep_end2 : list dmove :=
  [DSys (GetLogger "x" "a" None None); DLog 1 0 dep_e1; DLog 2 0 dep_e2] ++ onward 1 4 ++ onward 2 40 ++ onward 1 40 ++
  worker 1 20 ++ [DLog 1 0 dep_e4; DLog 2 0 dep_e2] ++ onward 1 40 ++ onward 2 40 ++
  [DEnd; DPool (PoolModel.XDestroy 1 1)] ++ onward 1 3 ++ worker 1 60 ++ onward 1 3.
