(** * Concrete documents *)
From Coq Require Import String List Arith ZArith NArith Bool Lia Decimal DecimalString.
From Verif Require Import Base LevelModel EventModel TreeModel SysModel SysSpec SysBase SysWitness YamlModel YamlSpec YamlOutSpec YamlActSpec
  YamlFacts YamlDoc YamlTree YamlConf YamlLevel.
Import ListNotations.
Local Open Scope string_scope.
Local Open Scope list_scope.

(** A possible platform. *)
Definition ex_int (t : string) : option Z :=
  match NilZero.int_of_string t with
  | Some i => let z := Z.of_int i in if ((- 2 ^ 31 <=? z) && (z <? 2 ^ 31))%Z then Some z else None
  | None => None
  end.
Definition ex_bool (t : string) : option bool :=
  if t =? "true" then Some true else if t =? "false" then Some false else None.
Definition ex_build (d : sink_desc) : option string :=
  match match d_kind d with KConsole _ _ _ z | KFile _ _ z | KSyslog _ _ z => z_buffer z | KMulti _ => None end with
  | Some b => if (2 ^ 63 <=? b)%N then Some "cannot create std::vector larger than max_size()" else None
  | None => None
  end.
Definition ex_lib : lib := mkLib None ex_int ex_bool (fun _ => "bad conversion") 128 ex_build false false.
Lemma ex_usual_lib : usual_lib ex_lib.
Proof.
  constructor; cbn; auto; [|lia]. intros t z. unfold ex_int. destruct (NilZero.int_of_string t) as [i|]; [|discriminate].
  cbv zeta. destruct (_ && _)%bool eqn:E; [|discriminate]. intros H. inversion H; subst. apply andb_true_iff in E as [E1 E2].
  apply Z.leb_le in E1. apply Z.ltb_lt in E2. lia.
Qed.
Lemma ex_refuses : refuses_huge_buffers ex_lib.
Proof. intros d b E H. cbn. unfold ex_build. rewrite E. destruct (N.leb_spec (2 ^ 63) b); [discriminate|lia]. Qed.

Definition S_ (t : string) : node := NScalar t.
Definition M_ (l : list (string * node)) : node := NMap (map (fun p => (NScalar (fst p), snd p)) l).

(** A new system, being configured. *)
Definition w0 : world := mkWorld (with_configured init) false [].
Definition run_doc (n : node) (w : world) := yaml ex_lib idord 100 true None (FromContent (inl n)) w.

Definition ex_sinks : list node :=
  [M_ [("name", S_ "k1"); ("type", S_ "console"); ("color", S_ "true"); ("level", S_ "warn")];
   M_ [("name", S_ "k2"); ("type", S_ "file"); ("path", S_ "/tmp/log"); ("capacity", S_ "4"); ("buffer", S_ "512"); ("max_message_length", S_ "64"); ("latency", S_ "0")];
   M_ [("name", S_ "m"); ("type", S_ "multisink"); ("sinks", NSeq [S_ "k1"; S_ "k2"])]].
Definition ex_groups : list node :=
  [M_ [("name", S_ "a"); ("level", S_ "info"); ("sink", S_ "m");
       ("children", NSeq [M_ [("name", S_ "b")];
                          M_ [("name", S_ "c"); ("level", S_ "debug"); ("sink", S_ "k2"); ("children", NSeq [M_ [("name", S_ "e")]])]])];
   M_ [("name", S_ "d"); ("level", S_ "off"); ("is_fallback", S_ "true")]].
Definition ex_doc : node := M_ [("sinks", NSeq ex_sinks); ("groups", NSeq ex_groups)].

Definition no_sizes := mkSizes None None None None.
Definition ex_d1 := mkDesc "k1" WARN (KConsole STDOUT true TI_NONE no_sizes).
Definition ex_d2 := mkDesc "k2" TRACE (KFile "/tmp/log" TI_NONE (mkSizes (Some 4%N) (Some 64%N) (Some 512%N) (Some 0%N))).
Definition ex_d3 := mkDesc "m" TRACE (KMulti [1; 2]).
Definition ex_w1 : world := world_with_sink (world_with_sink (world_with_sink w0 ex_d1) ex_d2) ex_d3.
Definition ex_ds : list gdecl :=
  [GDecl "a" false (Some "m") (Some INFO) [GDecl "b" false None None []; GDecl "c" false (Some "k2") (Some DEBUG) [GDecl "e" false None None []]];
   GDecl "d" true None (Some OFF) []].

Ltac keys := eexists; split; [reflexivity|]; cbn [map fst snd]; intros k v Hin;
  repeat (destruct Hin as [Hin|Hin]; [inversion Hin; subst; eexists; split; [reflexivity|cbn; tauto]|]); destruct Hin.
Ltac absent := apply not_set; reflexivity.
Ltac lev := eapply is_set; [reflexivity|]; eexists; split; [reflexivity|]; split; [constructor|]; split; [discriminate || (intros _ [Hd _]; discriminate)|reflexivity || discriminate].

Lemma ex_doc_read : doc_read ex_lib false w0 ex_doc ex_w1 ex_ds.
Proof.
  unfold doc_read. split; [keys|]. split.
  - right. eexists. split; [reflexivity|]. cbv beta iota. unfold ex_sinks, ex_w1.
    eapply (sr_cons ex_lib _ _ ex_d1); [|right; reflexivity|split; [reflexivity|intros [Q _]; discriminate]|].
    { split; [reflexivity|]. split; [discriminate|]. split.
      - exists (Some WARN). split; [lev|reflexivity].
      - eapply kr_console; [reflexivity|absent|eapply is_set; reflexivity|absent| |keys]. repeat split; absent. }
    eapply (sr_cons ex_lib _ _ ex_d2); [|right; reflexivity|split; [reflexivity|intros [Q _]; discriminate]|].
    { split; [reflexivity|]. split; [discriminate|]. split.
      - exists None. split; [absent|reflexivity].
      - eapply kr_file; [reflexivity|reflexivity|absent| |keys].
        split; [|split; [|split]]; (eapply is_set; [reflexivity|]; eexists; split; [reflexivity|]; split; [first [cbv; discriminate|split; [cbv; discriminate|reflexivity]]|reflexivity]). }
    eapply (sr_cons ex_lib _ _ ex_d3); [|left; reflexivity|split; [reflexivity|intros [Q _]; discriminate]|].
    { split; [reflexivity|]. split; [discriminate|]. split.
      - exists None. split; [absent|reflexivity].
      - eapply (kr_multi _ _ _ ["k1"; "k2"]); [reflexivity| | |keys].
        + eexists. split; [reflexivity|]. repeat constructor.
        + repeat constructor. }
    apply sr_nil.
  - eexists. split; [reflexivity|]. unfold ex_ds, ex_groups. cbn [groups_read group_read].
    assert (NN : forall A (x : A), Some x <> None) by discriminate.
    repeat match goal with
    | |- _ /\ _ => split
    | |- exists l, _ /\ _ => eexists; split; [first [left; reflexivity|right; split; [left; reflexivity|reflexivity]]|]
    | |- True => exact I
    | |- match _ with _ => _ end => progress cbv beta iota
    | |- _ <> _ => discriminate
    | |- _ -> _ => discriminate || (intros _; discriminate)
    | |- only_keys _ _ => keys
    | |- setting _ "level" _ _ _ => first [absent|lev]
    | |- setting _ "sink" _ _ _ => first [absent|eapply is_set; [reflexivity|split; [reflexivity|discriminate]]]
    | |- setting _ _ _ _ _ => first [absent|eapply is_set; reflexivity]
    | |- _ = _ => reflexivity
    end.
Qed.

Definition w_of (p : world * res result) : sys := w_sys (fst p).
Definition group_at (s : sys) (n : string) : option group :=
  match find (gmap s) n with Some i => nth_error (groups s) i | None => None end.

(** Paste documents together. *)
Definition doc (sinks groups : list node) : node := M_ [("sinks", NSeq sinks); ("groups", NSeq groups)].
Definition root (n lv : string) (rest : list (string * node)) : node := M_ (("name", S_ n) :: ("level", S_ lv) :: rest).
Definition inner (n : string) (rest : list (string * node)) : node := M_ (("name", S_ n) :: rest).
Definition console (n : string) (rest : list (string * node)) : node := M_ (("name", S_ n) :: ("type", S_ "console") :: rest).
Definition children (l : list node) : string * node := ("children", NSeq l).

Definition after (n : node) (w : world) : world := fst (run_doc n w).

(** C58 *)
Definition negative_buffer : node := doc [console "k" [("buffer", S_ "-1")]] [root "a" "info" []].
Definition worded_buffer : node := doc [console "k" [("buffer", S_ "many")]] [root "a" "info" []].
(** C59 *)
Definition scalar_sink : node := doc [S_ "k"] [root "a" "info" []].
Definition nameless_sink : node := doc [M_ [("type", S_ "console")]] [root "a" "info" []].
Definition refused_parent : node :=
  doc [] [root "a" "info" [children [inner "b" [children [inner "c" []]]]]; root "c" "info" [children [inner "a" []]]].
(** C62 *)
Definition first_doc : node := doc [console "k" []] [root "a" "info" [("sink", S_ "k")]; root "b" "off" [("sink", S_ "k")]].
Definition second_doc : node := doc [] [root "a" "debug" []].
Definition third_doc : node := doc [] [root "b" "off" [("sink", S_ "k"); children [inner "a" []]]].
(** C63 *)
Definition empty_multisink : node := doc [M_ [("name", S_ "m"); ("type", S_ "multisink"); ("sinks", NSeq [])]] [root "a" "info" [("sink", S_ "m")]].
(** C71 *)
Definition two_problems : node :=
  doc [console "k" [("capacity", S_ "1")]] [root "a" "info" [("sink", S_ "zzz")]; root "b" "high" []].
(** C72 *)
Definition own_child : node := doc [] [root "a" "info" [children [inner "a" []]]; root "b" "info" []].
Definition again_b : node := doc [] [root "b" "debug" []].
Definition own_child_sys : sys := Eval vm_compute in w_sys (after own_child w0).
Lemma own_child_hangs ord fuel dbg : snd (step ord fuel dbg own_child_sys (SetSinkOfGroup "b" "*")) = RHang.
Proof.
  assert (H : forall st, fn fuel g_sov (groups (mod_group own_child_sys 1 (g_set_sink 0))) 1 [] st 0 = None).
  { induction fuel as [|f IH]; intros st; cbn; [reflexivity|]. cbn in IH. rewrite IH. reflexivity. }
  cbn [step]. change (find (smap own_child_sys) "*") with (Some 0). change (find (gmap own_child_sys) "b") with (Some 1).
  cbn iota. unfold set_sink_of_group, spread.
  change (gmap (mod_group own_child_sys 1 (g_set_sink 0))) with (("*", 0) :: [("a", 0); ("b", 1)]). cbn [scan]. rewrite H. reflexivity.
Qed.
Lemma own_child_stuck ord fuel dbg :
  snd (yaml ex_lib ord fuel dbg None (FromContent (inl again_b)) (after own_child w0)) = Stuck.
Proof.
  pose proof (own_child_hangs ord fuel dbg) as H. replace (after own_child w0) with (mkWorld own_child_sys false (w_log (after own_child w0))) by (vm_compute; reflexivity).
  cbv -[step w_log after own_child w0] in *. destruct (step _ _ _ _ _) as [s o]. cbn in H. subst o. reflexivity.
Qed.

Definition sys0 : sys := init.
Definition configured_by (n : node) : sys * (option result * out) :=
  configure idord 100 true init (script_of (yaml ex_lib idord 100 true None (FromContent (inl n))) false init).
