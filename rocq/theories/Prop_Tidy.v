(** * Property C115: what cannot be used in a document counts as not given

    [tidied L d d']: [d'] is [d] without any number of properties that are not documented or
    have no usable value, and of elements of the lists that are no maps (YamlTidySpec). *)
From Coq Require Import String List Arith ZArith NArith Bool.
From Verif Require Import Base LevelModel EventModel SysModel SysWitness YamlModel YamlSpec YamlActSpec YamlWitness YamlTidySpec YamlTidy.
Import ListNotations.
Local Open Scope string_scope.
Local Open Scope list_scope.

(** ** C115 *)
(** The system is left as by the document without them: the same sinks with the same
    properties, the same groups, the same calls; and configuration ends the same way. *)
Theorem C115_not_given :
  forall L ord fuel dbg d d', tidied L d d' ->
  forall previous w src src', document src d -> document src' d' ->
  fst (yaml L ord fuel dbg previous src w) = fst (yaml L ord fuel dbg previous src' w) /\
  same_end (snd (yaml L ord fuel dbg previous src w)) (snd (yaml L ord fuel dbg previous src' w)).
Proof. exact tidied_sim. Qed.
Print Assumptions C115_not_given.

(** A document with one of each *)
Definition messy_sinks : list node :=
  [NScalar "stray";
   M_ [("name", S_ "k1"); ("type", S_ "console"); ("path", S_ "/tmp/x"); ("color", NNull); ("stream", S_ "stdlog"); ("level", S_ "loud")];
   M_ [("name", S_ "k2"); ("type", S_ "file"); ("path", S_ "/tmp/log"); ("thread", S_ "yes"); ("capacity", S_ "3"); ("buffer", S_ "511"); ("max_message_length", S_ "63"); ("latency", S_ "-1")]].
Definition tidy_sinks : list node :=
  [M_ [("name", S_ "k1"); ("type", S_ "console")]; M_ [("name", S_ "k2"); ("type", S_ "file"); ("path", S_ "/tmp/log")]].
Definition messy_groups : list node :=
  [M_ [("name", S_ "a"); ("level", S_ "info"); ("parent", S_ "d"); ("sink", S_ "k1");
       ("children", NSeq [M_ [("name", S_ "b"); ("level", S_ "INFO")]; NNull; M_ [("name", S_ "c")]])]].
Definition tidy_groups : list node :=
  [M_ [("name", S_ "a"); ("level", S_ "info"); ("sink", S_ "k1"); ("children", NSeq [M_ [("name", S_ "b")]; M_ [("name", S_ "c")]])]].
Definition messy_doc : node := M_ [("version", S_ "1"); ("sinks", NSeq messy_sinks); ("groups", NSeq messy_groups)].
Definition tidy_doc : node := M_ [("sinks", NSeq tidy_sinks); ("groups", NSeq tidy_groups)].

Ltac dropped P := eapply t_less; [P|].
Ltac at_sinks tac := eapply (dl_sinks _ []); [reflexivity|tac].
Ltac at_groups tac := eapply (dl_groups _ [(NScalar "sinks", NSeq tidy_sinks)]); [reflexivity|tac].
Example C115_nonvacuous : tidied ex_lib messy_doc tidy_doc /\
  w_log (fst (run_doc messy_doc w0)) =
    [ASink (mkDesc "k1" TRACE (KConsole STDOUT false TI_NONE no_sizes)); ASink (mkDesc "k2" TRACE (KFile "/tmp/log" TI_NONE no_sizes));
     ACall (MakeGroup "a" None (Some "k1") (Some INFO)); ACall (MakeGroup "b" (Some "a") None None); ACall (MakeGroup "c" (Some "a") None None)].
Proof.
  split; [|vm_compute; reflexivity].
  (* version *)
  eapply t_less; [apply (dl_unknown _ _ "version"); cbn; intuition discriminate|]. cbn [without filter fst snd M_ map negb String.eqb Ascii.eqb Bool.eqb].
  unfold messy_sinks, messy_groups.
  (* the sinks *)
  dropped ltac:(at_sinks ltac:(apply sl_element; intros [m E]; discriminate E)).
  dropped ltac:(at_sinks ltac:(apply (sl_unknown _ "console" _ "path"); [cbn; tauto|reflexivity|cbn; intuition discriminate])).
  dropped ltac:(at_sinks ltac:(eapply (sl_unusable _ "console" _ "color"); [cbn; tauto|reflexivity|reflexivity|apply u_color; [reflexivity|discriminate]])).
  dropped ltac:(at_sinks ltac:(eapply (sl_unusable _ "console" _ "stream"); [cbn; tauto|reflexivity|reflexivity|apply u_stream; [reflexivity|intros t s E M; inversion E; subst; inversion M]])).
  dropped ltac:(at_sinks ltac:(eapply (sl_unusable _ "console" _ "level"); [cbn; tauto|reflexivity|reflexivity|apply u_level; intros t s E M; inversion E; subst; inversion M])).
  dropped ltac:(at_sinks ltac:(apply sl_next; eapply (sl_unusable _ "file" _ "thread"); [cbn; tauto|reflexivity|reflexivity|apply u_thread; [discriminate|intros t s E M; inversion E; subst; inversion M]])).
  dropped ltac:(at_sinks ltac:(apply sl_next; eapply (sl_unusable _ "file" _ "capacity"); [cbn; tauto|reflexivity|reflexivity|apply u_capacity; [discriminate|intros t E; inversion E; subst; eexists; split; [reflexivity|unfold good_capacity; intros M; apply M; reflexivity]]])).
  dropped ltac:(at_sinks ltac:(apply sl_next; eapply (sl_unusable _ "file" _ "buffer"); [cbn; tauto|reflexivity|reflexivity|apply u_buffer; [discriminate|intros t E; inversion E; subst; eexists; split; [reflexivity|unfold good_buffer; intros [M|M]; [discriminate M|apply M; reflexivity]]]])).
  dropped ltac:(at_sinks ltac:(apply sl_next; eapply (sl_unusable _ "file" _ "max_message_length"); [cbn; tauto|reflexivity|reflexivity|apply u_message; [discriminate|intros t E; inversion E; subst; eexists; split; [reflexivity|unfold good_message; intros M; apply M; reflexivity]]])).
  dropped ltac:(at_sinks ltac:(apply sl_next; eapply (sl_unusable _ "file" _ "latency"); [cbn; tauto|reflexivity|reflexivity|apply u_latency; [discriminate|intros t E; inversion E; subst; eexists; split; [reflexivity|unfold good_latency; intros [M _]; apply M; reflexivity]]])).
  (* the groups *)
  dropped ltac:(at_groups ltac:(apply (gl_unknown _ _ "parent"); cbn; intuition discriminate)).
  dropped ltac:(at_groups ltac:(eapply (gl_children _ [(S_ "name", S_ "a"); (S_ "level", S_ "info"); (S_ "sink", S_ "k1")]); [reflexivity|
    eapply gl_level; [reflexivity|intros t s E M; inversion E; subst; inversion M]])).
  dropped ltac:(at_groups ltac:(eapply (gl_children _ [(S_ "name", S_ "a"); (S_ "level", S_ "info"); (S_ "sink", S_ "k1")]); [reflexivity|
    apply gl_next, gl_element; intros [m E]; discriminate E])).
  apply t_same.
Qed.

(** A root group must have a usable level, and a text in place of a number or of true or
    false is an exception. *)
Example C115_root_level : exists m, snd (run_doc (M_ [("groups", NSeq [M_ m])]) w0) = Exn "Level is not provided for root group" /\
  exists r, snd (run_doc (M_ [("groups", NSeq [NMap (without "level" (map (fun p => (NScalar (fst p), snd p)) m))])]) w0) = Val r.
Proof. exists [("name", S_ "a"); ("level", S_ "INFO")]. split; [vm_compute; reflexivity|]. eexists. vm_compute. reflexivity. Qed.
Example C115_texts :
  snd (run_doc (M_ [("sinks", NSeq [M_ [("name", S_ "k"); ("type", S_ "console"); ("color", S_ "maybe")]]); ("groups", NSeq [])]) w0) = Exn "bad conversion" /\
  snd (run_doc (M_ [("sinks", NSeq [M_ [("name", S_ "k"); ("type", S_ "console"); ("capacity", S_ "many")]]); ("groups", NSeq [])]) w0) = Exn "bad conversion".
Proof. split; vm_compute; reflexivity. Qed.
