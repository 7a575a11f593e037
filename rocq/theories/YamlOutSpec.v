(** * What is made of a document that need not be well formed (C56, C58, C59, C63) *)
From Coq Require Import String List Arith ZArith NArith Bool.
From Verif Require Import Base LevelModel EventModel SysModel YamlModel YamlSpec.
Import ListNotations.
Local Open Scope string_scope.
Local Open Scope list_scope.

Definition mentions (line s : string) : Prop := exists p q, line = p +++ s +++ q.

(** A property that is not given, acceptable, or replaced by the default, with a
    complaint. *)
Inductive settled {A} (n : node) (key : string) (means : string -> A -> Prop) (default : A) (complaint : Prop) : A -> Prop :=
| st_absent : get n key = None -> settled n key means default complaint default
| st_given t v : get n key = Some (NScalar t) -> means t v -> settled n key means default complaint v
| st_wrong x : get n key = Some x -> (forall t v, x = NScalar t -> ~ means t v) -> complaint ->
    settled n key means default complaint default.

(** The text of a scalar. *)
Definition reads (L : lib) (x : node) (t : string) : Prop := x = NScalar t \/ x = NNull /\ null_text L = Some t.

(** [warned s], [failed s]: has_warning, has_error and a line of the message that
    mentions [s]. *)
Section Out.
Variable L : lib.
Variable warned failed : string -> Prop.

Definition names_level (t : string) (o : option level) : Prop := exists l, o = Some l /\ level_name t l.
Definition level_from (n : node) (o : option level) : Prop :=
  settled n "level" names_level None (failed "level") o /\
  (o = Some DEBUG -> without_debug L = true -> without_trace L = true -> warned "'debug'") /\
  (o = Some TRACE -> without_trace L = true -> warned "'trace'").

Definition sizes_from (console : bool) (n : node) (z : sizes) : Prop :=
  settled n "capacity" (means_number L good_capacity) None (warned "'capacity'") (z_capacity z) /\
  settled n "buffer" (means_number L (good_buffer L)) None (warned "'buffer'") (z_buffer z) /\
  settled n "max_message_length" (means_number L (good_message console)) None (warned "'max_message_length'") (z_message z) /\
  settled n "latency" (means_number L good_latency) None (warned "'latency'") (z_latency z).

Definition keys_from (keys : list string) (n : node) : Prop :=
  exists l, n = NMap l /\ forall k v, In (k, v) l -> exists t, reads L k t /\ (In t keys \/ warned t).

Definition thread_from (n : node) (ti : thread_info) : Prop :=
  settled n "thread" means_thread TI_NONE (warned "'thread'") ti.

Definition members_from (member : string -> option nat) (names : list string) (ks : list nat) : Prop :=
  ks = flat_map (fun t => match member t with Some k => [k] | None => [] end) names /\
  forall t, In t names -> member t = None -> warned t.

Inductive kind_from (member : string -> option nat) (n : node) : kind -> Prop :=
| kf_console str color ti z :
    has_type n "console" ->
    settled n "stream" means_stream STDOUT (warned "'stream'") str ->
    settled n "color" (fun t b => as_bool L t = Some b) false (warned "'color'") color ->
    thread_from n ti -> sizes_from true n z ->
    keys_from ["name"; "type"; "stream"; "color"; "thread"; "capacity"; "buffer"; "max_message_length";
               "latency"; "level"] n ->
    kind_from member n (KConsole str color ti z)
| kf_file path ti z :
    has_type n "file" -> get n "path" = Some (NScalar path) ->
    thread_from n ti -> sizes_from false n z ->
    keys_from ["name"; "type"; "path"; "thread"; "capacity"; "buffer"; "max_message_length"; "latency"; "level"] n ->
    kind_from member n (KFile path ti z)
| kf_syslog ident ti z :
    has_type n "syslog" -> get n "ident" = Some (NScalar ident) ->
    thread_from n ti -> sizes_from false n z ->
    keys_from ["name"; "type"; "ident"; "thread"; "capacity"; "buffer"; "max_message_length"; "latency"; "level"] n ->
    kind_from member n (KSyslog ident ti z)
| kf_multi l names ks :
    has_type n "multisink" -> get n "sinks" = Some (NSeq l) -> Forall2 (reads L) l names ->
    members_from member names ks ->
    keys_from ["name"; "type"; "sinks"; "level"] n ->
    kind_from member n (KMulti ks).

(** The sink [d] is what is made of the node. *)
Definition sink_from (member : string -> option nat) (n : node) (d : sink_desc) : Prop :=
  get n "name" = Some (NScalar (d_name d)) /\ d_name d <> "*" /\
  (exists o, level_from n o /\ d_level d = match o with Some l => l | None => TRACE end) /\
  kind_from member n (d_kind d) /\
  (is_multi d = false -> member (d_name d) <> None -> warned (d_name d)).

(** A node no sink is made of. *)
Definition no_scalar (n : node) (key : string) : Prop := forall t, get n key <> Some (NScalar t).
Inductive unusable (n : node) : Prop :=
| un_name : no_scalar n "name" -> unusable n
| un_type : no_scalar n "type" -> unusable n
| un_star : get n "name" = Some (NScalar "*") -> unusable n
| un_unknown t : has_type n t -> ~ In t ["console"; "file"; "syslog"; "multisink"] -> unusable n
| un_path : has_type n "file" -> no_scalar n "path" -> unusable n
| un_ident : has_type n "syslog" -> no_scalar n "ident" -> unusable n
| un_sinks : has_type n "multisink" -> (forall l, get n "sinks" <> Some (NSeq l)) -> unusable n.

(** A complaint about the element number [i]. *)
Definition points_at (f : string -> Prop) (i : nat) (n : node) : Prop :=
  f ("#" +++ index_text i) \/ exists t, get n "name" = Some (NScalar t) /\ f t.

(** The list of sinks: elements are passed over silently, skipped with an error, or made. *)
Inductive sinks_done : world -> nat -> list node -> world -> Prop :=
| sd_nil w i : sinks_done w i [] w
| sd_silent w i n l w' : silent n -> sinks_done w (S i) l w' -> sinks_done w i (n :: l) w'
| sd_skip w i n l w' : ~ silent n -> unusable n -> points_at failed i n -> sinks_done w (S i) l w' -> sinks_done w i (n :: l) w'
| sd_made w i n d l w' :
    ~ silent n -> ~ unusable n -> sink_from (find (smap (w_sys w))) n d -> constructible L (w_busy w) d ->
    sinks_done (world_with_sink w d) (S i) l w' -> sinks_done w i (n :: l) w'.

(** Groups. *)
Inductive unusable_group (known : string -> Prop) (root : bool) (n : node) : Prop :=
| ug_map : (forall l, n <> NMap l) -> unusable_group known root n
| ug_name : no_scalar n "name" -> unusable_group known root n
| ug_star : get n "name" = Some (NScalar "*") -> unusable_group known root n
| ug_fallback x : get n "is_fallback" = Some x -> (forall t, x <> NScalar t) -> unusable_group known root n
| ug_sink x : get n "sink" = Some x -> (forall t, x = NScalar t -> ~ known t) -> unusable_group known root n
| ug_level : root = true -> get n "level" = None -> unusable_group known root n
| ug_children x : get n "children" = Some x -> x <> NNull -> (forall l, x <> NSeq l) -> unusable_group known root n.

Definition entry_from (known : string -> Prop) (n : node) (e : entry) : Prop :=
  get n "name" = Some (NScalar (e_name e)) /\ e_name e <> "*" /\
  setting n "is_fallback" (fun t b => as_bool L t = Some b) false (e_fallback e) /\
  setting n "sink" (fun t o => o = Some t /\ known t) None (e_sink e) /\
  level_from n (e_level e) /\ (e_parent e = None -> get n "level" <> None) /\
  keys_from ["name"; "is_fallback"; "sink"; "level"; "children"] n.

Definition children_of (n : node) : list node :=
  match get n "children" with Some (NSeq l) => l | _ => [] end.

Variable ord : list nat -> list nat.
Variable fuel : nat.
Variable dbg : bool.

(** The list of groups under a parent, and what is below: elements are skipped with an
    error together with what is below, or their calls are made. *)
Inductive groups_done (known : string -> Prop) : world -> option string -> nat -> list node -> world -> Prop :=
| gs_nil w p i : groups_done known w p i [] w
| gs_skip w p i n l w' :
    unusable_group known (match p with None => true | Some _ => false end) n -> points_at failed i n ->
    groups_done known w p (S i) l w' -> groups_done known w p i (n :: l) w'
| gs_made w p i n e l w1 w2 w' :
    ~ unusable_group known (match p with None => true | Some _ => false end) n ->
    entry_from known n e -> e_parent e = p ->
    calls_run ord fuel dbg (entry_calls (match find (gmap (w_sys w)) (e_name e) with None => true | Some _ => false end) e) w
      = (w1, Val tt) ->
    groups_done known w1 (Some (e_name e)) 0 (children_of n) w2 ->
    groups_done known w2 p (S i) l w' -> groups_done known w p i (n :: l) w'.

(** The document. *)
Inductive doc_done (w : world) (n : node) (w' : world) : Prop :=
| dd_map : (forall l, n <> NMap l) -> failed "not YAML map" -> w' = w -> doc_done w n w'
| dd_doc w1 :
    keys_from ["sinks"; "groups"] n ->
    match get n "sinks" with
    | None => w1 = w
    | Some (NSeq l) => sinks_done w 0 l w1
    | Some _ => w1 = w /\ failed "Sinks"
    end ->
    match get n "groups" with
    | None => w' = w1 /\ failed "Groups are undefined"
    | Some (NSeq g) => groups_done (fun t => find (smap (w_sys w1)) t <> None) w1 None 0 g w'
    | Some _ => w' = w1 /\ failed "'groups'"
    end -> doc_done w n w'.
End Out.

(** What a result tells. *)
Definition warns (r : result) (s : string) : Prop :=
  has_warning r = true /\ exists line, In line (message r) /\ mentions line s.
Definition fails (r : result) (s : string) : Prop :=
  has_error r = true /\ exists line, In line (message r) /\ mentions line s.
