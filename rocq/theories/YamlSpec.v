(** * Vocabulary for the properties of the configurators (C56-C63, C69-C72):
      when a document is well formed, and what it describes *)
From Coq Require Import String List Arith ZArith NArith Bool.
From Verif Require Import Base LevelModel EventModel SysModel YamlModel.
Import ListNotations.
Local Open Scope string_scope.
Local Open Scope list_scope.

(** The documented names of levels. *)
Inductive level_name : string -> level -> Prop :=
| ln_off : level_name "off" OFF
| ln_critical : level_name "critical" CRITICAL
| ln_crit : level_name "crit" CRITICAL
| ln_error : level_name "error" ERROR
| ln_warning : level_name "warning" WARN
| ln_warn : level_name "warn" WARN
| ln_info : level_name "info" INFO
| ln_verbose : level_name "verbose" VERBOSE
| ln_debug : level_name "debug" DEBUG
| ln_deb : level_name "deb" DEBUG
| ln_trace : level_name "trace" TRACE.

(** What is assumed of yaml-cpp and the platform, where a theorem says so: integers fit
    in an int, a null key reads as nothing or "null", an event takes some space. *)
Record usual_lib (L : lib) : Prop := {
  ul_int : forall t z, as_int L t = Some z -> (- 2 ^ 31 <= z < 2 ^ 31)%Z;
  ul_null : null_text L = None \/ null_text L = Some "null";
  ul_event : (0 < event_size L < 2 ^ 29)%N
}.

(** A buffer whose size a vector cannot have makes the constructor throw. *)
Definition refuses_huge_buffers (L : lib) : Prop :=
  forall d b, match d_kind d with
              | KConsole _ _ _ z | KFile _ _ z | KSyslog _ _ z => z_buffer z
              | KMulti _ => None
              end = Some b -> (2 ^ 63 <= b)%N -> build L d <> None.

Section Spec.
Variable L : lib.

(** Only these properties are given. *)
Definition only_keys (keys : list string) (n : node) : Prop :=
  exists l, n = NMap l /\ forall k v, In (k, v) l -> exists t, k = NScalar t /\ In t keys.

(** An optional property, which [means] what. *)
Inductive setting {A} (n : node) (key : string) (means : string -> A -> Prop) (default : A) : A -> Prop :=
| not_set : get n key = None -> setting n key means default default
| is_set t v : get n key = Some (NScalar t) -> means t v -> setting n key means default v.

Definition means_level (t : string) (l : option level) : Prop :=
  exists v, l = Some v /\ level_name t v /\
    (v = DEBUG -> ~ (without_debug L = true /\ without_trace L = true)) /\
    (v = TRACE -> without_trace L = false).
Inductive means_stream : string -> stream -> Prop :=
| ms_out : means_stream "stdout" STDOUT
| ms_err : means_stream "stderr" STDERR.
Inductive means_thread : string -> thread_info -> Prop :=
| mt_none : means_thread "none" TI_NONE
| mt_name : means_thread "name" TI_NAME
| mt_id : means_thread "id" TI_ID.

(** Acceptable numbers. *)
Definition means_number (good : string -> Z -> Prop) (t : string) (o : option N) : Prop :=
  exists z, as_int L t = Some z /\ good t z /\ o = Some (Z.to_N z).
Definition good_capacity (t : string) (z : Z) : Prop := (4 <= z)%Z.
Definition good_buffer (t : string) (z : Z) : Prop := (Z.of_N (event_size L) * 4 <= z)%Z.
Definition good_message (console : bool) (t : string) (z : Z) : Prop :=
  if console then (64 < z)%Z else (64 <= z)%Z.
Definition good_latency (t : string) (z : Z) : Prop := (0 <= z)%Z /\ t = int_text z.

Definition sizes_read (console : bool) (n : node) (z : sizes) : Prop :=
  setting n "capacity" (means_number good_capacity) None (z_capacity z) /\
  setting n "buffer" (means_number good_buffer) None (z_buffer z) /\
  setting n "max_message_length" (means_number (good_message console)) None (z_message z) /\
  setting n "latency" (means_number good_latency) None (z_latency z).

Definition sink_level_read (n : node) (l : level) : Prop :=
  exists o, setting n "level" means_level None o /\ l = match o with Some l => l | None => TRACE end.

Definition has_type (n : node) (t : string) : Prop := get n "type" = Some (NScalar t).

(** The node describes the sink [d]; [member]: the sinks there are, by name. *)
Inductive kind_read (member : string -> option nat) (n : node) : kind -> Prop :=
| kr_console str color ti z :
    has_type n "console" ->
    setting n "stream" means_stream STDOUT str ->
    setting n "color" (fun t b => as_bool L t = Some b) false color ->
    setting n "thread" means_thread TI_NONE ti ->
    sizes_read true n z ->
    only_keys ["name"; "type"; "stream"; "color"; "thread"; "capacity"; "buffer"; "max_message_length";
               "latency"; "level"] n ->
    kind_read member n (KConsole str color ti z)
| kr_file path ti z :
    has_type n "file" ->
    get n "path" = Some (NScalar path) ->
    setting n "thread" means_thread TI_NONE ti ->
    sizes_read false n z ->
    only_keys ["name"; "type"; "path"; "thread"; "capacity"; "buffer"; "max_message_length"; "latency"; "level"] n ->
    kind_read member n (KFile path ti z)
| kr_syslog ident ti z :
    has_type n "syslog" ->
    get n "ident" = Some (NScalar ident) ->
    setting n "thread" means_thread TI_NONE ti ->
    sizes_read false n z ->
    only_keys ["name"; "type"; "ident"; "thread"; "capacity"; "buffer"; "max_message_length"; "latency"; "level"] n ->
    kind_read member n (KSyslog ident ti z)
| kr_multi names ks :
    has_type n "multisink" ->
    (exists l, get n "sinks" = Some (NSeq l) /\
       Forall2 (fun x t => x = NScalar t \/ x = NNull /\ null_text L = Some t) l names) ->
    Forall2 (fun t k => member t = Some k) names ks ->
    only_keys ["name"; "type"; "sinks"; "level"] n ->
    kind_read member n (KMulti ks).

Definition sink_read (member : string -> option nat) (n : node) (d : sink_desc) : Prop :=
  get n "name" = Some (NScalar (d_name d)) /\ d_name d <> "*" /\
  sink_level_read n (d_level d) /\ kind_read member n (d_kind d).

Definition is_multi (d : sink_desc) : bool := match d_kind d with KMulti _ => true | _ => false end.
Definition is_syslog (d : sink_desc) : bool := match d_kind d with KSyslog _ _ _ => true | _ => false end.

(** The constructor returns. *)
Definition constructible (busy : bool) (d : sink_desc) : Prop :=
  build L d = None /\ ~ (is_syslog d = true /\ busy = true).

(** There is a sink of the name. *)
Definition known (w : world) (t : string) : Prop := find (smap (w_sys w)) t <> None.

(** The system with one more sink. *)
Definition add_sink (s : sys) (n : string) : sys :=
  mkSys (groups s) (loggers s) (sinks s ++ [n]) (gmap s) (lmap s) (assign (smap s) n (length (sinks s)))
        (configured s).
Definition world_with_sink (w : world) (d : sink_desc) : world :=
  mkWorld (add_sink (w_sys w) (d_name d)) (w_busy w || is_syslog d) (w_log w ++ [ASink d]).

(** The list of sinks: each element describes a sink, composites after their members,
    and names are new (a composite may take over a name). *)
Inductive sinks_read : world -> list node -> world -> Prop :=
| sr_nil w : sinks_read w [] w
| sr_cons w n d l w' :
    sink_read (find (smap (w_sys w))) n d ->
    (is_multi d = true \/ find (smap (w_sys w)) (d_name d) = None) ->
    constructible (w_busy w) d ->
    sinks_read (world_with_sink w d) l w' ->
    sinks_read w (n :: l) w'.

(** An element of the list that is passed over without setting a flag. *)
Definition silent (n : node) : Prop :=
  match n with
  | NMap _ => get n "name" = None /\ exists t, has_type n t
  | _ => True
  end.

(** The same with such elements in between. *)
Inductive sinks_read_silent : world -> list node -> world -> Prop :=
| ss_nil w : sinks_read_silent w [] w
| ss_skip w n l w' : silent n -> sinks_read_silent w l w' -> sinks_read_silent w (n :: l) w'
| ss_cons w n d l w' :
    sink_read (find (smap (w_sys w))) n d ->
    (is_multi d = true \/ find (smap (w_sys w)) (d_name d) = None) ->
    constructible (w_busy w) d ->
    sinks_read_silent (world_with_sink w d) l w' ->
    sinks_read_silent w (n :: l) w'.

(** Declared groups. *)
Inductive gdecl := GDecl (name : string) (fallback : bool) (sink : option string) (lv : option level)
                         (children : list gdecl).
Definition gd_name (d : gdecl) : string := match d with GDecl n _ _ _ _ => n end.

(** The node declares the group [d]; [known]: names of sinks. *)
Fixpoint group_read (known : string -> Prop) (root : bool) (d : gdecl) (n : node) : Prop :=
  match d with
  | GDecl name fb sk lv ch =>
      get n "name" = Some (NScalar name) /\ name <> "*" /\
      setting n "is_fallback" (fun t b => as_bool L t = Some b) false fb /\
      setting n "sink" (fun t o => o = Some t /\ known t) None sk /\
      setting n "level" means_level None lv /\ (root = true -> lv <> None) /\
      only_keys ["name"; "is_fallback"; "sink"; "level"; "children"] n /\
      exists l, (get n "children" = Some (NSeq l) \/ (get n "children" = None \/ get n "children" = Some NNull) /\ l = []) /\
        (fix each ch l : Prop :=
           match ch, l with
           | [], [] => True
           | c :: ch', x :: l' => group_read known false c x /\ each ch' l'
           | _, _ => False
           end) ch l
  end.
Fixpoint groups_read (known : string -> Prop) (root : bool) (ds : list gdecl) (l : list node) : Prop :=
  match ds, l with
  | [], [] => True
  | d :: ds', n :: l' => group_read known root d n /\ groups_read known root ds' l'
  | _, _ => False
  end.

(** One line per declared group, parents first: its parent's name and itself. *)
Record entry := mkEntry { e_parent : option string; e_name : string; e_fallback : bool;
                          e_sink : option string; e_level : option level }.
Fixpoint entries (parent : option string) (d : gdecl) : list entry :=
  match d with
  | GDecl n fb sk lv ch =>
      mkEntry parent n fb sk lv ::
      (fix each ch := match ch with [] => [] | c :: ch' => entries (Some n) c ++ each ch' end) ch
  end.
Definition all_entries (parent : option string) (ds : list gdecl) : list entry := flat_map (entries parent) ds.

(** The sink an entry asks for: the null sink for a root that names none. *)
Definition entry_sink (e : entry) : option string :=
  match e_sink e, e_parent e with
  | Some k, _ => Some k
  | None, Some _ => None
  | None, None => Some "*"
  end.

(** Calls for one declared group, if it is [new], and if it exists. *)
Definition entry_calls (new : bool) (e : entry) : list call :=
  (if new then [MakeGroup (e_name e) (e_parent e) (entry_sink e) (e_level e)]
   else match e_parent e with Some p => [SetParentOfGroup (e_name e) p] | None => [] end
        ++ match entry_sink e with Some k => [SetSinkOfGroup (e_name e) k] | None => [] end
        ++ match e_level e with Some l => [SetLevelOfGroup (e_name e) l] | None => [] end)
  ++ (if e_fallback e then [SetFallbackGroup (e_name e)] else []).

(** For all of them; [names]: the groups there are. *)
Fixpoint entries_calls (names : list string) (es : list entry) : list call :=
  match es with
  | [] => []
  | e :: es' =>
      entry_calls (negb (existsb (String.eqb (e_name e)) names)) e ++ entries_calls (e_name e :: names) es'
  end.

(** The document: sinks, then groups. *)
Definition doc_read (silently : bool) (w : world) (n : node) (w1 : world) (ds : list gdecl) : Prop :=
  only_keys ["sinks"; "groups"] n /\
  (get n "sinks" = None /\ w1 = w \/
   exists l, get n "sinks" = Some (NSeq l) /\
     (if silently then sinks_read_silent w l w1 else sinks_read w l w1)) /\
  exists g, get n "groups" = Some (NSeq g) /\
    groups_read (fun t => find (smap (w_sys w1)) t <> None) true ds g.

End Spec.

(** ** The groups a document asks for *)

(** The group of an entry exists, with the parent, level and sink asked for: its own, or
    its parent's. *)
Definition entry_holds (s : sys) (e : entry) : Prop :=
  exists i x, find (gmap s) (e_name e) = Some i /\ nth_error (groups s) i = Some x /\ g_name x = e_name e /\
  match e_parent e with
  | None =>
      g_parent x = None /\
      g_sink x = find (smap s) (match e_sink e with Some k => k | None => "*" end) /\ Some (g_level x) = e_level e
  | Some p =>
      exists j y, find (gmap s) p = Some j /\ nth_error (groups s) j = Some y /\ g_parent x = Some j /\
        g_sink x = match e_sink e with Some k => find (smap s) k | None => g_sink y end /\
        g_sov x = match e_sink e with Some _ => true | None => false end /\
        g_level x = match e_level e with Some l => l | None => g_level y end /\
        g_lov x = match e_level e with Some _ => true | None => false end
  end.

(** The group used when a name is unknown: the last one marked, else the one there was,
    else the first. *)
Definition fallback_after (s s' : sys) (es : list entry) : option nat :=
  match filter e_fallback (rev es) with
  | e :: _ => find (gmap s') (e_name e)
  | [] => match find (gmap s) "*", es with
          | Some i, _ => Some i
          | None, e :: _ => find (gmap s') (e_name e)
          | None, [] => None
          end
  end.

(** The calls the groups of a document make, once its sinks are made. *)
Definition doc_calls (w1 : world) (ds : list gdecl) : list call :=
  entries_calls (map fst (gmap (w_sys w1))) (all_entries None ds).

Section Run.
Variable ord : list nat -> list nat.
Variable fuel : nat.
Variable dbg : bool.
(** Calls one after the other. *)
Fixpoint calls_run (cs : list call) (w : world) : world * res unit :=
  match cs with
  | [] => (w, Val tt)
  | c :: cs' => match world_call ord fuel dbg c w with
                | (w', Val _) => calls_run cs' w'
                | (w', Exn e) => (w', Exn e)
                | (w', Stuck) => (w', Stuck)
                end
  end.
End Run.
