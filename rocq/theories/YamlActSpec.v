(** * Every action a document can cause, whatever the outcome (C56, C57, C58, C63, C73) *)
From Coq Require Import String List Arith ZArith NArith Bool.
From Verif Require Import Base LevelModel EventModel TreeModel SysModel SysSpec YamlModel YamlSpec YamlOutSpec.
Import ListNotations.
Local Open Scope string_scope.
Local Open Scope list_scope.

(** A group directly below a group of the same name. *)
Inductive nested : option string -> list node -> Prop :=
| ne_here p n l : In n l -> get n "name" = Some (NScalar p) -> nested (Some p) l
| ne_below p n l t : In n l -> get n "name" = Some (NScalar t) -> nested (Some t) (children_of n) -> nested p l.

Definition sane_number (lo : Z) (o : option N) : Prop := forall b, o = Some b -> (Z.to_N lo <= b < 2 ^ 31)%N.

Section Acts.
Variable L : lib.
Variable safe : Prop.

Definition sane_sizes (z : sizes) : Prop :=
  sane_number 4 (z_capacity z) /\ sane_number 64 (z_message z) /\
  (forall b, z_buffer z = Some b -> (event_size L * 4 <= b < 2 ^ 31)%N) /\ sane_number 0 (z_latency z).
Definition sane_kind (w : world) (k : kind) : Prop :=
  match k with
  | KConsole _ _ _ z | KFile _ _ z | KSyslog _ _ z => usual_lib L -> refuses_huge_buffers L -> sane_sizes z
  | KMulti ks => Forall (fun k => exists t, find (smap (w_sys w)) t = Some k) ks
  end.
Definition sane_call (w : world) (c : call) : Prop :=
  match c with
  | MakeGroup n p k lv =>
      n <> "*" /\ p <> Some "*" /\ find (gmap (w_sys w)) n = None /\ lv <> Some IGNORE /\ (p = None -> k <> None) /\
      (forall t, k = Some t -> known w t)
  | SetParentOfGroup n p => n <> "*" /\ p <> "*" /\ find (gmap (w_sys w)) n <> None /\ (safe -> n <> p)
  | SetSinkOfGroup n k => n <> "*" /\ find (gmap (w_sys w)) n <> None /\ known w k
  | SetLevelOfGroup n l => n <> "*" /\ find (gmap (w_sys w)) n <> None /\ l <> IGNORE
  | SetFallbackGroup n => n <> "*" /\ find (gmap (w_sys w)) n <> None
  | _ => False
  end.
Definition sane (w : world) (x : action) : Prop :=
  match x with
  | ASink d => d_name d <> "*" /\ d_level d <> IGNORE /\ constructible L (w_busy w) d /\ sane_kind w (d_kind d)
  | ACall c => sane_call w c
  end.

Variable ord : list nat -> list nat.
Variable fuel : nat.
Variable dbg : bool.

Inductive acts : world -> list action -> world -> Prop :=
| acts_nil w : acts w [] w
| acts_call w c l w' : sane_call w c -> acts (fst (world_call ord fuel dbg c w)) l w' -> acts w (ACall c :: l) w'
| acts_sink w d l w' : sane w (ASink d) -> acts (world_with_sink w d) l w' -> acts w (ASink d :: l) w'.

End Acts.

(** What a document leaves of the reserved name and of what exists: the sink "*" stays,
    nothing made is called "*", names keep their groups, and "*" names the group it
    named, or one that has another name. *)
Definition star_kept (s s' : sys) : Prop :=
  find (smap s') "*" = find (smap s) "*" /\
  (exists ks, sinks s' = sinks s ++ ks /\ ~ In "*" ks) /\
  (exists ns, map g_name (groups s') = map g_name (groups s) ++ ns /\ ~ In "*" ns) /\
  (forall n i, find (gmap s) n = Some i -> n <> "*" -> find (gmap s') n = Some i) /\
  (find (gmap s') "*" = find (gmap s) "*" \/
   exists n, n <> "*" /\ find (gmap s') n <> None /\ find (gmap s') "*" = find (gmap s') n).

(** The sinks among the actions, in the order in which they are made. *)
Definition sinks_of (l : list action) : list sink_desc :=
  flat_map (fun x => match x with ASink d => [d] | ACall _ => [] end) l.

(** Names are numbers of existing objects. *)
Definition numbered (s : sys) : Prop :=
  (forall n i, find (gmap s) n = Some i -> i < length (groups s)) /\
  (forall n i, find (smap s) n = Some i -> i < length (sinks s)).

(** Different names other than "*" name different groups; the group "*" has another
    name. *)
Definition tidy (s : sys) : Prop :=
  (forall n m i, n <> "*" -> m <> "*" -> find (gmap s) n = Some i -> find (gmap s) m = Some i -> n = m) /\
  (forall i, find (gmap s) "*" = Some i -> exists n, n <> "*" /\ find (gmap s) n = Some i).

(** The groups of a document, and how many there are below. *)
Definition top_groups (n : node) : list node := match get n "groups" with Some (NSeq l) => l | _ => [] end.
Definition top_sinks (n : node) : list node := match get n "sinks" with Some (NSeq l) => l | _ => [] end.

(** The number of nodes of a document. *)
Fixpoint size (n : node) : nat :=
  match n with
  | NNull | NScalar _ => 1
  | NSeq l => S ((fix go l := match l with [] => 0 | x :: l' => size x + go l' end) l)
  | NMap l => S ((fix go (l : list (node * node)) := match l with [] => 0 | (_, x) :: l' => size x + go l' end) l)
  end.

(** The source provides the document. *)
Definition document (src : source) (n : node) : Prop :=
  src = FromContent (inl n) \/ exists p, src = FromFile p (inl n).
Definition not_nested (src : source) : Prop := forall n, document src n -> ~ nested None (top_groups n).
Definition doc_size (src : source) : nat :=
  match src with FromContent (inl n) | FromFile _ (inl n) => size n | _ => 0 end.

(** [t] are the trees of sinks (TreeModel): the members of the sinks [ds], numbered from
    [n0], are sinks made before. *)
Definition forms (t : nat -> TreeModel.tree) (n0 : nat) (ds : list sink_desc) : Prop :=
  forall j d, nth_error ds j = Some d ->
    t (n0 + j) = match d_kind d with
                 | KMulti ks => TreeModel.Multi (d_level d) (map t ks)
                 | _ => TreeModel.Leaf (n0 + j) (d_level d)
                 end.

(** A document on top of others: ConfiguratorFromYAML with a previous configurator, the
    last source of the list is the outermost. *)
Definition layered (L : lib) (ord : list nat -> list nat) (fuel : nat) (dbg : bool) (srcs : list source) : option configurator :=
  fold_left (fun c src => Some (yaml L ord fuel dbg c src)) srcs None.
Definition total_size (srcs : list source) : nat := fold_right (fun src n => doc_size src + n) 0 srcs.

(** What configure() makes of the configurator's result. *)
Definition completed (s1 : sys) (r : res result) (out : result) : Prop :=
  match r with
  | Stuck => False
  | Exn what => out = mkResult true false ["E: Configure is failed: " +++ what +++ "; Logging system is unworkable"]
  | Val r =>
      match gmap s1 with
      | [] => out = mkResult true (has_warning r) (message r ++ ["E: No one group is defined; Logging system is unworkable"])
      | _ => out = mkResult (has_error r) (has_warning r || existsb (sends_nowhere s1) (gmap s1))
                            (message r ++ map nowhere_warning (filter (sends_nowhere s1) (gmap s1)))
      end
  end.

(** A group node of the document, with the name of the group it is in. *)
Inductive below (l : list node) : option string -> node -> Prop :=
| bl_top n : In n l -> below l None n
| bl_child p m t n : below l p m -> get m "name" = Some (NScalar t) -> In n (children_of m) -> below l (Some t) n.
Definition named (x : node) (n : string) : Prop := get x "name" = Some (NScalar n).

(** The document says nothing about the level, the sink, the parent of the group. *)
Definition says_no_level (doc : node) (n : string) : Prop :=
  forall p x, below (top_groups doc) p x -> named x n -> get x "level" = None.
Definition says_no_sink (doc : node) (n : string) : Prop :=
  forall p x, below (top_groups doc) p x -> named x n -> get x "sink" = None.
Definition not_root (doc : node) (n : string) : Prop := forall x, below (top_groups doc) None x -> ~ named x n.
Definition not_inner (doc : node) (n : string) : Prop :=
  forall p x, below (top_groups doc) (Some p) x -> ~ named x n /\ p <> n.

(** Where the calls come from. *)
Definition call_from (doc : node) (c : call) : Prop :=
  match c with
  | SetLevelOfGroup n _ => exists p x, below (top_groups doc) p x /\ named x n /\ get x "level" <> None
  | SetSinkOfGroup n _ => exists p x, below (top_groups doc) p x /\ named x n /\ (get x "sink" <> None \/ p = None)
  | SetParentOfGroup n t => exists x, below (top_groups doc) (Some t) x /\ named x n
  | MakeGroup n p _ _ => exists x, below (top_groups doc) p x /\ named x n
  | SetFallbackGroup n => exists p x, below (top_groups doc) p x /\ named x n /\ get x "is_fallback" <> None
  | _ => True
  end.

(** The sink of the fallback configurator, and what it says. *)
Definition fallback_desc (lv : level) (color : bool) : sink_desc :=
  mkDesc "console" lv (KConsole STDOUT color TI_NONE (mkSizes None None None None)).
Definition fallback_message (lv : level) (color : bool) : list string :=
  ["I: Using fallback configurator for logger system";
   "I: All logs will be write into " +++ (if color then "color " else "") +++ "standard output with '" +++
   string_of_list_ascii (levelToStr lv) +++ "' level"].

Definition sizes_of (d : sink_desc) : option sizes :=
  match d_kind d with KConsole _ _ _ z | KFile _ _ z | KSyslog _ _ z => Some z | KMulti _ => None end.

(** The action gives no group or sink the level IGNORE. *)
Definition real_level (x : action) : Prop :=
  match x with
  | ASink d => d_level d <> IGNORE
  | ACall (MakeGroup _ _ _ lv) => lv <> Some IGNORE
  | ACall (SetLevelOfGroup _ lv) => lv <> IGNORE
  | ACall _ => True
  end.
