(** * Vocabulary for C115: parts of a document that count as not given *)
From Coq Require Import String List Arith ZArith NArith Bool.
From Verif Require Import Base LevelModel EventModel SysModel YamlModel YamlSpec.
Import ListNotations.
Local Open Scope string_scope.
Local Open Scope list_scope.

(** A map without a property. *)
Definition without (key : string) (m : list (node * node)) : list (node * node) :=
  filter (fun p => match fst p with NScalar k => negb (String.eqb k key) | _ => true end) m.

Definition is_map (n : node) : Prop := exists m, n = NMap m.

(** The documented properties. *)
Definition sink_properties (type : string) : list string :=
  if type =? "console" then ["name"; "type"; "level"; "stream"; "color"; "thread"; "capacity"; "buffer"; "max_message_length"; "latency"]
  else if type =? "file" then ["name"; "type"; "level"; "path"; "thread"; "capacity"; "buffer"; "max_message_length"; "latency"]
  else if type =? "syslog" then ["name"; "type"; "level"; "ident"; "thread"; "capacity"; "buffer"; "max_message_length"; "latency"]
  else ["name"; "type"; "level"; "sinks"].
Definition group_properties : list string := ["name"; "is_fallback"; "sink"; "level"; "children"].
Definition document_properties : list string := ["sinks"; "groups"].

Section Spec.
Variable L : lib.

(** An integer that is not acceptable (negative buffers are another matter: C58). *)
Definition bad_number (good : string -> Z -> Prop) (v : node) : Prop :=
  forall t, v = NScalar t -> exists z, as_int L t = Some z /\ ~ good t z.
Definition no_level (v : node) : Prop := forall t l, v = NScalar t -> ~ level_name t l.

(** The value [v] of the property cannot be used. *)
Inductive unusable (type : string) : string -> node -> Prop :=
| u_level v : no_level v -> unusable type "level" v
| u_color v : type = "console" -> (forall t, v <> NScalar t) -> unusable type "color" v
| u_stream v : type = "console" -> (forall t s, v = NScalar t -> ~ means_stream t s) -> unusable type "stream" v
| u_thread v : type <> "multisink" -> (forall t i, v = NScalar t -> ~ means_thread t i) -> unusable type "thread" v
| u_capacity v : type <> "multisink" -> bad_number good_capacity v -> unusable type "capacity" v
| u_buffer v : type <> "multisink" -> bad_number (fun t z => (z < 0)%Z \/ good_buffer L t z) v -> unusable type "buffer" v
| u_message v : type <> "multisink" -> bad_number (good_message (type =? "console")) v -> unusable type "max_message_length" v
| u_latency v : type <> "multisink" -> bad_number good_latency v -> unusable type "latency" v.

(** One thing less in the list of sinks: an element that is no map, a property that is not
    documented, or one with an unusable value. *)
Inductive sinks_less : list node -> list node -> Prop :=
| sl_element n l : ~ is_map n -> sinks_less (n :: l) l
| sl_unknown type m key l :
    In type ["console"; "file"; "syslog"; "multisink"] -> has_type (NMap m) type ->
    ~ In key (sink_properties type) -> sinks_less (NMap m :: l) (NMap (without key m) :: l)
| sl_unusable type m key v l :
    In type ["console"; "file"; "syslog"; "multisink"] -> has_type (NMap m) type ->
    get (NMap m) key = Some v -> unusable type key v -> sinks_less (NMap m :: l) (NMap (without key m) :: l)
| sl_next n l l' : sinks_less l l' -> sinks_less (n :: l) (n :: l').

(** One thing less in a list of groups, or below it; the level counts only if the group is
    inside another one. *)
Inductive groups_less : bool -> list node -> list node -> Prop :=
| gl_element inside n l : ~ is_map n -> groups_less inside (n :: l) l
| gl_unknown inside m key l : ~ In key group_properties -> groups_less inside (NMap m :: l) (NMap (without key m) :: l)
| gl_level m v l : get (NMap m) "level" = Some v -> no_level v -> groups_less true (NMap m :: l) (NMap (without "level" m) :: l)
| gl_children inside m1 c c' m2 l :
    get (NMap m1) "children" = None -> groups_less true c c' ->
    groups_less inside (NMap (m1 ++ (NScalar "children", NSeq c) :: m2) :: l)
                       (NMap (m1 ++ (NScalar "children", NSeq c') :: m2) :: l)
| gl_next inside n l l' : groups_less inside l l' -> groups_less inside (n :: l) (n :: l').

(** One thing less in a document. *)
Inductive doc_less : node -> node -> Prop :=
| dl_unknown m key : ~ In key document_properties -> doc_less (NMap m) (NMap (without key m))
| dl_sinks m1 s s' m2 : get (NMap m1) "sinks" = None -> sinks_less s s' ->
    doc_less (NMap (m1 ++ (NScalar "sinks", NSeq s) :: m2)) (NMap (m1 ++ (NScalar "sinks", NSeq s') :: m2))
| dl_groups m1 g g' m2 : get (NMap m1) "groups" = None -> groups_less false g g' ->
    doc_less (NMap (m1 ++ (NScalar "groups", NSeq g) :: m2)) (NMap (m1 ++ (NScalar "groups", NSeq g') :: m2)).

(** Any number of things less. *)
Inductive tidied : node -> node -> Prop :=
| t_same d : tidied d d
| t_less d d' d'' : doc_less d d' -> tidied d' d'' -> tidied d d''.

End Spec.

(** The same end: both return (whatever they report), or the same exception, or neither ends. *)
Definition same_end {A} (x y : res A) : Prop :=
  match x, y with
  | Val _, Val _ => True
  | Exn e, Exn e' => e = e'
  | Stuck, Stuck => True
  | _, _ => False
  end.
