(** * Model of the configurators
      (src/impl/configurator_from_yaml.cpp, src/impl/fallback_configurator.cpp)

    A document is the tree that yaml-cpp built from the text; the text format itself
    is not modelled.  A tree cannot contain itself (an alias to an enclosing anchor).
    Conversions of scalars, which yaml-cpp defines, and exceptions of the sinks'
    constructors are parameters ([lib]).  A line of errors_ is a string without the
    final newline.  The calls made on the logging system are recorded. *)

From Coq Require Import String List Arith ZArith NArith Bool Decimal DecimalString.
From Verif Require Import Base LevelModel EventModel SinkConfig SysModel.
Import ListNotations.
Local Open Scope string_scope.
Local Open Scope list_scope.

Notation "a +++ b" := (String.append a b) (at level 60, right associativity).

(** YAML::Node *)
Inductive node :=
| NNull
| NScalar (text : string)
| NSeq (items : list node)
| NMap (items : list (node * node)).

Fixpoint depth (n : node) : nat :=
  match n with
  | NNull | NScalar _ => 0
  | NSeq l => S ((fix go l := match l with [] => 0 | x :: l' => Nat.max (depth x) (go l') end) l)
  | NMap l => S ((fix go (l : list (node * node)) :=
                    match l with [] => 0 | (_, x) :: l' => Nat.max (depth x) (go l') end) l)
  end.

(** node["key"]; [None]: not defined. *)
Fixpoint get_in (l : list (node * node)) (key : string) : option node :=
  match l with
  | [] => None
  | (NScalar k, v) :: l' => if String.eqb k key then Some v else get_in l' key
  | _ :: l' => get_in l' key
  end.
Definition get (n : node) (key : string) : option node :=
  match n with NMap l => get_in l key | _ => None end.

(** SinkToConsole::Stream (sink_to_console.hpp:22-25). *)
Inductive stream := STDOUT | STDERR.

(** Arguments of the constructors (sink_to_console.cpp:136-144, sink_to_file.cpp:73-80,
    sink_to_syslog.cpp:75-82, multisink.cpp:16-18); members of a composite are numbers
    of sinks. *)
Record sizes := mkSizes { z_capacity : option N; z_message : option N; z_buffer : option N; z_latency : option N }.
Inductive kind :=
| KConsole (st : stream) (color : bool) (ti : thread_info) (z : sizes)
| KFile (path : string) (ti : thread_info) (z : sizes)
| KSyslog (ident : string) (ti : thread_info) (z : sizes)
| KMulti (members : list nat).
Record sink_desc := mkDesc { d_name : string; d_level : level; d_kind : kind }.

Record lib := mkLib {
  null_text : option string;         (* as<string>() of a null; None: throws *)
  as_int : string -> option Z;       (* as<int>() of a scalar; None: throws *)
  as_bool : string -> option bool;   (* as<bool>() of a scalar; None: throws *)
  conv_what : node -> string;        (* what() of a failed conversion *)
  event_size : N;                    (* sizeof(Event) *)
  build : sink_desc -> option string;(* what() of the constructor's exception *)
  without_debug : bool;              (* WITHOUT_DEBUG_LOG_LEVEL is defined *)
  without_trace : bool               (* WITHOUT_TRACE_LOG_LEVEL is defined *)
}.

(** debug_level_disable, trace_level_disabled (27-44). *)
Definition debug_disabled (L : lib) : bool := without_debug L && without_trace L.
Definition trace_disabled (L : lib) : bool := without_trace L.

Inductive action := ASink (d : sink_desc) | ACall (c : call).
Definition call_of (a : action) : call :=
  match a with ASink d => MakeSink (d_name d) | ACall c => c end.

(** The logging system, syslog_is_opened_ (which is never cleared: C36), and what has
    been called. *)
Record world := mkWorld { w_sys : sys; w_busy : bool; w_log : list action }.

(** A value, an exception, or no return at all. *)
Inductive res (A : Type) := Val (a : A) | Exn (what : string) | Stuck.
Arguments Val {A} a.
Arguments Exn {A} what.
Arguments Stuck {A}.

(** Applicator (configurator_from_yaml.hpp:106-112). *)
Record app := mkApp { a_world : world; a_lines : list string; a_err : bool; a_warn : bool }.

Definition M (A : Type) := app -> app * res A.
Definition pure {A} (x : A) : M A := fun a => (a, Val x).
Definition bind {A B} (m : M A) (f : A -> M B) : M B := fun a =>
  match m a with
  | (a', Val x) => f x a'
  | (a', Exn w) => (a', Exn w)
  | (a', Stuck) => (a', Stuck)
  end.
Notation "x <- m ;; f" := (bind m (fun x => f)) (at level 61, m at next level, right associativity).
Notation "m ;;; f" := (bind m (fun _ => f)) (at level 61, right associativity).

Definition throw {A} (w : string) : M A := fun a => (a, Exn w).

(** errors_ << ...; has_error_ = true; has_warning_ = true *)
Definition say (e w : bool) (line : string) : M unit := fun a =>
  (mkApp (a_world a) (a_lines a ++ [line]) (a_err a || e) (a_warn a || w), Val tt).
Definition error := say true false.
Definition warning := say false true.

Definition int_text (z : Z) : string := NilZero.string_of_int (Z.to_int z).
Definition index_text (i : nat) : string := int_text (Z.of_nat i).

(** int to size_t *)
Definition to_size (z : Z) : N := Z.to_N (z mod 2 ^ 64).

Section Configurator.
Variable L : lib.
Variable ord : list nat -> list nat.
Variable fuel : nat.
Variable dbg : bool.

(** ** Access to the system *)

Definition get_sink (n : string) : M (option nat) := fun a => (a, Val (find (smap (w_sys (a_world a))) n)).
Definition get_group (n : string) : M (option nat) := fun a => (a, Val (find (gmap (w_sys (a_world a))) n)).

(** What a constructor of Group says (group.cpp:15-40). *)
Definition group_what (s : sys) (p k : option string) : string :=
  match p, k with
  | Some p, _ => match find (gmap s) p, k with
                 | None, _ => "Provided parent group does not exist yet"
                 | _, _ => "Provided sink does not exist yet"
                 end
  | None, Some k => match find (smap s) k with
                    | None => "Provided sink does not exist yet"
                    | _ => "Level is not provided for root group"
                    end
  | None, None => "Level is not provided for root group"
  end.

Definition world_call (c : call) (w : world) : world * res unit :=
  let '(s', o) := step ord fuel dbg (w_sys w) c in
  let w' := mkWorld s' (w_busy w) (w_log w ++ [ACall c]) in
  (w', match o with
       | RThrow => match c with
                   | MakeGroup _ p k _ => Exn (group_what (w_sys w) p k)
                   | _ => Exn ""            (* no other call made here throws *)
                   end
       | RHang | RUB => Stuck
       | _ => Val tt
       end).

(** makeSink (logging_system.hpp:117-123); the constructor of the syslog sink also
    throws if another one was created (sink_to_syslog.cpp:92-97). *)
Definition syslog_what : string := "SinkToSyslog has not created: Syslog already opened".
Definition world_sink (d : sink_desc) (w : world) : world * res unit :=
  match build L d with
  | Some what => (w, Exn what)
  | None =>
      let is_syslog := match d_kind d with KSyslog _ _ _ => true | _ => false end in
      if is_syslog && w_busy w then (w, Exn syslog_what)
      else
        let '(s', _) := step ord fuel dbg (w_sys w) (MakeSink (d_name d)) in
        (mkWorld s' (w_busy w || is_syslog) (w_log w ++ [ASink d]), Val tt)
  end.

Definition on_world (f : world -> world * res unit) : M unit := fun a =>
  let '(w', r) := f (a_world a) in (mkApp w' (a_lines a) (a_err a) (a_warn a), r).
Definition do_call (c : call) : M unit := on_world (world_call c).
Definition make_sink (d : sink_desc) : M unit := on_world (world_sink d).

(** ** Conversions *)

(** as<std::string>() *)
Definition as_string (n : node) : M string :=
  match n with
  | NScalar t => pure t
  | NNull => match null_text L with Some t => pure t | None => throw (conv_what L n) end
  | _ => throw (conv_what L n)
  end.
Definition to_int (t : string) : M Z :=
  match as_int L t with Some z => pure z | None => throw (conv_what L (NScalar t)) end.
Definition to_bool (t : string) : M bool :=
  match as_bool L t with Some b => pure b | None => throw (conv_what L (NScalar t)) end.
(** as<std::vector<std::string>>() of a sequence *)
Fixpoint as_strings (l : list node) : M (list string) :=
  match l with
  | [] => pure []
  | n :: l' => t <- as_string n ;; ts <- as_strings l' ;; pure (t :: ts)
  end.

(** The loops over the properties of a node (409-446, 578-613, 747-782, 821-838,
    960-981): keys other than the given ones are reported. *)
Fixpoint check_keys_in (known : list string) (line : string -> string) (l : list (node * node)) : M unit :=
  match l with
  | [] => pure tt
  | (k, _) :: l' =>
      t <- as_string k ;;
      (if existsb (String.eqb t) known then pure tt else warning (line t)) ;;;
      check_keys_in known line l'
  end.
Definition check_keys (known : list string) (line : string -> string) (n : node) : M unit :=
  match n with NMap l => check_keys_in known line l | _ => pure tt end.

(** ** parseLevel (164-218) *)
Definition parse_level (target : string) (n : node) : M (option level) :=
  match get n "level" with
  | None => pure None
  | Some (NScalar t) =>
      if t =? "off" then pure (Some OFF)
      else if (t =? "critical") || (t =? "crit") then pure (Some CRITICAL)
      else if t =? "error" then pure (Some ERROR)
      else if (t =? "warning") || (t =? "warn") then pure (Some WARN)
      else if t =? "info" then pure (Some INFO)
      else if t =? "verbose" then pure (Some VERBOSE)
      else if (t =? "debug") || (t =? "deb") then
        (if debug_disabled L
         then warning ("W: Level 'debug' in " +++ target +++ " won't work: it has disabled with compile option")
         else pure tt) ;;; pure (Some DEBUG)
      else if t =? "trace" then
        (if trace_disabled L
         then warning ("W: Level 'trace' in " +++ target +++ " won't work: it has disabled with compile option")
         else pure tt) ;;; pure (Some TRACE)
      else error ("E: Invalid level in " +++ target +++ ": " +++ t) ;;; pure None
  | Some _ => error ("E: Property 'level' of " +++ target +++ " is not scalar") ;;; pure None
  end.

(** ** Properties of sinks *)

(** color (286-294) *)
Definition parse_color (n : node) : M bool :=
  match get n "color" with
  | None => pure false
  | Some (NScalar t) => to_bool t
  | Some _ => warning "W: Property 'color' of sink node is not true or false" ;;; pure false
  end.

(** stream (296-314) *)
Definition parse_stream (n : node) : M stream :=
  match get n "stream" with
  | None => pure STDOUT
  | Some (NScalar t) =>
      if t =? "stdout" then pure STDOUT
      else if t =? "stderr" then pure STDERR
      else warning "W: Property 'stream' of sink node is not stdout or stderr" ;;; pure STDOUT
  | Some _ => warning "W: Property 'stream' of sink node is not stdout or stderr" ;;; pure STDOUT
  end.

(** thread (316-333, 485-502, 654-671) *)
Definition parse_thread (name : string) (n : node) : M thread_info :=
  match get n "thread" with
  | None => pure TI_NONE
  | Some (NScalar t) =>
      if t =? "name" then pure TI_NAME
      else if t =? "id" then pure TI_ID
      else if t =? "none" then pure TI_NONE
      else warning ("W: Wrong property 'thread' value of sink '" +++ name +++ "': " +++ t) ;;; pure TI_NONE
  | Some _ => warning "W: Property 'thread' of sink node is not scalar" ;;; pure TI_NONE
  end.

(** The common form of the four numbers. *)
Definition parse_number (key wrong : string) (good : string -> Z -> bool) (name : string) (n : node)
    : M (option N) :=
  match get n key with
  | None => pure None
  | Some (NScalar t) =>
      z <- to_int t ;;
      if good t z then pure (Some (to_size z))
      else warning ("W: " +++ wrong +++ " value of sink '" +++ name +++ "': " +++ t) ;;; pure None
  | Some _ => warning ("W: Property '" +++ key +++ "' of sink node is not scalar") ;;; pure None
  end.

(** capacity (335-350, 504-519, 673-688) *)
Definition parse_capacity := parse_number "capacity" "Wrong property 'capacity'" (fun _ z => (4 <=? z)%Z).
(** buffer (352-367, 521-536, 690-705): the comparison is between size_t's. *)
Definition parse_buffer := parse_number "buffer" "Wrong property 'buffer'"
  (fun _ z => (event_size L * 4 <=? to_size z)%N).
(** max_message_length: > 64 for the console (369-386), >= 64 for the others (538-555, 707-724) *)
Definition parse_message (console : bool) := parse_number "max_message_length" "Wrong property 'max_message_length'"
  (fun _ z => if console then (64 <? z)%Z else (64 <=? z)%Z).
(** latency (388-404, 557-573, 726-742) *)
Definition parse_latency := parse_number "latency" "Wrong value of property 'latency'"
  (fun t z => (int_text z =? t) && (0 <=? z)%Z).

Definition parse_sizes (console : bool) (name : string) (n : node) : M sizes :=
  cap <- parse_capacity name n ;;
  buf <- parse_buffer name n ;;
  msg <- parse_message console name n ;;
  lat <- parse_latency name n ;;
  pure (mkSizes cap msg buf lat).

Definition sink_level (name : string) (n : node) : M level :=
  l <- parse_level ("sink '" +++ name +++ "'") n ;;
  pure (match l with Some l => l | None => TRACE end).

(** if (system_.getSink(name)) (448-452, 618-622, 787-791) *)
Definition warn_existing (name : string) : M unit :=
  k <- get_sink name ;;
  match k with
  | Some _ => warning ("W: Already exists sink with name '" +++ name +++ "'; Previous version will be overridden")
  | None => pure tt
  end.

(** parseSinkToConsole (276-463) *)
Definition parse_console (name : string) (n : node) : M unit :=
  color <- parse_color n ;;
  str <- parse_stream n ;;
  ti <- parse_thread name n ;;
  z <- parse_sizes true name n ;;
  lv <- sink_level name n ;;
  check_keys ["name"; "type"; "stream"; "color"; "thread"; "capacity"; "buffer"; "max_message_length";
              "latency"; "level"]
    (fun k => "W: Unknown property of sink '" +++ name +++ "' with type 'console': " +++ k) n ;;;
  warn_existing name ;;;
  make_sink (mkDesc name lv (KConsole str color ti z)).

(** A required scalar (474-483, 643-652): is it there? *)
Definition require (key : string) (name : string) (n : node) : M (option string) :=
  match get n key with
  | None => error ("E: Not found '" +++ key +++ "' of sink '" +++ name +++ "'") ;;; pure None
  | Some (NScalar t) => pure (Some t)
  | Some _ => error ("E: Property '" +++ key +++ "' of sink '" +++ name +++ "' is not scalar") ;;; pure None
  end.

(** parseSinkToFile (465-632), parseSinkToSyslog (634-801). *)
Definition parse_with (key : string) (mk : string -> thread_info -> sizes -> kind) (name : string) (n : node) : M unit :=
  text <- require key name n ;;
  ti <- parse_thread name n ;;
  z <- parse_sizes false name n ;;
  lv <- sink_level name n ;;
  check_keys ["name"; "type"; key; "thread"; "capacity"; "buffer"; "max_message_length"; "latency"; "level"]
    (fun k => "W: Unknown property of sink '" +++ name +++ "': " +++ k) n ;;;
  match text with
  | None => pure tt
  | Some t => warn_existing name ;;; make_sink (mkDesc name lv (mk t ti z))
  end.
Definition parse_file := parse_with "path" KFile.
Definition parse_syslog := parse_with "ident" KSyslog.

(** parseMultisink (803-859) *)
Fixpoint find_members (name : string) (l : list string) : M (list nat) :=
  match l with
  | [] => pure []
  | t :: l' =>
      k <- get_sink t ;;
      match k with
      | None => warning ("E: Sink '" +++ t +++ "' must be defined before sink '" +++ name +++ "'") ;;;
                find_members name l'
      | Some k => ks <- find_members name l' ;; pure (k :: ks)
      end
  end.
Definition parse_multisink (name : string) (n : node) : M unit :=
  members <- match get n "sinks" with
             | None => error ("E: Not found 'sinks' of sink '" +++ name +++ "'") ;;; pure None
             | Some (NSeq l) => pure (Some l)
             | Some _ => error ("E: Property 'sinks' of sink '" +++ name +++ "' is not list") ;;; pure None
             end ;;
  lv <- sink_level name n ;;
  check_keys ["name"; "type"; "sinks"; "level"]
    (fun k => "W: Unknown property of sink '" +++ name +++ "': " +++ k) n ;;;
  match members with
  | None => pure tt
  | Some l =>
      names <- as_strings l ;;
      ks <- find_members name names ;;
      make_sink (mkDesc name lv (KMulti ks))
  end.

(** parseSink (220-274).  A missing name does not set has_error_ (225-227). *)
Definition parse_sink (i : nat) (n : node) : M unit :=
  name <- match get n "name" with
          | None => say false false ("E: Not found 'name' of sink node #" +++ index_text i) ;;; pure None
          | Some (NScalar t) => pure (Some t)
          | Some _ => error ("E: Property 'name' of sink node #" +++ index_text i +++ " is not scalar") ;;; pure None
          end ;;
  type <- match get n "type" with
          | None => error ("E: Not found 'type' of sink node #" +++ index_text i) ;;; pure None
          | Some (NScalar t) => pure (Some t)
          | Some _ => error ("E: Property 'type' of sink node #" +++ index_text i +++ "is not scalar") ;;; pure None
          end ;;
  match name, type with
  | Some name, Some type =>
      if name =? "*" then error "E: Sink name '*' is reserved; Try to use some other else"
      else if type =? "console" then parse_console name n
      else if type =? "file" then parse_file name n
      else if type =? "syslog" then parse_syslog name n
      else if type =? "multisink" then parse_multisink name n
      else error ("E: Unknown 'type' of sink node '" +++ name +++ "': " +++ type)
  | _, _ => pure tt
  end.

(** parseSinks (141-162).  An element that is not a map sets no flag (157). *)
Fixpoint parse_sink_list (i : nat) (l : list node) : M unit :=
  match l with
  | [] => pure tt
  | n :: l' =>
      match n with
      | NMap _ => parse_sink i n
      | _ => say false false ("W: Element #" +++ index_text i +++ " of 'sinks' is not a YAML map")
      end ;;; parse_sink_list (S i) l'
  end.
Definition parse_sinks (n : node) : M unit :=
  match n with
  | NNull => error "E: Sinks list is empty"
  | NSeq l => parse_sink_list 0 l
  | _ => error "E: Sinks is not a YAML sequence"
  end.

(** ** Groups *)

(** The part of parseGroup (886-1028) before the children: the name to go on with. *)
Definition parse_group (i : nat) (n : node) (parent : option string) : M (option string) :=
  nm <- match get n "name" with
        | None => error ("W: Not found 'name' of group node #" +++ index_text i) ;;; pure None
        | Some (NScalar t) => pure (Some t)
        | Some _ => error ("E: Property 'name' of group node #" +++ index_text i +++ " is not scalar") ;;; pure None
        end ;;
  let tmp := match nm with Some t => "'" +++ t +++ "'" | None => "node #" +++ index_text i end in
  fallback <- match get n "is_fallback" with
              | None => pure (Some false)
              | Some (NScalar t) => b <- to_bool t ;; pure (Some b)
              | Some _ => error ("E: Property 'is_fallback' of group " +++ tmp +++ " is not scalar") ;;; pure None
              end ;;
  (* sink: what it is, and whether it is wrong *)
  sk <- match get n "sink" with
        | Some (NScalar t) =>
            k <- get_sink t ;;
            match k with
            | None => error ("E: Sink '" +++ t +++ "' of group " +++ tmp +++ " is undefined") ;;; pure (Some t, true)
            | Some _ => pure (Some t, false)
            end
        | Some _ => error ("E: Property 'sink' of group " +++ tmp +++ " is not scalar") ;;; pure (None, true)
        | None => pure (match parent with None => Some "*" | Some _ => None end, false)
        end ;;
  no_level <- match get n "level", parent with
              | None, None => error ("E: Not found 'level' of root group " +++ tmp) ;;; pure true
              | _, _ => pure false
              end ;;
  lv <- parse_level ("group '" +++ tmp +++ "'") n ;;
  bad_children <- match get n "children" with
                  | None | Some NNull | Some (NSeq _) => pure false
                  | Some _ => error ("E: Property 'children' of group " +++ tmp +++ " is not sequence") ;;; pure true
                  end ;;
  check_keys ["name"; "is_fallback"; "sink"; "level"; "children"]
    (fun k => "W: Unknown property of group " +++ tmp +++ ": " +++ k) n ;;;
  match fst sk with
  | None => pure tt
  | Some t => k <- get_sink t ;;
              match k with
              | None => error ("E: Unknown sink in group " +++ tmp +++ ": " +++ t)
              | Some _ => pure tt
              end
  end ;;;
  match nm, fallback, snd sk || no_level || bad_children with
  | Some name, Some is_fallback, false =>
      if name =? "*" then error "E: Group name '*' is reserved; Try to use some other else" ;;; pure None
      else
        g <- get_group name ;;
        match g with
        | Some _ =>
            match parent with Some p => do_call (SetParentOfGroup name p) | None => pure tt end ;;;
            match fst sk with Some k => do_call (SetSinkOfGroup name k) | None => pure tt end ;;;
            match lv with Some l => do_call (SetLevelOfGroup name l) | None => pure tt end
        | None => do_call (MakeGroup name parent (fst sk) lv)
        end ;;;
        (if is_fallback then do_call (SetFallbackGroup name) else pure tt) ;;;
        pure (Some name)
  | _, _, _ =>
      warning ("W: There are probably more bugs in the group " +++ tmp +++ "; Fix the existing ones first.") ;;;
      pure None
  end.

(** parseGroups (861-884) and the end of parseGroup (1025-1027); [f] bounds the depth,
    see [parse]. *)
Section Rec.
Variable children : node -> option string -> M unit.
Fixpoint parse_group_list (i : nat) (l : list node) (parent : option string) : M unit :=
  match l with
  | [] => pure tt
  | n :: l' =>
      match n with
      | NMap _ =>
          name <- parse_group i n parent ;;
          match name, get n "children" with
          | Some t, Some (NSeq c) => children (NSeq c) (Some t)
          | _, _ => pure tt
          end
      | _ => error ("E: Element #" +++ index_text i +++ " of 'groups' is not a map")
      end ;;;
      parse_group_list (S i) l' parent
  end.
End Rec.
Fixpoint parse_groups (f : nat) (n : node) (parent : option string) : M unit :=
  match f with
  | O => fun a => (a, Stuck)
  | S f' =>
      match n with
      | NNull => error "E: Node 'groups' is empty"
      | NSeq l => parse_group_list (parse_groups f') 0 l parent
      | _ => error "E: Node 'groups' is not a sequence"
      end
  end.

(** parse (105-139) *)
Definition parse (n : node) : M unit :=
  match n with
  | NMap l =>
      (match get n "groups" with None => error "E: Groups are undefined" | Some _ => pure tt end) ;;;
      check_keys ["sinks"; "groups"] (fun k => "W: Unknown property: " +++ k) n ;;;
      (match get n "sinks" with Some s => parse_sinks s | None => pure tt end) ;;;
      (match get n "groups" with Some g => parse_groups (S (depth g)) g None | None => pure tt end)
  | _ => error "E: Config is not YAML map"
  end.

(** ** Configurators *)

Definition configurator := world -> world * res result.

(** The text of the document, already loaded or refused by yaml-cpp; for a file also the
    printed form of weakly_canonical(path), or its exception. *)
Inductive source :=
| FromContent (loaded : node + string)
| FromFile (canonical : string + string) (loaded : node + string).

(** Applicator::run (55-103), applyOn (50-53). *)
Definition load (src : source) : M (option node) :=
  match src with
  | FromContent (inl n) | FromFile _ (inl n) => pure (Some n)
  | FromContent (inr what) => error ("E: Can't parse content: " +++ what) ;;; pure None
  | FromFile (inl p) (inr what) => error ("E: Can't parse file " +++ p +++ ": " +++ what) ;;; pure None
  | FromFile (inr what') (inr _) => throw what'
  end.
Definition yaml (previous : option configurator) (src : source) : configurator := fun w =>
  let '(w0, r0) := match previous with
                   | Some c => c w
                   | None => (w, Val (mkResult false false []))
                   end in
  match r0 with
  | Exn what => (w0, Exn what)
  | Stuck => (w0, Stuck)
  | Val r0 =>
      let '(a, r) := (n <- load src ;; match n with Some n => parse n | None => pure tt end)
                       (mkApp w0 [] false false) in
      (a_world a,
       match r with
       | Exn what => Exn what
       | Stuck => Stuck
       | Val _ => Val (mkResult (has_error r0 || a_err a) (has_warning r0 || a_warn a)
                         (message r0 ++ if a_err a || a_warn a
                                        then "I: Some problems are found in config:" :: a_lines a
                                        else []))
       end)
  end.

(** FallbackConfigurator::applyOn (fallback_configurator.cpp:16-29).  The last line of
    the message has no newline. *)
Definition fallback (lv : level) (color : bool) : configurator := fun w =>
  match world_sink (mkDesc "console" lv (KConsole STDOUT color TI_NONE (mkSizes None None None None))) w with
  | (w1, Val _) =>
      match world_call (MakeGroup "*" None (Some "console") (Some lv)) w1 with
      | (w2, Val _) =>
          (w2, Val (mkResult false true
                 ["I: Using fallback configurator for logger system";
                  "I: All logs will be write into " +++ (if color then "color " else "") +++
                  "standard output with '" +++ string_of_list_ascii (levelToStr lv) +++ "' level"]))
      | (w2, Exn what) => (w2, Exn what)
      | (w2, Stuck) => (w2, Stuck)
      end
  | (w1, Exn what) => (w1, Exn what)
  | (w1, Stuck) => (w1, Stuck)
  end.

(** What the configurator does to a system, for LoggingSystem::configure
    ([SysModel.configure]); [busy]: a syslog sink was created before. *)
Definition script_of (c : configurator) (busy : bool) (s : sys) : script :=
  let '(w, r) := c (mkWorld (with_configured s) busy []) in
  mkScript (map call_of (w_log w))
    (match r with
     | Val r => inl r
     | Exn what => inr what
     | Stuck => inr ""      (* the calls do not return: configure does not look at this *)
     end).

(** ** The sizes a constructor uses (value_or, and Sink's constructor: SinkConfig) *)
Definition or_default (o : option N) (d : N) : N := match o with Some x => x | None => d end.
Record used := mkUsed { u_capacity : N; u_message : N; u_buffer : N; u_latency : N }.
Definition used_sizes (k : kind) : option used :=
  let mk z c m b l :=
    Some (mkUsed (or_default (z_capacity z) c) (or_default (z_message z) m)
                 (auto_fix (or_default (z_message z) m) (or_default (z_buffer z) b))
                 (or_default (z_latency z) l)) in
  match k with
  | KConsole _ _ _ z => mk z console_capacity_default console_max_message_default
                          console_buffer_default console_latency_default
  | KFile _ _ z | KSyslog _ _ z => mk z file_capacity_default file_max_message_default
                                      file_buffer_default file_latency_default
  | KMulti _ => None
  end.

End Configurator.
