(** * A program configured by a document, logging from many threads
      (src/impl/configurator_from_yaml.cpp, src/logging_system.cpp, include/soralog/logger.hpp:38-72,
      src/impl/sink_to_file.cpp:75-97, src/impl/sink_to_console.cpp:136-158,
      src/impl/sink_to_syslog.cpp:77-105)

    Joins YamlModel (what a document makes of the system), SysModel (the system afterwards),
    PoolModel (many threads logging through composites) and EndModel (events and records).

    Simplifications:
    - A function of the system is one step (C92), and so is the reading of the level and the
      sink of a logger at the beginning of a call (C83).
    - The sinks that the program will have made are numbered from the beginning, with the ones of
      the configuration; one that is to be made later is there, unused, from the beginning ([next_made]:
      it gets the next number).  Nobody can have a logger or a group that uses it before it is made,
      nor flush or rotate it.
    - Sinks are destroyed only after the system and all loggers are gone (C96).
    - getLogger() is one step together with the beginning of the warning it may log; thereby the
      logger exists before the warning is in the sinks.
    - Syslog sinks have no records here; their messages follow from the execution (SyslogRunModel).
    - If a sink occurs twice below a composite, both copies of an event carry the same time. *)

From Coq Require Import Ascii String NArith List Arith Bool.
From Verif Require Import Base LevelModel SinkConfig SysModel SysSpec YamlModel.
From Verif Require EventModel RecordModel SinkModel TreeModel PoolModel EndModel.
Import ListNotations.
Local Open Scope string_scope.
Local Open Scope list_scope.

(** What a call hands over; the clock is read by each leaf sink (event.hpp:46-112). *)
Record said := mkSaid {
  x_clock : nat -> N;              (* what leaf sink number ... reads *)
  x_tname : bytes;
  x_tnum : N;
  x_level : level;
  x_name : bytes;                  (* of the logger *)
  x_result : EventModel.fmt_result;
  x_format : bytes
}.
Definition logged_at (id : nat) (e : said) : EndModel.logged :=
  EndModel.mkLogged (x_clock e id) (x_tname e) (x_tnum e) (x_level e) (x_name e) (x_result e) (x_format e).

(** Logger::push hands over the name (logger.hpp:48). *)
Definition by_logger (L : logger) (e : said) : said :=
  mkSaid (x_clock e) (x_tname e) (x_tnum e) (x_level e) (bs (l_name L)) (x_result e) (x_format e).

Section Deploy.
Variable lt : N -> RecordModel.tm.       (* fmt::localtime *)
Variable memory : EventModel.mem.
Variable address : N.
Variable fg_first : bool.                (* order of two styles, see RecordModel *)

(** The settings a constructor uses (sink_to_file.cpp:84-89, sink_to_console.cpp:148-154,
    sink_to_syslog.cpp:86-91). *)
Definition file_settings (lv : level) (ti : EventModel.thread_info) (z : sizes) : EndModel.fsettings :=
  EndModel.mkFs lv ti (N.to_nat (or_default (z_capacity z) file_capacity_default))
    (N.to_nat (or_default (z_message z) file_max_message_default)) (or_default (z_buffer z) file_buffer_default)
    (N.eqb (or_default (z_latency z) file_latency_default) 0) lt memory address.
Definition console_settings (lv : level) (ti : EventModel.thread_info) (z : sizes) : EndModel.fsettings :=
  EndModel.mkFs lv ti (N.to_nat (or_default (z_capacity z) console_capacity_default))
    (N.to_nat (or_default (z_message z) console_max_message_default)) (or_default (z_buffer z) console_buffer_default)
    (N.eqb (or_default (z_latency z) console_latency_default) 0) lt memory address.

(** The record of a console sink (sink_to_console.cpp:197-298). *)
Definition console_record (color : bool) (F : EndModel.fsettings) (e : EndModel.logged) : bytes :=
  match RecordModel.to_ev (EndModel.stored F e) with
  | Some v => match RecordModel.console_format color fg_first (N.to_nat (EndModel.buff_size F)) lt (EndModel.f_thread F) v with
              | Some t => t
              | None => []
              end
  | None => []
  end.

(** Leaf sink number [id], with the settings [F], of some kind. *)
Definition leaf_cfg (k : SinkModel.sink_kind) (id : nat) (F : EndModel.fsettings) (record : EndModel.logged -> bytes)
    : SinkModel.cfg said :=
  let C := EndModel.file_sink F in
  SinkModel.mkCfg k (SinkModel.c_cap C) (SinkModel.c_lat0 C) (SinkModel.c_threshold C) (SinkModel.c_level C)
    (fun e => SinkModel.c_msize C (logged_at id e)) (fun e => record (logged_at id e)).

(** The sinks, in the order of their making; number 0 is the null sink "*"
    (logging_system.cpp:31). *)
Variable ds : list sink_desc.
Definition count : nat := S (List.length ds).

Definition cfg_at (id : nat) : SinkModel.cfg said :=
  let F0 := file_settings OFF EventModel.TI_NONE (mkSizes None None None None) in
  match id with
  | O => leaf_cfg SinkModel.KFile 0 F0 (fun _ => [])          (* not a leaf *)
  | S j =>
      match nth_error ds j with
      | Some d =>
          match d_kind d with
          | KFile _ ti z => let F := file_settings (d_level d) ti z in
              leaf_cfg SinkModel.KFile id F (SinkModel.c_render (EndModel.file_sink F))
          | KConsole _ color ti z => let F := console_settings (d_level d) ti z in
              leaf_cfg SinkModel.KConsole id F (console_record color F)
          | KSyslog _ ti z => leaf_cfg SinkModel.KSyslog id (file_settings (d_level d) ti z) (fun _ => [])
          | KMulti _ => leaf_cfg SinkModel.KFile id F0 (fun _ => [])   (* not a leaf *)
          end
      | None => leaf_cfg SinkModel.KFile id F0 (fun _ => [])
      end
  end.

(** The composites (multisink.cpp:16-18); null sinks have numbers from [count] on. *)
Definition null_sink : TreeModel.tree := TreeModel.Nowhere count.
Definition next_tree (ts : list TreeModel.tree) (d : sink_desc) : list TreeModel.tree :=
  ts ++ [match d_kind d with
         | KMulti ks => TreeModel.Multi (d_level d) (map (fun k => nth k ts null_sink) ks)
         | _ => TreeModel.Leaf (List.length ts) (d_level d)
         end].
Definition trees : list TreeModel.tree := fold_left next_tree ds [null_sink].
Definition tree_at (k : nat) : TreeModel.tree := nth k trees null_sink.

Variable op : nat -> bool.               (* whether a file could be opened *)
Variable n : nat.                        (* threads *)
Variable ord : list nat -> list nat.
Variable dbg : bool.

Record dstate := mkD {
  d_sys : sys;
  d_pool : PoolModel.pstate said;
  d_up : bool                            (* the system and the loggers exist *)
}.

Inductive dmove :=
| DSys (c : call)                        (* a function of the system, or of a logger *)
| DGet (t : nat) (x g : string) (k : option string) (lv : option level) (e : said)
                                         (* thread t: a getLogger() that warns; [e]: clock and thread of the warning *)
| DLog (t i : nat) (e : said)            (* thread t logs with logger i *)
| DFlush (t k : nat)                     (* flush(), rotate() of sink k, if it was made *)
| DRotate (t k : nat)
| DEnd                                   (* the system and the loggers are let go *)
| DPool (m : PoolModel.pmove said).      (* something else happens in the sinks *)

Inductive dlabel :=
| DSaid (t : nat) (g : string) (L : logger) (e : said)   (* with logger [L] of the group named [g] *)
| DIn (x : PoolModel.plabel said).

Definition in_pool (s : dstate) (m : PoolModel.pmove said) : dstate * list (PoolModel.plabel said) :=
  let '(p, ls) := PoolModel.pstep count cfg_at n (d_pool s) m in (mkD (d_sys s) p (d_up s), ls).

(** The warnings of getLogger() (logging_system.cpp:116-139): with a temporary logger "Soralog" of
    the fallback group, which is not entered in the map of loggers (:52-58, logger.cpp:17-25).
    [None]: none, or the group has no sink ([SysModel.can_warn]). *)
Definition by_fallback (s : sys) (text : group -> string) : option (logger * group * string) :=
  match find (gmap s) "*" with
  | Some i => match nth_error (groups s) i with
              | Some y => match g_sink y with
                          | Some _ => Some (l_construct "Soralog" i y, y, text y)
                          | None => None
                          end
              | None => None
              end
  | None => None
  end.
Definition star_text : string :=         (* :117-119 *)
  "Default group (calling with name '*') is deprecated and should not used anymore; Define existing group explicitly".
Definition missing_text (x g : string) (y : group) : string :=   (* :133-138 *)
  String.append "Group '" (String.append g (String.append "' for logger '" (String.append x
    (String.append "' is not found. Fallback group will be used (it is group '" (String.append (g_name y) "' right now)."))))).
Definition warning (s : sys) (x g : string) : option (logger * group * string) :=
  if negb (configured s) then None       (* :106-108 throws *)
  else match live s x with
       | Some _ => None                  (* :110-114 *)
       | None =>
           if String.eqb g "*" then if dbg then None else by_fallback s (fun _ => star_text)
           else match find (gmap s) g with
                | Some _ => None
                | None => by_fallback s (missing_text x g)
                end
       end.
(** logger.hpp:38-59, :69: Logger::warn; the texts have no fields to be filled in. *)
Definition warned (e : said) (text : string) : said :=
  mkSaid (x_clock e) (x_tname e) (x_tnum e) WARN (x_name e) (EventModel.FmtOk (bs text)) (bs text).

(** makeSink() (logging_system.hpp:117-123) of the next of the sinks [ds]. *)
Definition next_made (s : sys) (name : string) : bool :=
  match nth_error ds (List.length (sinks s) - 1) with Some d => String.eqb (d_name d) name | None => false end.

(** Functions of the system that log nothing. *)
Definition silent (s : sys) (c : call) : bool :=
  match c with
  | GetLogger x g _ _ => match warning s x g with Some _ => false | None => true end
  | MakeSink name => next_made s name
  | _ => true
  end.

Definition dstep (s : dstate) (m : dmove) : dstate * list dlabel :=
  match m with
  | DSys c =>
      if d_up s && silent (d_sys s) c
      then (mkD (fst (step ord (enough (d_sys s)) dbg (d_sys s) c)) (d_pool s) true, [])
      else (s, [])
  | DGet t x g k lv e =>
      (* the logger is made in the same step as the call on the sink begins: nobody else is in a
         function of the system meanwhile (:104), and thread t is busy until the call is over *)
      match warning (d_sys s) x g with
      | Some (L, G, text) =>
          match l_sink L with
          | Some w =>
              if d_up s then
                let '(s', ls) :=
                  in_pool s (PoolModel.XStart t (PoolModel.OLog (l_level L) (tree_at w) WARN (by_logger L (warned e text)))) in
                match ls with
                | [] => (s, [])
                | _ => (mkD (fst (step ord (enough (d_sys s)) dbg (d_sys s) (GetLogger x g k lv))) (d_pool s') true,
                        DSaid t (g_name G) L (warned e text) :: map DIn ls)
                end
              else (s, [])
          | None => (s, [])
          end
      | None => (s, [])
      end
  | DLog t i e =>
      match nth_error (loggers (d_sys s)) i with
      | Some L =>
          match nth_error (groups (d_sys s)) (l_group L), l_sink L with
          | Some G, Some k =>
              if d_up s && l_alive L then
                let '(s', ls) :=
                  in_pool s (PoolModel.XStart t (PoolModel.OLog (l_level L) (tree_at k) (x_level e) (by_logger L e))) in
                (s', match ls with [] => [] | _ => [DSaid t (g_name G) L e] end ++ map DIn ls)
              else (s, [])
          | _, _ => (s, [])
          end
      | None => (s, [])
      end
  | DFlush t k =>
      if d_up s && Nat.ltb k (List.length (sinks (d_sys s))) then let '(s', ls) := in_pool s (PoolModel.XStart t (PoolModel.OFlush (tree_at k))) in (s', map DIn ls) else (s, [])
  | DRotate t k =>
      if d_up s && Nat.ltb k (List.length (sinks (d_sys s))) then let '(s', ls) := in_pool s (PoolModel.XStart t (PoolModel.ORotate (tree_at k))) in (s', map DIn ls) else (s, [])
  | DEnd => (mkD (d_sys s) (d_pool s) false, [])
  | DPool m =>
      let ok := match m with PoolModel.XStart _ _ => false | PoolModel.XDestroy _ _ => negb (d_up s) | _ => true end in
      if ok then let '(s', ls) := in_pool s m in (s', map DIn ls) else (s, [])
  end.

Fixpoint dexec (s : dstate) (ms : list dmove) : dstate * list dlabel :=
  match ms with
  | [] => (s, [])
  | m :: ms' => let '(s1, l1) := dstep s m in let '(s2, l2) := dexec s1 ms' in (s2, l1 ++ l2)
  end.

(** After configure(): the system [s0], the sinks as constructed. *)
Definition dstart (s0 : sys) : dstate := mkD s0 (PoolModel.pinit cfg_at op n) true.
End Deploy.
