(** * Vocabulary for C117: from the document to the files *)
From Coq Require Import Ascii String NArith List Arith Bool.
From Verif Require Import Base LevelModel SinkConfig SysModel SysSpec YamlModel YamlSpec DeployModel.
From Verif Require EventModel RecordModel RecordSpec SinkModel SinkSpec TreeSpec TreeModel PoolModel PoolSpec EndModel EndSpec.
Import ListNotations.
Local Open Scope string_scope.
Local Open Scope list_scope.

(** ** What a document says *)

(** The level and the name of the sink in force for group [g], below a group where [lv] and [sk]
    are in force: those of the nearest enclosing group that gives them. *)
Fixpoint in_force (lv : level) (sk : string) (g : string) (d : gdecl) : option (level * string) :=
  match d with
  | GDecl name _ s l children =>
      let lv := match l with Some l => l | None => lv end in
      let sk := match s with Some s => s | None => sk end in
      if String.eqb name g then Some (lv, sk)
      else (fix each ch := match ch with
                           | [] => None
                           | c :: ch' => match in_force lv sk g c with Some x => Some x | None => each ch' end
                           end) children
  end.
Definition first_in_force (lv : level) (sk : string) (g : string) : list gdecl -> option (level * string) :=
  fix each ch := match ch with
                 | [] => None
                 | c :: ch' => match in_force lv sk g c with Some x => Some x | None => each ch' end
                 end.
Definition group_settings (gs : list gdecl) (g : string) : option (level * string) := first_in_force OFF "*" g gs.

(** The number of the sink of a name: its place in the document, from 1 (the last one of that
    name); the null sink is number 0. *)
Fixpoint number_from (next : nat) (ds : list sink_desc) (name : string) (k : nat) : nat :=
  match ds with
  | [] => k
  | d :: ds' => number_from (S next) ds' name (if String.eqb (d_name d) name then next else k)
  end.
Definition sink_number (ds : list sink_desc) (name : string) : nat := number_from 1 ds name 0.

(** ** What happened *)
Section Trace.
(** The calls of thread [t] that logged something, in order: with a logger of which group. *)
Definition said_by (t : nat) (tr : list dlabel) : list (string * logger * said) :=
  flat_map (fun x => match x with DSaid u g L e => if Nat.eqb u t then [(g, L, e)] else [] | DIn _ => [] end) tr.
(** What happened inside the sinks; in leaf sink [id]. *)
Definition inside (tr : list dlabel) : list (PoolModel.plabel said) :=
  flat_map (fun x => match x with DIn y => [y] | DSaid _ _ _ _ => [] end) tr.
Definition in_sink (id : nat) (tr : list dlabel) : list (SinkModel.label said) := PoolSpec.leaf_trace id (inside tr).
End Trace.

(** How often an event of level [l] given to sink number [k] is to reach leaf sink [id]: once for
    each way on which all levels let it pass.  Sink after sink in the order of the document: *)
Definition next_ways (id : nat) (l : level) (before : list nat) (d : sink_desc) : list nat :=
  before ++ [if TreeSpec.passes_b l (d_level d) then
               match d_kind d with
               | KMulti ks => list_sum (map (fun k => nth k before 0) ks)
               | _ => if Nat.eqb (List.length before) id then 1 else 0
               end
             else 0].
Definition ways (ds : list sink_desc) (id : nat) (l : level) (k : nat) : nat :=
  nth k (fold_left (next_ways id l) ds [0]) 0.

(** The event carries the name of the logger. *)
Definition named (L : logger) (e : said) : said :=
  mkSaid (x_clock e) (x_tname e) (x_tnum e) (x_level e) (bs (l_name L)) (x_result e) (x_format e).

(** A call as sink [id] takes it down: with the clock read there. *)
Definition taken_down (id : nat) (e : said) : EndModel.logged := {|
  EndModel.g_time := x_clock e id; EndModel.g_tname := x_tname e; EndModel.g_tnum := x_tnum e; EndModel.g_level := x_level e;
  EndModel.g_name := x_name e; EndModel.g_result := x_result e; EndModel.g_format := x_format e |}.

(** What a call is to bring to leaf sink [id], by the settings of its logger at the moment, *)
Definition brings (ds : list sink_desc) (id : nat) (x : string * logger * said) : list said :=
  let '(_, L, e) := x in
  match l_sink L with
  | Some k => if TreeSpec.passes_b (x_level e) (l_level L) then repeat (named L e) (ways ds id (x_level e) k) else []
  | None => []
  end.
(** and by what the document says about its group. *)
Definition due (gs : list gdecl) (ds : list sink_desc) (id : nat) (x : string * logger * said) : list said :=
  let '(g, L, e) := x in
  match group_settings gs g with
  | Some (lv, name) =>
      if TreeSpec.passes_b (x_level e) lv then repeat (named L e) (ways ds id (x_level e) (sink_number ds name)) else []
  | None => []
  end.

(** ** Programs that leave the configuration as it is: they get loggers, without settings of their
    own, drop them, log, flush and rotate. *)
Definition plain (m : dmove) : Prop :=
  match m with
  | DSys (GetLogger _ _ None None) | DSys (LDrop _) | DSys (SwapG _) | DSys (SwapL _) => True
  | DGet _ _ _ None None _ => True
  | DSys _ | DGet _ _ _ _ _ _ => False
  | _ => True
  end.

(** The world before configure(). *)
Definition before_configure (busy : bool) : world := mkWorld (with_configured init) busy [].

(** Local times of two digits, an address; the configurator knows the size of an event. *)
Definition platform_ok (L : lib) (lt : N -> RecordModel.tm) (address : N) : Prop :=
  (forall s, RecordSpec.tm_ok (lt s)) /\ (address + EventModel.sizeof_Event < 2 ^ 64)%N /\ (EventModel.sizeof_Event <= event_size L)%N.

(** ** The group meant by a name given to getLogger(): the one of that name in the document; else
    the last one marked as the fallback, else the first. *)
Definition fallback_of (gs : list gdecl) : option string :=
  match filter e_fallback (rev (all_entries None gs)), all_entries None gs with
  | e :: _, _ => Some (e_name e)
  | [], e :: _ => Some (e_name e)
  | [], [] => None
  end.
Definition in_document (gs : list gdecl) (g : string) : bool := existsb (String.eqb g) (map e_name (all_entries None gs)).
Definition group_meant (gs : list gdecl) (g : string) : option string :=
  if existsb (String.eqb g) (map e_name (all_entries None gs)) then Some g else fallback_of gs.

(** getLogger(x, g), called by thread [t]; what it warns of when group [g'] takes the place of [g]. *)
Definition asks (x g : string) (t : nat) (e : said) (m : dmove) : Prop :=
  m = DSys (GetLogger x g None None) \/ m = DGet t x g None None e.
Definition complaint (x g g' : string) : string :=
  if String.eqb g "*"
  then "Default group (calling with name '*') is deprecated and should not used anymore; Define existing group explicitly"
  else String.concat "" ["Group '"; g; "' for logger '"; x; "' is not found. Fallback group will be used (it is group '"; g'; "' right now)."].
