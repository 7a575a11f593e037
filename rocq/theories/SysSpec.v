(** * Vocabulary for the properties of the logging system (C41-C55) *)
From Coq Require Import String List Arith Bool Permutation.
From Verif Require Import Base LevelModel SysModel.
Import ListNotations.

(** [x] gets a property from [g] through parents: [ov] tells which groups have their
    own. *)
Inductive inherits (ov : group -> bool) (s : sys) (g : nat) : nat -> Prop :=
| inh_self : inherits ov s g g
| inh_parent x X y : nth_error (groups s) x = Some X -> ov X = false -> g_parent X = Some y ->
    inherits ov s g y -> inherits ov s g x.

(** Proper ancestors. *)
Inductive ancestor (s : sys) (a : nat) : nat -> Prop :=
| anc_parent x X : nth_error (groups s) x = Some X -> g_parent X = Some a -> ancestor s a x
| anc_step x X y : nth_error (groups s) x = Some X -> g_parent X = Some y -> ancestor s a y -> ancestor s a x.

Definition acyclic (s : sys) : Prop := forall x, ~ ancestor s x x.

(** The system can be reached from construction by calls satisfying [ok]. *)
Section Reach.
Variable ord : list nat -> list nat.
Variable dbg : bool.
Variable ok : sys -> call -> Prop.

(** Enough depth of recursion for the groups there are. *)
Definition enough (s : sys) : nat := length (groups s).

Inductive reachable : sys -> Prop :=
| reach_init : reachable init
| reach_call s c : reachable s -> ok s c -> reachable (fst (step ord (enough s) dbg s c))
| reach_configure s : reachable s -> reachable (with_configured s).
End Reach.

(** The assumptions about histories: *)

(** A call does not make a group its own parent. *)
Definition no_self_parent (s : sys) (c : call) : Prop :=
  match c with
  | SetParentOfGroup g p => find (gmap s) g <> find (gmap s) p \/ find (gmap s) g = None
  | _ => True
  end.

(** It does not take away the last name of a group that has a parent. *)
Definition last_name (s : sys) (n : string) : Prop :=
  exists i x, find (gmap s) n = Some i /\ nth_error (groups s) i = Some x /\ g_parent x <> None /\
    forall n', n' <> n -> find (gmap s) n' <> Some i.
Definition keeps_names (s : sys) (c : call) : Prop :=
  match c with
  | MakeGroup n _ _ _ => ~ last_name s n
  | SetFallbackGroup _ => ~ last_name s "*"
  | _ => True
  end.

Definition usual (s : sys) (c : call) : Prop := no_self_parent s c /\ keeps_names s c.

(** Roots are made with a sink. *)
Definition roots_have_sinks (s : sys) (c : call) : Prop :=
  match c with MakeGroup _ None None _ => False | _ => True end.

(** The registered live logger of a name. *)
Definition live_named (s : sys) (n : string) (i : nat) : Prop :=
  In (n, i) (lmap s) /\ exists x, nth_error (loggers s) i = Some x /\ l_alive x = true.

(** Nothing observable differs: only entries of dead loggers may have gone. *)
Definition same (s s' : sys) : Prop :=
  groups s' = groups s /\ loggers s' = loggers s /\ sinks s' = sinks s /\ gmap s' = gmap s /\
  smap s' = smap s /\ configured s' = configured s /\
  forall n i, live_named s' n i <-> live_named s n i.

(** Fields other than the level / the sink of groups and loggers. *)
Definition g_but_level (x : group) := (g_name x, g_parent x, g_sink x, g_sov x).
Definition g_but_sink (x : group) := (g_name x, g_parent x, g_level x, g_lov x).
Definition l_but_level (x : logger) := (l_name x, l_group x, l_sink x, l_sov x, l_alive x).
Definition l_but_sink (x : logger) := (l_name x, l_group x, l_level x, l_lov x, l_alive x).

(** Is this entry of the map of loggers one of a live logger? *)
Definition alive_in (ls : list logger) (e : string * nat) : bool :=
  match nth_error ls (snd e) with Some L => l_alive L | None => false end.

(** The rest of the system: only entries of dead loggers go. *)
Definition rest_same (s s' : sys) : Prop :=
  length (groups s') = length (groups s) /\ length (loggers s') = length (loggers s) /\
  sinks s' = sinks s /\ gmap s' = gmap s /\ smap s' = smap s /\ configured s' = configured s /\
  lmap s' = filter (alive_in (loggers s)) (lmap s).

(** [g]'s level became [l]: so did that of the groups and loggers that get theirs from
    [g], and nothing else changed; [b]: is the level of [g] now its own? *)
Definition level_changed (s s' : sys) (g : nat) (l : level) (b : bool) : Prop :=
  rest_same s s' /\
  (forall x X, nth_error (groups s) x = Some X -> exists X', nth_error (groups s') x = Some X' /\
     g_but_level X' = g_but_level X /\ g_lov X' = (if Nat.eqb x g then b else g_lov X) /\
     (inherits g_lov s g x -> g_level X' = l) /\ (~ inherits g_lov s g x -> g_level X' = g_level X)) /\
  (forall i L, nth_error (loggers s) i = Some L -> exists L', nth_error (loggers s') i = Some L' /\
     l_but_level L' = l_but_level L /\ l_lov L' = l_lov L /\
     (l_alive L = true -> l_lov L = false -> inherits g_lov s g (l_group L) -> l_level L' = l) /\
     (~ (l_alive L = true /\ l_lov L = false /\ inherits g_lov s g (l_group L)) -> l_level L' = l_level L)).

(** Likewise for sinks.  (A logger does not take over a null sink.) *)
Definition sink_changed (s s' : sys) (g : nat) (k : option nat) (b : bool) : Prop :=
  rest_same s s' /\
  (forall x X, nth_error (groups s) x = Some X -> exists X', nth_error (groups s') x = Some X' /\
     g_but_sink X' = g_but_sink X /\ g_sov X' = (if Nat.eqb x g then b else g_sov X) /\
     (inherits g_sov s g x -> g_sink X' = k) /\ (~ inherits g_sov s g x -> g_sink X' = g_sink X)) /\
  (forall i L, nth_error (loggers s) i = Some L -> exists L', nth_error (loggers s') i = Some L' /\
     l_but_sink L' = l_but_sink L /\ l_sov L' = l_sov L /\
     (l_alive L = true -> l_sov L = false -> inherits g_sov s g (l_group L) -> k <> None -> l_sink L' = k) /\
     (~ (l_alive L = true /\ l_sov L = false /\ inherits g_sov s g (l_group L) /\ k <> None) -> l_sink L' = l_sink L)).

(** [g] has the parent [p] ([None]: none) and with it the level [l] and the sink [k],
    which the groups and loggers now getting theirs from [g] share; a parent that was a
    child of [g] has become a root; nothing else changed. *)
Definition parent_changed (s s' : sys) (g : nat) (p : option nat) (l : level) (k : option nat) : Prop :=
  rest_same s s' /\
  (forall x X, nth_error (groups s) x = Some X -> exists X', nth_error (groups s') x = Some X' /\
     g_name X' = g_name X /\ g_sov X' = g_sov X /\ g_lov X' = g_lov X /\
     g_parent X' = (if Nat.eqb x g then p
                    else if oeqb p (Some x) && oeqb (g_parent X) (Some g) then None
                    else g_parent X) /\
     (inherits g_lov s' g x -> g_level X' = l) /\ (~ inherits g_lov s' g x -> g_level X' = g_level X) /\
     (inherits g_sov s' g x -> g_sink X' = k) /\ (~ inherits g_sov s' g x -> g_sink X' = g_sink X)) /\
  (forall i L, nth_error (loggers s) i = Some L -> exists L', nth_error (loggers s') i = Some L' /\
     l_name L' = l_name L /\ l_group L' = l_group L /\ l_sov L' = l_sov L /\ l_lov L' = l_lov L /\ l_alive L' = l_alive L /\
     (l_alive L = true -> l_lov L = false -> inherits g_lov s' g (l_group L) -> l_level L' = l) /\
     (~ (l_alive L = true /\ l_lov L = false /\ inherits g_lov s' g (l_group L)) -> l_level L' = l_level L) /\
     (l_alive L = true -> l_sov L = false -> inherits g_sov s' g (l_group L) -> k <> None -> l_sink L' = k) /\
     (~ (l_alive L = true /\ l_sov L = false /\ inherits g_sov s' g (l_group L) /\ k <> None) -> l_sink L' = l_sink L)).

(** ** Names *)

Definition group_named (s : sys) (n : string) (i : nat) : Prop := find (gmap s) n = Some i.
Definition sink_named (s : sys) (n : string) (i : nat) : Prop := find (smap s) n = Some i.

(** Making [p] the parent of [g] would close a cycle of three or more groups. *)
Definition would_cycle (s : sys) (g p : nat) : Prop :=
  ancestor s g p /\ forall P, nth_error (groups s) p = Some P -> g_parent P <> Some g.

(** The calls returning bool, and when they should succeed. *)
Definition succeeds (s : sys) (c : call) : option Prop :=
  match c with
  | SetFallbackGroup g => Some (exists i, group_named s g i)
  | SetParentOfGroup g p => Some (exists i j, group_named s g i /\ group_named s p j /\ ~ would_cycle s i j)
  | UnsetParentOfGroup g | ResetSinkOfGroup g | SetLevelOfGroup g _ | ResetLevelOfGroup g =>
      Some (exists i, group_named s g i)
  | SetSinkOfGroup g k => Some (exists i j, group_named s g i /\ sink_named s k j)
  | SetGroupOfLogger x g => Some (exists i j, live_named s x i /\ group_named s g j)
  | SetSinkOfLogger x k => Some (exists i j, live_named s x i /\ sink_named s k j)
  | ResetSinkOfLogger x | SetLevelOfLogger x _ | ResetLevelOfLogger x => Some (exists i, live_named s x i)
  | _ => None
  end.

(** The logger a request for name [x], group [g], sink [k] and level [lv] gets.  A sink
    that is not known is not used. *)
Definition is_new_logger (s : sys) (x : string) (g : nat) (G : group) (k : option string) (lv : option level)
    (L : logger) : Prop :=
  l_name L = x /\ l_group L = g /\ l_alive L = true /\
  match lv with
  | Some l => l_level L = l /\ l_lov L = true
  | None => l_level L = g_level G /\ l_lov L = false
  end /\
  match (match k with Some n => find (smap s) n | None => None end) with
  | Some i => l_sink L = Some i /\ l_sov L = true
  | None => l_sink L = g_sink G /\ l_sov L = false
  end.

(** The group made from the given attributes. *)
Definition is_new_group (s : sys) (n : string) (p k : option string) (lv : option level) (X : group) : Prop :=
  g_name X = n /\
  match p with
  | None => g_parent X = None /\ lv = Some (g_level X) /\ g_lov X = false /\ g_sov X = false /\
      g_sink X = match k with Some kn => find (smap s) kn | None => None end
  | Some pn => exists i Y, group_named s pn i /\ nth_error (groups s) i = Some Y /\ g_parent X = Some i /\
      match lv with
      | Some l => g_level X = l /\ g_lov X = true
      | None => g_level X = g_level Y /\ g_lov X = false
      end /\
      match k with
      | Some kn => g_sink X = find (smap s) kn /\ g_sov X = true
      | None => g_sink X = g_sink Y /\ g_sov X = false
      end
  end.

(** Arguments with which a group can be made. *)
Definition makeable (s : sys) (p k : option string) (lv : option level) : Prop :=
  (forall n, p = Some n -> exists i, group_named s n i) /\
  (forall n, k = Some n -> exists i, sink_named s n i) /\
  (p = None -> lv <> None).

(** Histories in which roots are made with sinks. *)
Definition usual_sinks (s : sys) (c : call) : Prop := usual s c /\ roots_have_sinks s c.

(** Everything has a sink. *)
Definition all_sinks (s : sys) : Prop :=
  (forall x X, nth_error (groups s) x = Some X -> exists k n, g_sink X = Some k /\ nth_error (sinks s) k = Some n) /\
  (forall i L, nth_error (loggers s) i = Some L -> exists k n, l_sink L = Some k /\ nth_error (sinks s) k = Some n).

(** ** configure() *)

(** A group other than the fallback one whose sink is the one to nowhere. *)
Definition sends_nowhere (s : sys) (e : string * nat) : bool :=
  negb (String.eqb (fst e) "*") &&
  match nth_error (groups s) (snd e) with
  | Some G => match g_sink G with
              | Some k => match nth_error (sinks s) k with Some n => String.eqb n "*" | None => false end
              | None => false
              end
  | None => false
  end.

Definition nowhere_warning (e : string * nat) : string :=
  ("W: Group '" ++ fst e ++ "' has undefined sink; Sink to nowhere will be used")%string.

(** No call of the configurator hung or was undefined. *)
Definition all_returned (os : list out) : Prop := ~ In RHang os /\ ~ In RUB os.

(** ** Loggers *)

(** Only logger [i] differs, and is now [L']. *)
Definition only_logger (s s' : sys) (i : nat) (L' : logger) : Prop :=
  groups s' = groups s /\ sinks s' = sinks s /\ gmap s' = gmap s /\ lmap s' = lmap s /\ smap s' = smap s /\
  configured s' = configured s /\ length (loggers s') = length (loggers s) /\
  nth_error (loggers s') i = Some L' /\
  forall j, j <> i -> nth_error (loggers s') j = nth_error (loggers s) j.

(** [L] with another level / sink. *)
Definition relevel (L : logger) (l : level) (own : bool) : logger :=
  mkLogger (l_name L) (l_group L) (l_sink L) (l_sov L) l own (l_alive L).
Definition resink (L : logger) (k : option nat) (own : bool) : logger :=
  mkLogger (l_name L) (l_group L) k own (l_level L) (l_lov L) (l_alive L).

(** ** makeGroup in its two parts *)

(** A call other than makeGroup, by somebody who does not have the new object. *)
Definition apart (s : sys) (c : call) : Prop :=
  match c with
  | MakeGroup _ _ _ _ => False
  | LSetLevelFromGroup _ g | LSetSinkFromGroup _ g | LSetGroup _ g => g < length (groups s)
  | _ => True
  end.

(** [c] happens between the construction of a group and its registration. *)
Definition interleaved (ord : list nat -> list nat) (fuel : nat) (dbg : bool) (s : sys)
    (n : string) (p k : option string) (lv : option level) (c : call) : option (sys * nat * out) :=
  match construct s n p k lv with
  | None => None
  | Some (s1, i) => let '(s2, o) := step ord fuel dbg s1 c in Some (register s2 i n, i, o)
  end.

(** The object the constructor makes. *)
Definition object (s : sys) (n : string) (p k : option string) (lv : option level) : option group :=
  match construct s n p k lv with Some (s1, i) => nth_error (groups s1) i | None => None end.

(** ** Histories *)

(** [s'] is reached from [s] by calls satisfying [ok]. *)
Inductive follows (ord : list nat -> list nat) (dbg : bool) (ok : sys -> call -> Prop) (s : sys) : sys -> Prop :=
| fol_refl : follows ord dbg ok s s
| fol_call s1 c : follows ord dbg ok s s1 -> ok s1 c -> follows ord dbg ok s (fst (step ord (enough s1) dbg s1 c))
| fol_configure s1 : follows ord dbg ok s s1 -> follows ord dbg ok s (with_configured s1).

(** Calls that set the level / the sink of group [x]. *)
Definition sets_level (s : sys) (x : nat) (c : call) : Prop :=
  match c with SetLevelOfGroup n _ | ResetLevelOfGroup n => group_named s n x | _ => False end.
Definition sets_sink (s : sys) (x : nat) (c : call) : Prop :=
  match c with SetSinkOfGroup n _ | ResetSinkOfGroup n => group_named s n x | _ => False end.

(** Calls that choose the fallback group. *)
Definition sets_fallback (c : call) : Prop :=
  match c with SetFallbackGroup _ => True | MakeGroup n _ _ _ => n = "*"%string | _ => False end.

(** Each of the calls satisfies [ok] when it is made. *)
Fixpoint each_ok (ord : list nat -> list nat) (fuel : nat) (dbg : bool) (ok : sys -> call -> Prop) (s : sys) (cs : list call) : Prop :=
  match cs with
  | [] => True
  | c :: cs' => ok s c /\ each_ok ord fuel dbg ok (fst (step ord fuel dbg s c)) cs'
  end.

(** ** A program using the system: its calls, configure() among them *)
Inductive act := ACall (c : call) | AConfigure (sc : script).

Definition perform (ord : list nat -> list nat) (dbg : bool) (fuel : nat) (s : sys) (a : act) : sys :=
  match a with
  | ACall c => fst (step ord fuel dbg s c)
  | AConfigure sc => fst (configure ord fuel dbg s sc)
  end.
Definition after (ord : list nat -> list nat) (dbg : bool) (fuel : nat) (h : list act) : sys :=
  fold_left (perform ord dbg fuel) h init.

Definition configures (a : act) : bool := match a with AConfigure _ => true | ACall _ => false end.
