(** * Model of groups, loggers and the logging system
      (src/group.cpp, src/logger.cpp, src/logging_system.cpp, include/soralog/logging_system.hpp)

    Objects are numbered in the order of their creation; a shared_ptr is a number.
    The three unordered_maps are association lists in iteration order, which may
    change between calls ([SwapG], [SwapL]).  A std::set of groups is iterated in
    address order: [ord] is any rearrangement.

    Calls are atomic (all but makeGroup run under one recursive mutex; makeGroup is
    modelled in its two parts, [construct] and [register]).  Groups are changed only
    through the system; loggers also directly.

    Of getLogger's warnings only whether emitting them is possible; the events are in
    DeployModel ([DeployModel.warning]).  Calls on Group objects are in GroupModel. *)

From Coq Require Import String List Arith Bool.
From Verif Require Import Base LevelModel.
Import ListNotations.

(** Group (group.hpp:154-164). *)
Record group := mkGroup {
  g_name : string;
  g_parent : option nat;        (* parent_group_ *)
  g_sink : option nat;          (* sink_; None: null *)
  g_sov : bool;                 (* is_sink_overridden_ *)
  g_level : level;              (* level_ *)
  g_lov : bool                  (* is_level_overridden_ *)
}.

(** Logger (logger.hpp:295-306); [l_alive]: somebody holds it. *)
Record logger := mkLogger {
  l_name : string;
  l_group : nat;
  l_sink : option nat;
  l_sov : bool;
  l_level : level;
  l_lov : bool;
  l_alive : bool
}.

(** LoggingSystem (logging_system.hpp:276-281); [sinks]: the names of all sinks made. *)
Record sys := mkSys {
  groups : list group;
  loggers : list logger;
  sinks : list string;
  gmap : list (string * nat);   (* groups_ *)
  lmap : list (string * nat);   (* loggers_ *)
  smap : list (string * nat);   (* sinks_ *)
  configured : bool             (* is_configured_ *)
}.

(** ** Maps and heaps *)

Fixpoint find (m : list (string * nat)) (k : string) : option nat :=
  match m with
  | [] => None
  | (k', v) :: m' => if String.eqb k' k then Some v else find m' k
  end.

(** m[k] = v *)
Fixpoint assign (m : list (string * nat)) (k : string) (v : nat) : list (string * nat) :=
  match m with
  | [] => [(k, v)]
  | (k', v') :: m' => if String.eqb k' k then (k', v) :: m' else (k', v') :: assign m' k v
  end.

(** m.erase(find(k)) *)
Definition erase (m : list (string * nat)) (k : string) : list (string * nat) :=
  filter (fun x => negb (String.eqb (fst x) k)) m.

Fixpoint set_at {A} (l : list A) (i : nat) (x : A) : list A :=
  match l, i with
  | [], _ => []
  | _ :: l', O => x :: l'
  | y :: l', S i' => y :: set_at l' i' x
  end.

Definition oeqb (a b : option nat) : bool :=
  match a, b with Some x, Some y => Nat.eqb x y | None, None => true | _, _ => false end.

Definition with_groups (s : sys) (gs : list group) : sys :=
  mkSys gs (loggers s) (sinks s) (gmap s) (lmap s) (smap s) (configured s).
Definition with_gmap (s : sys) (m : list (string * nat)) : sys :=
  mkSys (groups s) (loggers s) (sinks s) m (lmap s) (smap s) (configured s).
Definition with_loggers (s : sys) (ls : list logger) (m : list (string * nat)) : sys :=
  mkSys (groups s) ls (sinks s) (gmap s) m (smap s) (configured s).
Definition with_configured (s : sys) : sys :=
  mkSys (groups s) (loggers s) (sinks s) (gmap s) (lmap s) (smap s) true.

(** LoggingSystem::LoggingSystem (logging_system.cpp:22-25): makeSink("*"). *)
Definition init : sys := mkSys [] [] ["*"%string] [] [] [("*"%string, 0)] false.

(** ** Group *)

(** resetLevel, resetSink (group.cpp:44-49, 72-77); [p]: the parent, if any. *)
Definition g_reset_level (p : option group) (x : group) : group :=
  match p with
  | Some y => mkGroup (g_name x) (g_parent x) (g_sink x) (g_sov x) (g_level y) false
  | None => x
  end.
Definition g_reset_sink (p : option group) (x : group) : group :=
  match p with
  | Some y => mkGroup (g_name x) (g_parent x) (g_sink y) false (g_level x) (g_lov x)
  | None => x
  end.

(** setLevel, setSink (group.cpp:51-56, 79-85). *)
Definition g_set_level (l : level) (x : group) : group :=
  mkGroup (g_name x) (g_parent x) (g_sink x) (g_sov x) l
          (match g_parent x with Some _ => true | None => g_lov x end).
Definition g_set_sink (k : nat) (x : group) : group :=
  mkGroup (g_name x) (g_parent x) (Some k) (match g_parent x with Some _ => true | None => g_sov x end)
          (g_level x) (g_lov x).

(** setLevelFromGroup, setSinkFromGroup (group.cpp:58-62, 93-97); [i]: number of group [y]. *)
Definition g_level_from (i : nat) (y : group) (x : group) : group :=
  mkGroup (g_name x) (g_parent x) (g_sink x) (g_sov x) (g_level y) (negb (oeqb (Some i) (g_parent x))).
Definition g_sink_from (i : nat) (y : group) (x : group) : group :=
  mkGroup (g_name x) (g_parent x) (g_sink y) (negb (oeqb (Some i) (g_parent x))) (g_level x) (g_lov x).

(** unsetParentGroup (group.cpp:107-109). *)
Definition g_unset_parent (x : group) : group :=
  mkGroup (g_name x) None (g_sink x) (g_sov x) (g_level x) (g_lov x).

(** setParentGroup (group.cpp:111-121). *)
Definition g_set_parent (p : option (nat * group)) (x : group) : group :=
  match p with
  | None => g_unset_parent x
  | Some (i, y) =>
      let x := mkGroup (g_name x) (Some i) (g_sink x) (g_sov x) (g_level x) (g_lov x) in
      let x := if g_sov x then x else g_sink_from i y x in
      if g_lov x then x else g_level_from i y x
  end.

(** Group::Group (group.cpp:15-40) with the names already looked up ([None]: not
    found); fields start as null, false, Level{} = OFF (group.hpp:158-164). *)
Definition g_construct (name : string) (parent : option (option (nat * group)))
    (sink : option (option nat)) (lv : option level) : option group :=
  let x := mkGroup name None None false OFF false in
  match (match parent with
         | None => Some x
         | Some None => None                       (* throw *)
         | Some (Some p) => Some (g_set_parent (Some p) x)
         end) with
  | None => None
  | Some x =>
      match (match sink with
             | None => Some x
             | Some None => None                   (* throw *)
             | Some (Some k) => Some (g_set_sink k x)
             end) with
      | None => None
      | Some x =>
          match lv with
          | Some l => Some (g_set_level l x)
          | None => match g_parent x with
                    | Some _ => Some x
                    | None => None                 (* throw *)
                    end
          end
      end
  end.

(** ** Logger *)

(** setLevel (logger.cpp:32-35), setSink (62-66). *)
Definition l_set_level (l : level) (x : logger) : logger :=
  mkLogger (l_name x) (l_group x) (l_sink x) (l_sov x) l true (l_alive x).
Definition l_set_sink (k : nat) (x : logger) : logger :=
  mkLogger (l_name x) (l_group x) (Some k) true (l_level x) (l_lov x) (l_alive x).

(** setLevelFromGroup (logger.cpp:37-41), setSinkFromGroup (68-74). *)
Definition l_level_from (i : nat) (y : group) (x : logger) : logger :=
  mkLogger (l_name x) (l_group x) (l_sink x) (l_sov x) (g_level y) (negb (Nat.eqb i (l_group x))) (l_alive x).
Definition l_sink_from (i : nat) (y : group) (x : logger) : logger :=
  match g_sink y with
  | Some k => mkLogger (l_name x) (l_group x) (Some k) (negb (Nat.eqb i (l_group x))) (l_level x) (l_lov x) (l_alive x)
  | None => x
  end.

(** resetSink (logger.cpp:51-54); resetLevel (28-30) is setLevelFromGroup(group_). *)
Definition l_reset_sink (y : group) (x : logger) : logger :=
  mkLogger (l_name x) (l_group x) (g_sink y) false (l_level x) (l_lov x) (l_alive x).

(** setGroup (logger.cpp:84-93). *)
Definition l_set_group (i : nat) (y : group) (x : logger) : logger :=
  let x := mkLogger (l_name x) i (l_sink x) (l_sov x) (l_level x) (l_lov x) (l_alive x) in
  let x := if l_sov x then x else l_sink_from i y x in
  if l_lov x then x else l_level_from i y x.

(** Logger::Logger (logger.cpp:15-24). *)
Definition l_construct (name : string) (i : nat) (y : group) : logger :=
  l_level_from i y (l_sink_from i y (mkLogger name i None false OFF false true)).

(** ** Spreading a change below a group
       (logging_system.cpp:186-239, 252-309, 323-378: the same code three times) *)

Definition passed_t := list (nat * option nat).  (* passed_groups; None: -1 *)
Fixpoint assoc (m : passed_t) (k : nat) : option (option nat) :=
  match m with
  | [] => None
  | (k', v) :: m' => if Nat.eqb k' k then Some v else assoc m' k
  end.

(** affecting_groups.resize(n + 1) if necessary; affecting_groups[n].emplace(x). *)
Fixpoint add_stage (n x : nat) (st : list (list nat)) : list (list nat) :=
  match n, st with
  | O, [] => [[x]]
  | O, l :: st' => (if existsb (Nat.eqb x) l then l else l ++ [x]) :: st'
  | S n', [] => [] :: add_stage n' x []
  | S n', l :: st' => l :: add_stage n' x st'
  end.

Section Spread.
Variable ord : list nat -> list nat.

(** The recursive lambda fn; [ov]: its test of the current group.  [None]: the
    recursion is deeper than [fuel]. *)
Fixpoint fn (fuel : nat) (ov : group -> bool) (gs : list group) (g : nat) (passed : passed_t)
    (st : list (list nat)) (cur : nat) : option (option nat * list (list nat)) :=
  match assoc passed cur with
  | Some r => Some (r, st)
  | None =>
      if Nat.eqb cur g then Some (Some 0, st)
      else match nth_error gs cur with
           | None => Some (None, st)                   (* no such object *)
           | Some x =>
               if ov x then Some (None, st)
               else match g_parent x with
                    | None => Some (None, st)
                    | Some p =>
                        match fuel with
                        | O => None
                        | S f =>
                            match fn f ov gs g passed st p with
                            | None => None
                            | Some (None, st') => Some (None, st')
                            | Some (Some n, st') => Some (Some (S n), add_stage n cur st')
                            end
                        end
                    end
           end
  end.

(** for (it : groups_) passed_groups[it.second] = fn(it.second) *)
Fixpoint scan (fuel : nat) (ov : group -> bool) (gs : list group) (g : nat) (passed : passed_t)
    (st : list (list nat)) (m : list (string * nat)) : option (passed_t * list (list nat)) :=
  match m with
  | [] => Some (passed, st)
  | (_, i) :: m' =>
      match fn fuel ov gs g passed st i with
      | None => None
      | Some (r, st') => scan fuel ov gs g ((i, r) :: passed) st' m'
      end
  end.

(** One member of a stage: refreshed from its parent. *)
Definition refresh (up : nat -> group -> group -> group) (gs : list group) (i : nat) : list group :=
  match nth_error gs i with
  | Some x => match g_parent x with
              | Some p => match nth_error gs p with
                          | Some y => set_at gs i (up p y x)
                          | None => gs
                          end
              | None => gs
              end
  | None => gs
  end.
Definition run_stages (up : nat -> group -> group -> group) (gs : list group) (st : list (list nat)) : list group :=
  fold_left (fun gs stage => fold_left (refresh up) (ord stage) gs) st gs.

(** The loop over loggers_: [lup] refreshes a live logger whose group was affected;
    entries of dead loggers are erased. *)
Definition spread_loggers (lup : nat -> group -> logger -> logger) (gs : list group) (passed : passed_t)
    (ls : list logger) (m : list (string * nat)) : list logger * list (string * nat) :=
  fold_left (fun (a : list logger * list (string * nat)) (e : string * nat) =>
    let '(ls, m') := a in
    match nth_error ls (snd e) with
    | Some x =>
        if l_alive x then
          match assoc passed (l_group x), nth_error gs (l_group x) with
          | Some (Some _), Some y => (set_at ls (snd e) (lup (l_group x) y x), m' ++ [e])
          | _, _ => (ls, m' ++ [e])
          end
        else (ls, m')
    | None => (ls, m')
    end) m (ls, []).

Definition spread (fuel : nat) (ov : group -> bool) (up : nat -> group -> group -> group)
    (lup : nat -> group -> logger -> logger) (s : sys) (g : nat) : option sys :=
  match scan fuel ov (groups s) g [] [] (gmap s) with
  | None => None
  | Some (passed, st) =>
      let gs := run_stages up (groups s) st in
      let '(ls, lm) := spread_loggers lup gs passed (loggers s) (lmap s) in
      Some (mkSys gs ls (sinks s) (gmap s) lm (smap s) (configured s))
  end.

Definition up_level (i : nat) (y x : group) : group := g_level_from i y x.
Definition up_sink (i : nat) (y x : group) : group := g_sink_from i y x.
Definition up_parent (i : nat) (y x : group) : group := g_set_parent (Some (i, y)) x.
Definition lup_level (i : nat) (y : group) (x : logger) : logger :=
  if l_lov x then x else l_level_from i y x.
Definition lup_sink (i : nat) (y : group) (x : logger) : logger :=
  if l_sov x then x else l_sink_from i y x.
Definition lup_group (i : nat) (y : group) (x : logger) : logger := l_set_group i y x.

Definition g_both (x : group) : bool := g_lov x && g_sov x.

(** Change of one group. *)
Definition mod_group (s : sys) (g : nat) (f : group -> group) : sys :=
  match nth_error (groups s) g with
  | Some x => with_groups s (set_at (groups s) g (f x))
  | None => s
  end.
Definition parent_of (gs : list group) (g : nat) : option group :=
  match nth_error gs g with
  | Some x => match g_parent x with Some p => nth_error gs p | None => None end
  | None => None
  end.

(** setLevelOfGroup, setSinkOfGroup (logging_system.cpp:312-379, 242-310). *)
Definition set_level_of_group (fuel : nat) (s : sys) (g : nat) (l : option level) : option sys :=
  let s1 := match l with
            | Some l => mod_group s g (g_set_level l)
            | None => mod_group s g (g_reset_level (parent_of (groups s) g))
            end in
  spread fuel g_lov up_level lup_level s1 g.
Definition set_sink_of_group (fuel : nat) (s : sys) (g : nat) (k : option nat) : option sys :=
  let s1 := match k with
            | Some k => mod_group s g (g_set_sink k)
            | None => mod_group s g (g_reset_sink (parent_of (groups s) g))
            end in
  spread fuel g_sov up_sink lup_sink s1 g.

(** setParentOfGroup (logging_system.cpp:176-240). *)
Definition set_parent_of_group (fuel : nat) (s : sys) (g : nat) (p : option nat) : option sys :=
  let s1 := match p with
            | Some p => match nth_error (groups s) p with
                        | Some y => if oeqb (g_parent y) (Some g) then mod_group s p g_unset_parent else s
                        | None => s
                        end
            | None => s
            end in
  let pg := match p with
            | Some i => match nth_error (groups s1) i with Some y => Some (i, y) | None => None end
            | None => None
            end in
  spread fuel g_both up_parent lup_group (mod_group s1 g (g_set_parent pg)) g.

(** The check for recursion (logging_system.cpp:419-427): is [g] among [cur] and its
    ancestors?  [None]: the walk is longer than [fuel]. *)
Fixpoint climbs_to (fuel : nat) (gs : list group) (g : nat) (cur : option nat) : option bool :=
  match cur with
  | None => Some false
  | Some i => if Nat.eqb i g then Some true
              else match fuel with
                   | O => None
                   | S f => climbs_to f gs g (match nth_error gs i with Some x => g_parent x | None => None end)
                   end
  end.

(** ** Calls *)

Inductive call :=
(* LoggingSystem *)
| MakeSink (name : string)
| MakeGroup (name : string) (parent sink : option string) (lv : option level)
| SetFallbackGroup (g : string)
| SetParentOfGroup (g p : string)
| UnsetParentOfGroup (g : string)
| SetSinkOfGroup (g k : string)
| ResetSinkOfGroup (g : string)
| SetLevelOfGroup (g : string) (lv : level)
| ResetLevelOfGroup (g : string)
| SetGroupOfLogger (x g : string)
| SetSinkOfLogger (x k : string)
| ResetSinkOfLogger (x : string)
| SetLevelOfLogger (x : string) (lv : level)
| ResetLevelOfLogger (x : string)
| GetLogger (x g : string) (k : option string) (lv : option level)
(* Logger *)
| LSetLevel (i : nat) (lv : level)
| LResetLevel (i : nat)
| LSetLevelFromGroup (i g : nat)
| LSetSink (i k : nat)
| LResetSink (i : nat)
| LSetSinkFromGroup (i g : nat)
| LSetGroup (i g : nat)
| LDrop (i : nat)                (* the last owner releases the logger *)
(* not calls: a map changes its iteration order *)
| SwapG (i : nat)
| SwapL (i : nat).

Inductive out :=
| RUnit
| RBool (b : bool)
| RSink (i : nat)
| RGroup (i : nat)
| RLogger (i : nat)
| RThrow          (* an exception *)
| RHang           (* does not return *)
| RUB.            (* undefined behaviour *)

Fixpoint swap {A} (i : nat) (l : list A) : list A :=
  match i, l with
  | O, x :: y :: l' => y :: x :: l'
  | S i', x :: l' => x :: swap i' l'
  | _, _ => l
  end.

(** makeGroup (logging_system.cpp:27-40), first part: the object. *)
Definition construct (s : sys) (name : string) (parent sink : option string) (lv : option level)
    : option (sys * nat) :=
  let pg := match parent with
            | None => None
            | Some n => Some (match find (gmap s) n with
                              | Some i => match nth_error (groups s) i with
                                          | Some y => Some (i, y)
                                          | None => None
                                          end
                              | None => None
                              end)
            end in
  let sk := match sink with None => None | Some n => Some (find (smap s) n) end in
  match g_construct name pg sk lv with
  | None => None
  | Some x => Some (with_groups s (groups s ++ [x]), length (groups s))
  end.

(** Second part, under the lock: its registration. *)
Definition register (s : sys) (i : nat) (name : string) : sys :=
  let m := match find (gmap s) "*" with
           | None => assign (gmap s) "*" i
           | Some _ => gmap s
           end in
  with_gmap s (assign m name i).

Definition mod_logger (s : sys) (i : nat) (f : logger -> logger) : sys :=
  match nth_error (loggers s) i with
  | Some x => with_loggers s (set_at (loggers s) i (f x)) (lmap s)
  | None => s
  end.

(** A registered logger that is alive. *)
Definition live (s : sys) (x : string) : option nat :=
  match find (lmap s) x with
  | Some i => match nth_error (loggers s) i with
              | Some l => if l_alive l then Some i else None
              | None => None
              end
  | None => None
  end.

(** loggers_.erase(it) of a registered, dead logger. *)
Definition drop_entry (s : sys) (x : string) : sys := with_loggers s (loggers s) (erase (lmap s) x).

(** Can a warning be logged with a temporary logger of group [y]?  A null sink is
    dereferenced if the level admits warnings (logger.hpp:47-49). *)
Definition can_warn (y : group) : bool :=
  match g_sink y with Some _ => true | None => negb (lle WARN (g_level y)) end.

(** getLogger (logging_system.cpp:99-154).  [dbg]: built without NDEBUG. *)
Definition get_logger (dbg : bool) (s : sys) (x g : string) (k : option string) (lv : option level)
    : sys * out :=
  if negb (configured s) then (s, RThrow)
  else match live s x with
  | Some i => (s, RLogger i)
  | None =>
      let create (i : nat) (y : group) :=
        let l := l_construct x i y in
        let l := match k with
                 | Some n => match find (smap s) n with Some k => l_set_sink k l | None => l end
                 | None => l
                 end in
        let l := match lv with Some v => l_set_level v l | None => l end in
        let j := length (loggers s) in
        (with_loggers s (loggers s ++ [l]) (assign (lmap s) x j), RLogger j) in
      let by_number (i : nat) (warn : bool) :=
        match nth_error (groups s) i with
        | Some y => if warn && negb (can_warn y) then (s, RUB) else create i y
        | None => (s, RUB)
        end in
      if String.eqb g "*" then
        if dbg then (s, RThrow)
        else match find (gmap s) "*" with
             | Some i => by_number i true
             | None => (s, RUB)
             end
      else match find (gmap s) g with
           | Some i => by_number i false
           | None => match find (gmap s) "*" with
                     | Some i => by_number i true
                     | None => (s, RUB)      (* assert, or null dereferenced *)
                     end
           end
  end.

Definition ret (s0 : sys) (o : option sys) : sys * out :=
  match o with Some s' => (s', RBool true) | None => (s0, RHang) end.

Definition step (fuel : nat) (dbg : bool) (s : sys) (c : call) : sys * out :=
  match c with
  | MakeSink n =>                                       (* logging_system.hpp:117-123 *)
      let i := length (sinks s) in
      (mkSys (groups s) (loggers s) (sinks s ++ [n]) (gmap s) (lmap s) (assign (smap s) n i) (configured s), RSink i)
  | MakeGroup n p k lv =>
      match construct s n p k lv with
      | None => (s, RThrow)
      | Some (s', i) => (register s' i n, RGroup i)
      end
  | SetFallbackGroup g =>                               (* 42-50 *)
      match find (gmap s) g with
      | None => (s, RBool false)
      | Some i => (with_gmap s (assign (gmap s) "*" i), RBool true)
      end
  | SetParentOfGroup g p =>                             (* 402-431 *)
      match find (gmap s) g with
      | None => (s, RBool false)
      | Some gi =>
          match find (gmap s) p with
          | None => (s, RBool false)
          | Some pi =>
              let pp := match nth_error (groups s) pi with Some y => g_parent y | None => None end in
              match (if oeqb pp (Some gi) then Some false else climbs_to fuel (groups s) gi pp) with
              | None => (s, RHang)
              | Some true => (s, RBool false)
              | Some false => ret s (set_parent_of_group fuel s gi (Some pi))
              end
          end
      end
  | UnsetParentOfGroup g =>                             (* 433-444 *)
      match find (gmap s) g with
      | None => (s, RBool false)
      | Some gi => ret s (set_parent_of_group fuel s gi None)
      end
  | SetSinkOfGroup g k =>                               (* 446-459 *)
      match find (smap s) k with
      | None => (s, RBool false)
      | Some ki => match find (gmap s) g with
                   | None => (s, RBool false)
                   | Some gi => ret s (set_sink_of_group fuel s gi (Some ki))
                   end
      end
  | ResetSinkOfGroup g =>                               (* 461-470 *)
      match find (gmap s) g with
      | None => (s, RBool false)
      | Some gi => ret s (set_sink_of_group fuel s gi None)
      end
  | SetLevelOfGroup g lv =>                             (* 472-481 *)
      match find (gmap s) g with
      | None => (s, RBool false)
      | Some gi => ret s (set_level_of_group fuel s gi (Some lv))
      end
  | ResetLevelOfGroup g =>                              (* 483-491 *)
      match find (gmap s) g with
      | None => (s, RBool false)
      | Some gi => ret s (set_level_of_group fuel s gi None)
      end
  | SetGroupOfLogger x g =>                             (* 493-506 *)
      match find (gmap s) g with
      | None => (s, RBool false)
      | Some gi =>
          match live s x, nth_error (groups s) gi with
          | Some i, Some y => (mod_logger s i (l_set_group gi y), RBool true)
          | _, _ => (drop_entry s x, RBool false)
          end
      end
  | SetSinkOfLogger x k =>                              (* 508-521 *)
      match find (smap s) k with
      | None => (s, RBool false)
      | Some ki =>
          match live s x with
          | Some i => (mod_logger s i (l_set_sink ki), RBool true)
          | None => (drop_entry s x, RBool false)
          end
      end
  | ResetSinkOfLogger x =>                              (* 523-532 *)
      match live s x with
      | Some i =>
          match nth_error (loggers s) i with
          | Some l => match nth_error (groups s) (l_group l) with
                      | Some y => (mod_logger s i (l_sink_from (l_group l) y), RBool true)
                      | None => (s, RUB)
                      end
          | None => (s, RUB)
          end
      | None => (s, RBool false)
      end
  | SetLevelOfLogger x lv =>                            (* 534-545 *)
      match live s x with
      | Some i => (mod_logger s i (l_set_level lv), RBool true)
      | None => (drop_entry s x, RBool false)
      end
  | ResetLevelOfLogger x =>                             (* 547-557 *)
      match live s x with
      | Some i =>
          match nth_error (loggers s) i with
          | Some l => match nth_error (groups s) (l_group l) with
                      | Some y => (mod_logger s i (l_level_from (l_group l) y), RBool true)
                      | None => (s, RUB)
                      end
          | None => (s, RUB)
          end
      | None => (drop_entry s x, RBool false)
      end
  | GetLogger x g k lv => get_logger dbg s x g k lv
  (* ---- Logger (logger.cpp) ---- *)
  | LSetLevel i lv => (mod_logger s i (l_set_level lv), RUnit)
  | LResetLevel i =>
      match nth_error (loggers s) i with
      | Some l => match nth_error (groups s) (l_group l) with
                  | Some y => (mod_logger s i (l_level_from (l_group l) y), RUnit)
                  | None => (s, RUB)
                  end
      | None => (s, RUB)
      end
  | LSetLevelFromGroup i g =>
      match nth_error (groups s) g with
      | Some y => (mod_logger s i (l_level_from g y), RUnit)
      | None => (s, RUB)
      end
  | LSetSink i k => if Nat.ltb k (length (sinks s)) then (mod_logger s i (l_set_sink k), RUnit) else (s, RUB)
  | LResetSink i =>
      match nth_error (loggers s) i with
      | Some l => match nth_error (groups s) (l_group l) with
                  | Some y => (mod_logger s i (l_reset_sink y), RUnit)
                  | None => (s, RUB)
                  end
      | None => (s, RUB)
      end
  | LSetSinkFromGroup i g =>
      match nth_error (groups s) g with
      | Some y => (mod_logger s i (l_sink_from g y), RUnit)
      | None => (s, RUB)
      end
  | LSetGroup i g =>
      match nth_error (groups s) g with
      | Some y => (mod_logger s i (l_set_group g y), RUnit)
      | None => (s, RUB)
      end
  | LDrop i => (mod_logger s i (fun x => mkLogger (l_name x) (l_group x) (l_sink x) (l_sov x)
                                                  (l_level x) (l_lov x) false), RUnit)
  | SwapG i => (with_gmap s (swap i (gmap s)), RUnit)
  | SwapL i => (with_loggers s (loggers s) (swap i (lmap s)), RUnit)
  end.

(** A history: calls one after the other; a call that does not return, or is
    undefined, ends it. *)
Fixpoint run (fuel : nat) (dbg : bool) (s : sys) (cs : list call) : sys * list out :=
  match cs with
  | [] => (s, [])
  | c :: cs' =>
      match step fuel dbg s c with
      | (s', RHang) => (s', [RHang])
      | (s', RUB) => (s', [RUB])
      | (s', o) => let '(s2, os) := run fuel dbg s' cs' in (s2, o :: os)
      end
  end.

(** ** configure (logging_system.cpp:60-97) *)

(** Configurator::Result (configurator.hpp:28-32), the message as a list of lines. *)
Record result := mkResult { has_error : bool; has_warning : bool; message : list string }.

(** What the configurator does to the system: calls, and then a result or an exception. *)
Record script := mkScript { sc_calls : list call; sc_end : result + string }.

Definition configure (fuel : nat) (dbg : bool) (s : sys) (sc : script) : sys * (option result * out) :=
  if configured s then (s, (None, RThrow))
  else
    let '(s1, os) := run fuel dbg (with_configured s) (sc_calls sc) in
    if existsb (fun o => match o with RHang => true | _ => false end) os then (s1, (None, RHang))
    else if existsb (fun o => match o with RUB => true | _ => false end) os then (s1, (None, RUB))
    else match sc_end sc with
    | inr what =>
        (s1, (Some (mkResult true false
                [("E: Configure is failed: " ++ what ++ "; Logging system is unworkable")%string]), RUnit))
    | inl r =>
        match gmap s1 with
        | [] => (s1, (Some (mkResult true (has_warning r)
                       (message r ++ ["E: No one group is defined; Logging system is unworkable"%string])), RUnit))
        | _ =>
            let check := fold_left (fun (a : option result) (e : string * nat) =>
              match a with
              | None => None
              | Some r =>
                  if String.eqb (fst e) "*" then Some r
                  else match nth_error (groups s1) (snd e) with
                       | None => None
                       | Some y =>
                           match g_sink y with
                           | None => None                     (* null dereferenced *)
                           | Some k =>
                               match nth_error (sinks s1) k with
                               | Some n => if String.eqb n "*"
                                           then Some (mkResult (has_error r) true
                                                  (message r ++ [("W: Group '" ++ fst e ++ "' has undefined sink; Sink to nowhere will be used")%string]))
                                           else Some r
                               | None => None
                               end
                           end
                       end
              end) (gmap s1) (Some r) in
            match check with
            | Some r' => (s1, (Some r', RUnit))
            | None => (s1, (None, RUB))
            end
        end
    end.

End Spread.
