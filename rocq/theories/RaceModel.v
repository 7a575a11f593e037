(** * Model of what calls access, and when they hold the system's lock
      (src/logging_system.cpp, include/soralog/logging_system.hpp:117-123, src/group.cpp,
      src/logger.cpp, include/soralog/logger.hpp:43-55, 190-260)

    Every call is the sequence of its accesses to shared memory that is neither atomic
    nor constant - the three maps and the flag of the logging system, the fields of
    groups and loggers - and of its operations on the system's recursive mutex.  Threads
    interleave access by access.

    Groups and loggers are numbered as in [SysModel].  A call is given the objects it
    finds by the names it is passed; where the code goes on to objects that depend on
    the contents of the system (the groups and loggers that inherit), [May] stands for
    any number of the accesses listed, in any order.  A call may end early (an unknown
    name, an exception, a level that does not admit the event): its locks are then
    released.

    Not included: accesses to objects no other thread can have yet (the group or logger
    being constructed), local variables, and what the sinks do (they are made for
    concurrent use: C18-C30, C81, C86). *)

From Coq Require Import List Arith Bool.
Import ListNotations.

(** Fields of Group (group.hpp:154-164) and Logger (logger.hpp:297-306). *)
Inductive gfield := GParent | GSink | GSinkOv | GLevel | GLevelOv.
Inductive lfield := FGroup | FSink | FSinkOv | FLevel | FLevelOv.

(** Shared locations; the first four: logging_system.hpp:277-281. *)
Inductive loc :=
| LConf | LGroups | LSinks | LLoggers
| LGrp (g : nat) (f : gfield)
| LLog (l : nat) (f : lfield).

Inductive rw := R | W.

Inductive pat := At (x : loc) | AnyGrp (f : gfield) | AnyLog (f : lfield) | Anything.

Inductive item :=
| Lock
| Unlock
| Acc (k : rw) (x : loc)
| May (l : list (rw * pat)).

Definition gfields : list gfield := [GParent; GSink; GSinkOv; GLevel; GLevelOv].
Definition lfields : list lfield := [FGroup; FSink; FSinkOv; FLevel; FLevelOv].
Definition both (p : pat) : list (rw * pat) := [(R, p); (W, p)].

(** Calls.  [named]: the form of a setter that takes a name. *)
Inductive api :=
(* LoggingSystem *)
| aConfigure
| aGetLogger
| aGetSink
| aGetGroup
| aMakeSink
| aMakeGroup (parent : option nat) (sink : bool)
| aSetFallbackGroup
| aGetFallbackGroup
| aSetParentOfGroup (g p : nat)
| aUnsetParentOfGroup (g : nat)
| aSetSinkOfGroup (g : nat)
| aResetSinkOfGroup (g : nat)
| aSetLevelOfGroup (g : nat)
| aResetLevelOfGroup (g : nat)
| aSetGroupOfLogger (l : nat)
| aSetSinkOfLogger (l : nat)
| aResetSinkOfLogger (l : nat)
| aSetLevelOfLogger (l : nat)
| aResetLevelOfLogger (l : nat)
(* Logger *)
| aLog (l : nat)                              (* trace() ... critical(), log() *)
| aFlush (l : nat)
| aReadLogger (l : nat) (f : lfield)          (* level(), sink(), group(), is...Overridden() *)
| aLogSetLevel (l : nat)
| aLogResetLevel (l g : nat)                  (* g: the logger's group *)
| aLogLevelFrom (l g : nat) (named : bool)
| aLogSetSink (l : nat) (named : bool)
| aLogResetSink (l g : nat)
| aLogSinkFrom (l g : nat) (named : bool)
| aLogSetGroup (l g : nat) (named : bool)
(* Group *)
| aReadGroup (g : nat) (f : gfield)
| aGrpSetLevel (g : nat)
| aGrpResetLevel (g p : nat)                  (* p: the group's parent *)
| aGrpLevelFrom (g h : nat) (named : bool)
| aGrpSetSink (g : nat) (named : bool)
| aGrpResetSink (g p : nat)
| aGrpSinkFrom (g h : nat) (named : bool)
| aGrpSetParent (g p : nat) (named : bool)
| aGrpUnsetParent (g : nat).

(** getGroup(name), getSink(name) (logging_system.cpp:156-174). *)
Definition look (x : loc) : list item := [Lock; Acc R x; Unlock].
Definition look_if (named : bool) (x : loc) : list item := if named then look x else [].

(** The loops that spread a change (logging_system.cpp:218-239, 286-309, 355-378). *)
Definition spread_sink : list (rw * pat) :=
  [(R, AnyGrp GSinkOv); (R, AnyGrp GParent); (R, AnyGrp GSink); (W, AnyGrp GSink); (W, AnyGrp GSinkOv);
   (R, AnyLog FSinkOv); (R, AnyLog FGroup); (W, AnyLog FSink); (W, AnyLog FSinkOv);
   (R, At LLoggers); (W, At LLoggers)].
Definition spread_level : list (rw * pat) :=
  [(R, AnyGrp GLevelOv); (R, AnyGrp GParent); (R, AnyGrp GLevel); (W, AnyGrp GLevel); (W, AnyGrp GLevelOv);
   (R, AnyLog FLevelOv); (R, AnyLog FGroup); (W, AnyLog FLevel); (W, AnyLog FLevelOv);
   (R, At LLoggers); (W, At LLoggers)].
Definition spread_parent : list (rw * pat) :=
  flat_map (fun f => both (AnyGrp f)) gfields ++ flat_map (fun f => both (AnyLog f)) lfields ++
  both (At LLoggers).

(** Group::setParentGroup (group.cpp:111-121) on group [g] with a parent [p]. *)
Definition set_parent_items (g p : nat) : list item :=
  [Acc W (LGrp g GParent); Acc R (LGrp g GParent); Acc R (LGrp g GSinkOv);
   May [(R, At (LGrp p GSink)); (W, At (LGrp g GSinkOv)); (W, At (LGrp g GSink))];
   Acc R (LGrp g GLevelOv);
   May [(R, At (LGrp p GLevel)); (W, At (LGrp g GLevelOv)); (W, At (LGrp g GLevel))]].

(** Logger::setGroup (logger.cpp:84-93); the group's fields are [gp GSink], [gp GLevel]. *)
Definition set_group_items (l : nat) (gp : gfield -> pat) : list item :=
  [Acc W (LLog l FGroup); Acc R (LLog l FSinkOv);
   May [(R, gp GSink); (R, At (LLog l FGroup)); (W, At (LLog l FSinkOv)); (W, At (LLog l FSink))];
   Acc R (LLog l FLevelOv);
   May [(R, gp GLevel); (R, At (LLog l FGroup)); (W, At (LLog l FLevelOv)); (W, At (LLog l FLevel))]].

Definition prog (a : api) : list item :=
  match a with
  | aConfigure =>                                   (* logging_system.cpp:60-97 *)
      [Lock; Acc R LConf; Acc W LConf; May (both Anything); Unlock]
  | aGetLogger =>                                   (* 99-154 *)
      [Lock; Acc R LConf; Acc R LLoggers;
       May [(R, At LGroups); (R, AnyGrp GSink); (R, AnyGrp GLevel); (R, At LSinks); (W, At LLoggers)]; Unlock]
  | aGetSink => look LSinks                         (* 156-164 *)
  | aGetGroup => look LGroups                       (* 166-174 *)
  | aMakeSink => [Lock; Acc W LSinks; Unlock]       (* logging_system.hpp:117-123 *)
  | aMakeGroup p k =>                               (* 27-40, group.cpp:15-40 *)
      match p with
      | Some p => look LGroups ++ [Acc R (LGrp p GSink); Acc R (LGrp p GLevel)]
      | None => []
      end ++ look_if k LSinks ++ [Lock; Acc R LGroups; Acc W LGroups; Unlock]
  | aSetFallbackGroup => [Lock; Acc R LGroups; Acc W LGroups; Unlock]      (* 42-50 *)
  | aGetFallbackGroup => [Acc R LGroups]                                   (* 52-58 *)
  | aSetParentOfGroup g p =>                        (* 402-431, 176-240 *)
      [Lock; Acc R LGroups; Acc R (LGrp p GParent); May [(R, AnyGrp GParent)];
       Acc R (LGrp p GParent); May [(W, At (LGrp p GParent))]] ++ set_parent_items g p ++
      [Lock; Acc R LGroups; May spread_parent; Unlock; Unlock]
  | aUnsetParentOfGroup g =>                        (* 433-444, 176-240 *)
      [Lock; Acc R LGroups; Acc W (LGrp g GParent); Acc R (LGrp g GParent);
       Lock; Acc R LGroups; May spread_parent; Unlock; Unlock]
  | aSetSinkOfGroup g =>                            (* 446-459, 242-310 *)
      [Lock] ++ look LSinks ++ [Acc R LGroups; Acc R (LGrp g GParent); May [(W, At (LGrp g GSinkOv))];
       Acc W (LGrp g GSink); Lock; Acc R LGroups; May spread_sink; Unlock; Unlock]
  | aResetSinkOfGroup g =>                          (* 461-470, 242-310 *)
      [Lock; Acc R LGroups; Acc R (LGrp g GParent);
       May [(R, AnyGrp GSink); (W, At (LGrp g GSink)); (W, At (LGrp g GSinkOv))];
       Lock; Acc R LGroups; May spread_sink; Unlock; Unlock]
  | aSetLevelOfGroup g =>                           (* 472-481, 312-379 *)
      [Lock; Acc R LGroups; Acc R (LGrp g GParent); May [(W, At (LGrp g GLevelOv))];
       Acc W (LGrp g GLevel); Lock; Acc R LGroups; May spread_level; Unlock; Unlock]
  | aResetLevelOfGroup g =>                         (* 483-491, 312-379 *)
      [Lock; Acc R LGroups; Acc R (LGrp g GParent);
       May [(R, AnyGrp GLevel); (W, At (LGrp g GLevel)); (W, At (LGrp g GLevelOv))];
       Lock; Acc R LGroups; May spread_level; Unlock; Unlock]
  | aSetGroupOfLogger l =>                          (* 493-506 *)
      [Lock] ++ look LGroups ++ [Acc R LLoggers; May [(W, At LLoggers)]] ++
      set_group_items l AnyGrp ++ [Unlock]
  | aSetSinkOfLogger l =>                           (* 508-521 *)
      [Lock] ++ look LSinks ++ [Acc R LLoggers; May [(W, At LLoggers)];
       Acc W (LLog l FSinkOv); Acc W (LLog l FSink); Unlock]
  | aResetSinkOfLogger l =>                         (* 523-532 *)
      [Lock; Acc R LLoggers; Acc R (LLog l FGroup); May [(R, AnyGrp GSink)];
       Acc W (LLog l FSinkOv); Acc W (LLog l FSink); Unlock]
  | aSetLevelOfLogger l =>                          (* 534-545 *)
      [Lock; Acc R LLoggers; May [(W, At LLoggers)];
       Acc W (LLog l FLevelOv); Acc W (LLog l FLevel); Unlock]
  | aResetLevelOfLogger l =>                        (* 547-557 *)
      [Lock; Acc R LLoggers; May [(W, At LLoggers)]; Acc R (LLog l FGroup); May [(R, AnyGrp GLevel)];
       Acc W (LLog l FLevelOv); Acc W (LLog l FLevel); Unlock]
  | aLog l =>                                       (* logger.hpp:43-55 *)
      [Acc R (LLog l FLevel); Acc R (LLog l FSink); Acc R (LLog l FLevel); Acc R (LLog l FSink)]
  | aFlush l => [Acc R (LLog l FSink)]              (* logger.hpp:188-190 *)
  | aReadLogger l f => [Acc R (LLog l f)]
  | aLogSetLevel l => [Acc W (LLog l FLevelOv); Acc W (LLog l FLevel)]     (* logger.cpp:32-35 *)
  | aLogResetLevel l g =>                           (* 28-30 *)
      [Acc R (LLog l FGroup); Acc W (LLog l FLevelOv); Acc R (LGrp g GLevel); Acc W (LLog l FLevel)]
  | aLogLevelFrom l g named =>                      (* 37-47 *)
      look_if named LGroups ++
      [Acc R (LLog l FGroup); Acc W (LLog l FLevelOv); Acc R (LGrp g GLevel); Acc W (LLog l FLevel)]
  | aLogSetSink l named =>                          (* 56-66 *)
      look_if named LSinks ++ [Acc W (LLog l FSinkOv); Acc W (LLog l FSink)]
  | aLogResetSink l g =>                            (* 51-54 *)
      [Acc R (LLog l FGroup); Acc R (LGrp g GSink); Acc W (LLog l FSink); Acc W (LLog l FSinkOv)]
  | aLogSinkFrom l g named =>                       (* 68-80 *)
      look_if named LGroups ++
      [Acc R (LGrp g GSink); Acc R (LLog l FGroup); Acc W (LLog l FSinkOv); Acc W (LLog l FSink)]
  | aLogSetGroup l g named =>                       (* 84-99 *)
      look_if named LGroups ++ set_group_items l (fun f => At (LGrp g f))
  | aReadGroup g f => [Acc R (LGrp g f)]
  | aGrpSetLevel g =>                               (* group.cpp:51-56 *)
      [Acc R (LGrp g GParent); May [(W, At (LGrp g GLevelOv))]; Acc W (LGrp g GLevel)]
  | aGrpResetLevel g p =>                           (* 44-49 *)
      [Acc R (LGrp g GParent); Acc R (LGrp p GLevel); Acc W (LGrp g GLevel); Acc W (LGrp g GLevelOv)]
  | aGrpLevelFrom g h named =>                      (* 58-68 *)
      look_if named LGroups ++
      [Acc R (LGrp g GParent); Acc W (LGrp g GLevelOv); Acc R (LGrp h GLevel); Acc W (LGrp g GLevel)]
  | aGrpSetSink g named =>                          (* 79-91 *)
      look_if named LSinks ++
      [Acc R (LGrp g GParent); May [(W, At (LGrp g GSinkOv))]; Acc W (LGrp g GSink)]
  | aGrpResetSink g p =>                            (* 72-77 *)
      [Acc R (LGrp g GParent); Acc R (LGrp p GSink); Acc W (LGrp g GSink); Acc W (LGrp g GSinkOv)]
  | aGrpSinkFrom g h named =>                       (* 93-103 *)
      look_if named LGroups ++
      [Acc R (LGrp g GParent); Acc W (LGrp g GSinkOv); Acc R (LGrp h GSink); Acc W (LGrp g GSink)]
  | aGrpSetParent g p named => look_if named LGroups ++ set_parent_items g p   (* 111-127 *)
  | aGrpUnsetParent g => [Acc W (LGrp g GParent)]   (* 107-109 *)
  end.

(** ** Threads *)

Definition rw_eqb (a b : rw) : bool := match a, b with R, R | W, W => true | _, _ => false end.
Definition gf_eqb (a b : gfield) : bool :=
  match a, b with
  | GParent, GParent | GSink, GSink | GSinkOv, GSinkOv | GLevel, GLevel | GLevelOv, GLevelOv => true
  | _, _ => false
  end.
Definition lf_eqb (a b : lfield) : bool :=
  match a, b with
  | FGroup, FGroup | FSink, FSink | FSinkOv, FSinkOv | FLevel, FLevel | FLevelOv, FLevelOv => true
  | _, _ => false
  end.
Definition loc_eqb (a b : loc) : bool :=
  match a, b with
  | LConf, LConf | LGroups, LGroups | LSinks, LSinks | LLoggers, LLoggers => true
  | LGrp g f, LGrp h e => Nat.eqb g h && gf_eqb f e
  | LLog g f, LLog h e => Nat.eqb g h && lf_eqb f e
  | _, _ => false
  end.
Definition pat_has (p : pat) (x : loc) : bool :=
  match p with
  | At y => loc_eqb y x
  | AnyGrp f => match x with LGrp _ e => gf_eqb f e | _ => false end
  | AnyLog f => match x with LLog _ e => lf_eqb f e | _ => false end
  | Anything => true
  end.

(** The item can make access [k] to [x]. *)
Definition does (i : item) (k : rw) (x : loc) : bool :=
  match i with
  | Acc k' y => rw_eqb k' k && loc_eqb y x
  | May l => existsb (fun e => rw_eqb (fst e) k && pat_has (snd e) x) l
  | _ => false
  end.

(** A thread: its latest call and what is left of it. *)
Record thread := mkTh { th_api : api; th_todo : list item }.

Record state := mkSt {
  owner : option (nat * nat);    (* mutex_: the thread that has it, how often *)
  ths : list thread
}.

Inductive move :=
| MStart (t : nat) (a : api)     (* an idle thread makes a call *)
| MGo (t : nat)                  (* the next item, completely *)
| MMay (t : nat) (k : rw) (x : loc)   (* one of the accesses of a [May] *)
| MQuit (t : nat).               (* the call ends early *)

Fixpoint set_th (l : list thread) (i : nat) (x : thread) : list thread :=
  match l, i with
  | [], _ => []
  | _ :: l', O => x :: l'
  | y :: l', S i' => y :: set_th l' i' x
  end.

(** std::recursive_mutex *)
Definition can_lock (s : state) (t : nat) : bool :=
  match owner s with None => true | Some (u, _) => Nat.eqb u t end.
Definition locked (o : option (nat * nat)) (t : nat) : option (nat * nat) :=
  match o with None => Some (t, 1) | Some (u, d) => Some (u, S d) end.
Definition unlocked (o : option (nat * nat)) : option (nat * nat) :=
  match o with Some (u, S (S d)) => Some (u, S d) | _ => None end.
Definition released (o : option (nat * nat)) (t : nat) : option (nat * nat) :=
  match o with Some (u, d) => if Nat.eqb u t then None else o | None => None end.

Definition step (s : state) (m : move) : state :=
  match m with
  | MStart t a =>
      match nth_error (ths s) t with
      | Some th => match th_todo th with
                   | [] => mkSt (owner s) (set_th (ths s) t (mkTh a (prog a)))
                   | _ => s
                   end
      | None => s
      end
  | MGo t =>
      match nth_error (ths s) t with
      | Some th =>
          match th_todo th with
          | [] => s
          | Lock :: l => if can_lock s t
                         then mkSt (locked (owner s) t) (set_th (ths s) t (mkTh (th_api th) l)) else s
          | Unlock :: l => mkSt (unlocked (owner s)) (set_th (ths s) t (mkTh (th_api th) l))
          | _ :: l => mkSt (owner s) (set_th (ths s) t (mkTh (th_api th) l))
          end
      | None => s
      end
  | MMay t k x => s          (* leaves everything where it is *)
  | MQuit t =>
      match nth_error (ths s) t with
      | Some th => mkSt (released (owner s) t) (set_th (ths s) t (mkTh (th_api th) []))
      | None => s
      end
  end.

Definition exec (s : state) (ms : list move) : state := fold_left step ms s.

(** [n] threads, none in a call. *)
Definition init (n : nat) : state := mkSt None (repeat (mkTh aGetSink []) n).
