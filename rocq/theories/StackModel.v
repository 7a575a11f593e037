(** * The whole stack: document, system, loggers, composites, sinks, circular buffers
      (logger.hpp:38-72, multisink.cpp:16-34, sink.hpp:116-155, circular_buffer.hpp:106-206,
      sink_to_file.cpp:90-277, sink_to_console.cpp:155-349, sink_to_syslog.cpp:92-282)

    [PoolModel] and [DeployModel] with the leaf sinks of [FullModel]: every call of put(), get()
    and size() of a buffer is the sequence of its single atomic operations.  [None]: undefined
    behaviour.  The rest is as in [PoolModel] and [DeployModel], with their simplifications. *)

From Coq Require Import Ascii String NArith List Arith Bool.
From Verif Require Import Base LevelModel SysModel SysSpec YamlModel DeployModel.
From Verif Require TreeModel EventModel RecordModel SinkModel FullModel PoolModel.
Import ListNotations.

Section SPool.
Context {E : Type}.
Variable K : nat.                        (* how many leaf sinks *)
Variable cf : nat -> SinkModel.cfg E.    (* their settings *)
Variable op : nat -> bool.               (* was the file opened *)
Variable n : nat.                        (* how many threads *)

Record spool := mkSP {
  sleaf : nat -> FullModel.fstate E;             (* the leaf sinks, each with its buffer *)
  stodo : nat -> list (TreeModel.call E)         (* the calls on leaf sinks still to make, by thread *)
}.

Definition set_sleaf (s : spool) (id : nat) (x : FullModel.fstate E) : spool :=
  mkSP (fun i => if Nat.eqb i id then x else sleaf s i) (stodo s).
Definition set_stodo (s : spool) (t : nat) (cs : list (TreeModel.call E)) : spool :=
  mkSP (sleaf s) (fun u => if Nat.eqb u t then cs else stodo s u).

(** As in [PoolModel]: who is inside a call on which sink, which sinks exist. *)
Definition sfree (s : spool) (t : nat) : bool :=
  forallb (fun id => PoolModel.free_in (FullModel.outside (sleaf s id)) t) (seq 0 K).
Fixpoint susable (s : spool) (d : TreeModel.tree) : bool :=
  match d with
  | TreeModel.Leaf id lv =>
      Nat.ltb id K && leqb lv (SinkModel.c_level (cf id)) && SinkModel.alive (FullModel.outside (sleaf s id))
  | TreeModel.Nowhere id => Nat.leb K id
  | TreeModel.Multi _ ms => forallb (susable s) ms
  end.
Definition sunused (s : spool) (id : nat) : bool :=
  forallb (fun t => forallb (fun c => negb (Nat.eqb (PoolModel.target c) id)) (stodo s t)) (seq 1 n).

(** A step of a thread in a leaf sink: at most one atomic operation of its buffer. *)
Definition sin_leaf (s : spool) (id : nat) (m : SinkModel.move E) : option (spool * list (PoolModel.plabel E)) :=
  match FullModel.fstep (cf id) (sleaf s id) m with
  | Some (x, ls) => Some (set_sleaf s id x, map (PoolModel.PLeaf id) ls)
  | None => None
  end.

(** See [PoolModel.pstep]. *)
Definition spstep (s : spool) (m : PoolModel.pmove E) : option (spool * list (PoolModel.plabel E)) :=
  match m with
  | PoolModel.XStart t o =>
      if PoolModel.is_thread n t && PoolModel.is_nil (stodo s t) && sfree s t && susable s (PoolModel.sink_of o) then
        match PoolModel.plan o with
        | TreeModel.Done cs => Some (set_stodo s t cs, [PoolModel.PStart t o])
        | TreeModel.UB => Some (s, [])
        end
      else Some (s, [])
  | PoolModel.XNext t =>
      match stodo s t with
      | [] => Some (s, [])
      | c :: cs =>
          if sfree s t then
            if Nat.ltb (PoolModel.target c) K
            then sin_leaf (set_stodo s t cs) (PoolModel.target c) (SinkModel.MThread t (PoolModel.begin_call c))
            else Some (set_stodo s t cs, [])
          else Some (s, [])
      end
  | PoolModel.XLeaf id m => if Nat.ltb id K && negb (PoolModel.begins m) then sin_leaf s id m else Some (s, [])
  | PoolModel.XDestroy id t =>
      if PoolModel.is_thread n t && PoolModel.is_nil (stodo s t) && sfree s t && Nat.ltb id K && sunused s id
      then sin_leaf s id (SinkModel.MThread t (@SinkModel.CDestroy E)) else Some (s, [])
  end.

Fixpoint spexec (s : spool) (ms : list (PoolModel.pmove E)) : option (spool * list (PoolModel.plabel E)) :=
  match ms with
  | [] => Some (s, [])
  | m :: ms' =>
      match spstep s m with
      | None => None
      | Some (s1, l1) => match spexec s1 ms' with None => None | Some (s2, l2) => Some (s2, l1 ++ l2) end
      end
  end.

Definition spinit : spool := mkSP (fun id => FullModel.finit (cf id) (op id) n) (fun _ => []).
End SPool.
Arguments spool : clear implicits.

Section Stack.
Variable lt : N -> RecordModel.tm.
Variable memory : EventModel.mem.
Variable address : N.
Variable fg_first : bool.
Variable ds : list sink_desc.
Variable op : nat -> bool.
Variable n : nat.
Variable ord : list nat -> list nat.
Variable dbg : bool.

Record xstate := mkX {
  x_sys : sys;
  x_pool : spool said;
  x_up : bool
}.

Definition xin_pool (s : xstate) (m : PoolModel.pmove said) : option (xstate * list (PoolModel.plabel said)) :=
  match spstep (count ds) (cfg_at lt memory address fg_first ds) n (x_pool s) m with
  | Some (p, ls) => Some (mkX (x_sys s) p (x_up s), ls)
  | None => None
  end.

(** See [DeployModel.dstep]. *)
Definition xstep (s : xstate) (m : dmove) : option (xstate * list dlabel) :=
  match m with
  | DSys c =>
      if x_up s && silent ds dbg (x_sys s) c
      then Some (mkX (fst (step ord (enough (x_sys s)) dbg (x_sys s) c)) (x_pool s) true, [])
      else Some (s, [])
  | DGet t x g k lv e =>
      match warning dbg (x_sys s) x g with
      | Some (L, G, text) =>
          match l_sink L with
          | Some w =>
              if x_up s then
                match xin_pool s (PoolModel.XStart t (PoolModel.OLog (l_level L) (tree_at ds w) WARN (by_logger L (warned e text)))) with
                | Some (s', ls) =>
                    match ls with
                    | [] => Some (s, [])
                    | _ => Some (mkX (fst (step ord (enough (x_sys s)) dbg (x_sys s) (GetLogger x g k lv))) (x_pool s') true,
                                 DSaid t (g_name G) L (warned e text) :: map DIn ls)
                    end
                | None => None
                end
              else Some (s, [])
          | None => Some (s, [])
          end
      | None => Some (s, [])
      end
  | DLog t i e =>
      match nth_error (loggers (x_sys s)) i with
      | Some L =>
          match nth_error (groups (x_sys s)) (l_group L), l_sink L with
          | Some G, Some k =>
              if x_up s && l_alive L then
                match xin_pool s (PoolModel.XStart t (PoolModel.OLog (l_level L) (tree_at ds k) (x_level e) (by_logger L e))) with
                | Some (s', ls) => Some (s', match ls with [] => [] | _ => [DSaid t (g_name G) L e] end ++ map DIn ls)
                | None => None
                end
              else Some (s, [])
          | _, _ => Some (s, [])
          end
      | None => Some (s, [])
      end
  | DFlush t k =>
      if x_up s && Nat.ltb k (List.length (sinks (x_sys s)))
      then match xin_pool s (PoolModel.XStart t (PoolModel.OFlush (tree_at ds k))) with
           | Some (s', ls) => Some (s', map DIn ls)
           | None => None
           end
      else Some (s, [])
  | DRotate t k =>
      if x_up s && Nat.ltb k (List.length (sinks (x_sys s)))
      then match xin_pool s (PoolModel.XStart t (PoolModel.ORotate (tree_at ds k))) with
           | Some (s', ls) => Some (s', map DIn ls)
           | None => None
           end
      else Some (s, [])
  | DEnd => Some (mkX (x_sys s) (x_pool s) false, [])
  | DPool m =>
      let ok := match m with PoolModel.XStart _ _ => false | PoolModel.XDestroy _ _ => negb (x_up s) | _ => true end in
      if ok
      then match xin_pool s m with
           | Some (s', ls) => Some (s', map DIn ls)
           | None => None
           end
      else Some (s, [])
  end.

Fixpoint xexec (s : xstate) (ms : list dmove) : option (xstate * list dlabel) :=
  match ms with
  | [] => Some (s, [])
  | m :: ms' =>
      match xstep s m with
      | None => None
      | Some (s1, l1) => match xexec s1 ms' with None => None | Some (s2, l2) => Some (s2, l1 ++ l2) end
      end
  end.

(** After configure(): the system [s0], the sinks as constructed. *)
Definition xstart (s0 : sys) : xstate := mkX s0 (spinit (cfg_at lt memory address fg_first ds) op n) true.
End Stack.
