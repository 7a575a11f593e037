(** * Vocabulary for C87: data races *)

From Coq Require Import List Arith Bool.
From Verif Require Import RaceModel.
Import ListNotations.

(** Reachable by some schedule, thread [t] making only calls with [ok t]. *)
Definition starts_ok (ok : nat -> api -> Prop) (m : move) : Prop :=
  match m with MStart t a => ok t a | _ => True end.
Definition reaches (n : nat) (ok : nat -> api -> Prop) (s : state) : Prop :=
  exists ms, Forall (starts_ok ok) ms /\ exec (init n) ms = s.

(** Thread [t] is about to make access [k] to [x]. *)
Definition about_to (s : state) (t : nat) (k : rw) (x : loc) : Prop :=
  exists a i l, nth_error (ths s) t = Some (mkTh a (i :: l)) /\ does i k x = true.

(** A data race: two threads are about to access the same location, one of them to write. *)
Definition race_on (s : state) (x : loc) : Prop :=
  exists t u k k', t <> u /\ about_to s t k x /\ about_to s u k' x /\ (k = W \/ k' = W).

(** What a call accesses without holding the lock of the system: the whole list. *)
Definition unguarded (a : api) : list (rw * loc) :=
  match a with
  | aMakeGroup (Some p) _ => [(R, LGrp p GSink); (R, LGrp p GLevel)]
  | aGetFallbackGroup => [(R, LGroups)]
  | aLog l => [(R, LLog l FLevel); (R, LLog l FSink)]
  | aFlush l => [(R, LLog l FSink)]
  | aReadLogger l f => [(R, LLog l f)]
  | aLogSetLevel l => [(W, LLog l FLevelOv); (W, LLog l FLevel)]
  | aLogResetLevel l g | aLogLevelFrom l g _ =>
      [(R, LLog l FGroup); (W, LLog l FLevelOv); (W, LLog l FLevel); (R, LGrp g GLevel)]
  | aLogSetSink l _ => [(W, LLog l FSinkOv); (W, LLog l FSink)]
  | aLogResetSink l g | aLogSinkFrom l g _ =>
      [(R, LLog l FGroup); (W, LLog l FSinkOv); (W, LLog l FSink); (R, LGrp g GSink)]
  | aLogSetGroup l g _ =>
      [(W, LLog l FGroup); (R, LLog l FGroup); (R, LLog l FSinkOv); (R, LLog l FLevelOv);
       (W, LLog l FSinkOv); (W, LLog l FSink); (W, LLog l FLevelOv); (W, LLog l FLevel);
       (R, LGrp g GSink); (R, LGrp g GLevel)]
  | aReadGroup g f => [(R, LGrp g f)]
  | aGrpSetLevel g => [(R, LGrp g GParent); (W, LGrp g GLevelOv); (W, LGrp g GLevel)]
  | aGrpResetLevel g h | aGrpLevelFrom g h _ =>
      [(R, LGrp g GParent); (W, LGrp g GLevelOv); (W, LGrp g GLevel); (R, LGrp h GLevel)]
  | aGrpSetSink g _ => [(R, LGrp g GParent); (W, LGrp g GSinkOv); (W, LGrp g GSink)]
  | aGrpResetSink g h | aGrpSinkFrom g h _ =>
      [(R, LGrp g GParent); (W, LGrp g GSinkOv); (W, LGrp g GSink); (R, LGrp h GSink)]
  | aGrpSetParent g p _ =>
      [(W, LGrp g GParent); (R, LGrp g GParent); (R, LGrp g GSinkOv); (R, LGrp g GLevelOv);
       (W, LGrp g GSinkOv); (W, LGrp g GSink); (W, LGrp g GLevelOv); (W, LGrp g GLevel);
       (R, LGrp p GSink); (R, LGrp p GLevel)]
  | aGrpUnsetParent g => [(W, LGrp g GParent)]
  | _ => []
  end.

(** What a call may write: by kind of location. *)
Definition may_write (a : api) (x : loc) : Prop :=
  match a with
  | aConfigure => True
  | aMakeSink => x = LSinks
  | aMakeGroup _ _ | aSetFallbackGroup => x = LGroups
  | aGetLogger => x = LLoggers
  | aSetParentOfGroup _ _ | aUnsetParentOfGroup _ =>
      match x with LGrp _ _ | LLog _ _ | LLoggers => True | _ => False end
  | aSetSinkOfGroup _ | aResetSinkOfGroup _ =>
      match x with
      | LGrp _ f => f = GSink \/ f = GSinkOv
      | LLog _ f => f = FSink \/ f = FSinkOv
      | LLoggers => True
      | _ => False
      end
  | aSetLevelOfGroup _ | aResetLevelOfGroup _ =>
      match x with
      | LGrp _ f => f = GLevel \/ f = GLevelOv
      | LLog _ f => f = FLevel \/ f = FLevelOv
      | LLoggers => True
      | _ => False
      end
  | aSetGroupOfLogger l => (exists f, x = LLog l f) \/ x = LLoggers
  | aSetSinkOfLogger l => x = LLog l FSink \/ x = LLog l FSinkOv \/ x = LLoggers
  | aResetSinkOfLogger l => x = LLog l FSink \/ x = LLog l FSinkOv
  | aSetLevelOfLogger l | aResetLevelOfLogger l =>
      x = LLog l FLevel \/ x = LLog l FLevelOv \/ x = LLoggers
  | aLogSetLevel l | aLogResetLevel l _ | aLogLevelFrom l _ _ => x = LLog l FLevel \/ x = LLog l FLevelOv
  | aLogSetSink l _ | aLogResetSink l _ | aLogSinkFrom l _ _ => x = LLog l FSink \/ x = LLog l FSinkOv
  | aLogSetGroup l _ _ => exists f, x = LLog l f
  | aGrpSetLevel g | aGrpResetLevel g _ | aGrpLevelFrom g _ _ => x = LGrp g GLevel \/ x = LGrp g GLevelOv
  | aGrpSetSink g _ | aGrpResetSink g _ | aGrpSinkFrom g _ _ => x = LGrp g GSink \/ x = LGrp g GSinkOv
  | aGrpSetParent g _ _ => exists f, x = LGrp g f
  | aGrpUnsetParent g => x = LGrp g GParent
  | aGetSink | aGetGroup | aGetFallbackGroup | aLog _ | aFlush _ | aReadLogger _ _ | aReadGroup _ _ => False
  end.

(** What a call may read. *)
Definition may_read (a : api) (x : loc) : Prop :=
  match a with
  | aConfigure => True
  | aGetLogger =>
      match x with
      | LConf | LLoggers | LGroups | LSinks => True
      | LGrp _ f => f = GSink \/ f = GLevel
      | LLog _ _ => False
      end
  | aGetSink => x = LSinks
  | aMakeSink => False
  | aGetGroup | aSetFallbackGroup | aGetFallbackGroup => x = LGroups
  | aMakeGroup p k =>
      x = LGroups \/ (k = true /\ x = LSinks) \/
      (exists q, p = Some q /\ (x = LGrp q GSink \/ x = LGrp q GLevel))
  | aSetParentOfGroup _ _ | aUnsetParentOfGroup _ =>
      match x with LGrp _ _ | LLog _ _ | LGroups | LLoggers => True | _ => False end
  | aSetSinkOfGroup _ =>
      match x with
      | LGrp _ f => f = GParent \/ f = GSink \/ f = GSinkOv
      | LLog _ f => f = FGroup \/ f = FSinkOv
      | LGroups | LLoggers | LSinks => True
      | _ => False
      end
  | aResetSinkOfGroup _ =>
      match x with
      | LGrp _ f => f = GParent \/ f = GSink \/ f = GSinkOv
      | LLog _ f => f = FGroup \/ f = FSinkOv
      | LGroups | LLoggers => True
      | _ => False
      end
  | aSetLevelOfGroup _ | aResetLevelOfGroup _ =>
      match x with
      | LGrp _ f => f = GParent \/ f = GLevel \/ f = GLevelOv
      | LLog _ f => f = FGroup \/ f = FLevelOv
      | LGroups | LLoggers => True
      | _ => False
      end
  | aSetGroupOfLogger l =>
      match x with
      | LGrp _ f => f = GSink \/ f = GLevel
      | LLog m f => m = l /\ (f = FGroup \/ f = FSinkOv \/ f = FLevelOv)
      | LGroups | LLoggers => True
      | _ => False
      end
  | aSetSinkOfLogger _ => x = LSinks \/ x = LLoggers
  | aResetSinkOfLogger l => x = LLoggers \/ x = LLog l FGroup \/ (exists g, x = LGrp g GSink)
  | aSetLevelOfLogger _ => x = LLoggers
  | aResetLevelOfLogger l => x = LLoggers \/ x = LLog l FGroup \/ (exists g, x = LGrp g GLevel)
  | aLogLevelFrom _ _ named | aLogSinkFrom _ _ named | aLogSetGroup _ _ named
  | aGrpLevelFrom _ _ named | aGrpSinkFrom _ _ named | aGrpSetParent _ _ named =>
      In (R, x) (unguarded a) \/ (named = true /\ x = LGroups)
  | aLogSetSink _ named | aGrpSetSink _ named =>
      In (R, x) (unguarded a) \/ (named = true /\ x = LSinks)
  | _ => In (R, x) (unguarded a)
  end.

(** Access [k] to [x] somewhere in call [a]. *)
Definition may_access (a : api) (k : rw) (x : loc) : Prop :=
  match k with R => may_read a x | W => may_write a x end.

(** Calls [a] and [b] both access [x], one of them to write, and one of the two accesses
    is made without the lock. *)
Definition conflict (a b : api) (x : loc) : Prop :=
  exists k k', may_access a k x /\ may_access b k' x /\ (k = W \/ k' = W) /\
               (In (k, x) (unguarded a) \/ In (k', x) (unguarded b)).

(** Thread [t] is in a call. *)
Definition in_call (s : state) (t : nat) : Prop :=
  exists a i l, nth_error (ths s) t = Some (mkTh a (i :: l)).

(** What the calls in progress have left to do. *)
Definition items_left (s : state) : nat := fold_right (fun th n => length (th_todo th) + n) 0 (ths s).

(** The threads [ts] move one after the other, and none of them just waits. *)
Fixpoint all_move (s : state) (ts : list nat) : Prop :=
  match ts with [] => True | t :: ts => step s (MGo t) <> s /\ all_move (step s (MGo t)) ts end.

(** Functions of the logging system. *)
Definition of_system (a : api) : Prop :=
  match a with
  | aConfigure | aGetLogger | aGetSink | aGetGroup | aMakeSink | aMakeGroup _ _ | aSetFallbackGroup
  | aGetFallbackGroup | aSetParentOfGroup _ _ | aUnsetParentOfGroup _ | aSetSinkOfGroup _
  | aResetSinkOfGroup _ | aSetLevelOfGroup _ | aResetLevelOfGroup _ | aSetGroupOfLogger _
  | aSetSinkOfLogger _ | aResetSinkOfLogger _ | aSetLevelOfLogger _ | aResetLevelOfLogger _ => True
  | _ => False
  end.

(** Logging, and looking at loggers and groups. *)
Definition logging (a : api) : Prop :=
  match a with aLog _ | aFlush _ | aReadLogger _ _ | aReadGroup _ _ => True | _ => False end.

(** Functions that make or find things but change no existing group or logger. *)
Definition adding (a : api) : Prop :=
  match a with
  | aGetLogger | aGetSink | aGetGroup | aMakeSink | aMakeGroup _ _ | aSetFallbackGroup => True
  | _ => False
  end.

(** The functions of the logging system that take the lock once and hold it to their end. *)
Definition one_section (a : api) : Prop :=
  match a with
  | aGetFallbackGroup => False
  | aMakeGroup None false => True
  | aMakeGroup _ _ => False
  | _ => of_system a
  end.

(** Move [m] makes an access for thread [t]. *)
Definition accesses (s : state) (m : move) (t : nat) : Prop :=
  match m with
  | MGo u => u = t /\ exists k x, about_to s t k x
  | MMay u k x => u = t /\ about_to s t k x
  | _ => False
  end.
