(** * Vocabulary for C87: the calls of SysModel and GroupModel as the calls of RaceModel *)

From Coq Require Import String List Arith Bool.
From Verif Require Import RaceModel RaceSpec.
From Verif Require Import Base LevelModel.
From Verif Require SysModel GroupModel.
Import ListNotations.

Definition named_or (d : nat) (o : option nat) : nat := match o with Some i => i | None => d end.

Definition group_of (s : SysModel.sys) (l : nat) : nat :=
  match nth_error (SysModel.loggers s) l with Some x => SysModel.l_group x | None => 0 end.

(** The call [c] in state [s]; names that are not found stand for number 0 (such calls
    change no group and no logger).  The last three are not calls. *)
Definition api_of (s : SysModel.sys) (c : SysModel.call) : option api :=
  let g n := named_or 0 (SysModel.find (SysModel.gmap s) n) in
  let l n := named_or 0 (SysModel.find (SysModel.lmap s) n) in
  match c with
  | SysModel.MakeSink _ => Some aMakeSink
  | SysModel.MakeGroup _ p k _ =>
      Some (aMakeGroup (match p with Some n => SysModel.find (SysModel.gmap s) n | None => None end)
                       (match k with Some _ => true | None => false end))
  | SysModel.SetFallbackGroup _ => Some aSetFallbackGroup
  | SysModel.SetParentOfGroup x p => Some (aSetParentOfGroup (g x) (g p))
  | SysModel.UnsetParentOfGroup x => Some (aUnsetParentOfGroup (g x))
  | SysModel.SetSinkOfGroup x _ => Some (aSetSinkOfGroup (g x))
  | SysModel.ResetSinkOfGroup x => Some (aResetSinkOfGroup (g x))
  | SysModel.SetLevelOfGroup x _ => Some (aSetLevelOfGroup (g x))
  | SysModel.ResetLevelOfGroup x => Some (aResetLevelOfGroup (g x))
  | SysModel.SetGroupOfLogger x _ => Some (aSetGroupOfLogger (l x))
  | SysModel.SetSinkOfLogger x _ => Some (aSetSinkOfLogger (l x))
  | SysModel.ResetSinkOfLogger x => Some (aResetSinkOfLogger (l x))
  | SysModel.SetLevelOfLogger x _ => Some (aSetLevelOfLogger (l x))
  | SysModel.ResetLevelOfLogger x => Some (aResetLevelOfLogger (l x))
  | SysModel.GetLogger _ _ _ _ => Some aGetLogger
  | SysModel.LSetLevel i _ => Some (aLogSetLevel i)
  | SysModel.LResetLevel i => Some (aLogResetLevel i (group_of s i))
  | SysModel.LSetLevelFromGroup i h => Some (aLogLevelFrom i h false)
  | SysModel.LSetSink i _ => Some (aLogSetSink i false)
  | SysModel.LResetSink i => Some (aLogResetSink i (group_of s i))
  | SysModel.LSetSinkFromGroup i h => Some (aLogSinkFrom i h false)
  | SysModel.LSetGroup i h => Some (aLogSetGroup i h false)
  | SysModel.LDrop _ | SysModel.SwapG _ | SysModel.SwapL _ => None
  end.

Definition parent_no (s : SysModel.sys) (i : nat) : nat :=
  match nth_error (SysModel.groups s) i with
  | Some x => named_or 0 (SysModel.g_parent x)
  | None => 0
  end.

Definition gapi_of (s : SysModel.sys) (c : GroupModel.gcall) : api :=
  let g n := named_or 0 (SysModel.find (SysModel.gmap s) n) in
  match c with
  | GroupModel.GSetLevel i _ => aGrpSetLevel i
  | GroupModel.GResetLevel i => aGrpResetLevel i (parent_no s i)
  | GroupModel.GSetLevelFromGroup i h => aGrpLevelFrom i h false
  | GroupModel.GSetLevelFromNamed i n => aGrpLevelFrom i (g n) true
  | GroupModel.GSetSink i _ => aGrpSetSink i false
  | GroupModel.GSetSinkNamed i _ => aGrpSetSink i true
  | GroupModel.GResetSink i => aGrpResetSink i (parent_no s i)
  | GroupModel.GSetSinkFromGroup i h => aGrpSinkFrom i h false
  | GroupModel.GSetSinkFromNamed i n => aGrpSinkFrom i (g n) true
  | GroupModel.GSetParentGroup i (Some p) => aGrpSetParent i p false
  | GroupModel.GSetParentGroup i None | GroupModel.GUnsetParentGroup i => aGrpUnsetParent i
  | GroupModel.GSetParentNamed i n => aGrpSetParent i (g n) true
  end.

(** The two groups (loggers) agree on a field. *)
Definition gsame (f : gfield) (x y : SysModel.group) : Prop :=
  match f with
  | GParent => SysModel.g_parent x = SysModel.g_parent y
  | GSink => SysModel.g_sink x = SysModel.g_sink y
  | GSinkOv => SysModel.g_sov x = SysModel.g_sov y
  | GLevel => SysModel.g_level x = SysModel.g_level y
  | GLevelOv => SysModel.g_lov x = SysModel.g_lov y
  end.
Definition lsame (f : lfield) (x y : SysModel.logger) : Prop :=
  match f with
  | FGroup => SysModel.l_group x = SysModel.l_group y
  | FSink => SysModel.l_sink x = SysModel.l_sink y
  | FSinkOv => SysModel.l_sov x = SysModel.l_sov y
  | FLevel => SysModel.l_level x = SysModel.l_level y
  | FLevelOv => SysModel.l_lov x = SysModel.l_lov y
  end.

(** Location [x] has the same contents in [s] and [s']; for groups and loggers: if it
    exists in [s], then it does in [s'] with the same contents. *)
Definition same_at (s s' : SysModel.sys) (x : loc) : Prop :=
  match x with
  | LConf => SysModel.configured s' = SysModel.configured s
  | LGroups => SysModel.gmap s' = SysModel.gmap s
  | LSinks => SysModel.smap s' = SysModel.smap s
  | LLoggers => SysModel.lmap s' = SysModel.lmap s
  | LGrp g f => forall y, nth_error (SysModel.groups s) g = Some y ->
                exists y', nth_error (SysModel.groups s') g = Some y' /\ gsame f y' y
  | LLog l f => forall y, nth_error (SysModel.loggers s) l = Some y ->
                exists y', nth_error (SysModel.loggers s') l = Some y' /\ lsame f y' y
  end.
