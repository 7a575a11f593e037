(** * Property C105: a destination that refuses for a while

    [ioexec C w ms]: threads and the operating system make the moves [ms]; [IRefuse] is a write
    the operating system refuses (disk full, pipe closed). [on_disk w] are the files as the
    operating system has them, [i_buf w] what is still in the buffer of the stream. *)

From Coq Require Import Ascii String NArith Arith List Bool Lia.
From Verif Require Import Base LevelModel SinkModel SinkSpec SinkProps SinkWitness IoModel IoSpec IoProofs.
Import ListNotations.
Open Scope string_scope.
Open Scope list_scope.

(** While nothing is refused, everything written is in the files or in the buffer of the
    stream, file by file as the program wrote it (C27); once a file sink is destroyed, all of it
    is in the files. *)
Theorem C105_no_refusal :
  forall (E : Type) (C : cfg E), c_kind C <> KSyslog -> forall n ms w ls,
    ioexec C (ioinit C true n) ms = (w, ls) -> no_refusal ms ->
    concat (on_disk w) ++ i_buf w = concat (map (c_render C) (written ls)) /\
    i_closed w ++ [i_cur w ++ i_buf w] = files (base w) /\
    (forall t, c_kind C = KFile -> In (LDestroyed t) ls ->
       concat (on_disk w) = concat (map (c_render C) (written ls))).
Proof. exact @no_refusal_all. Qed.
Print Assumptions C105_no_refusal.

(** What is true of the claim: when the file has been opened again (rotation), and nothing is
    refused any more, what is written from then on is in the files when the sink is destroyed. *)
Theorem C105_goes_on_partial :
  forall (E : Type) (C : cfg E), c_kind C <> KSyslog -> forall op n w0 w1 w l0 m l1 t r ms l,
    ioreach C op n w0 l0 -> iostep C w0 m = (w1, l1) -> In (LReopen t r) l1 -> r <> ROFail ->
    ioexec C w1 ms = (w, l) -> no_refusal ms ->
    concat (on_disk w) ++ i_buf w = concat (on_disk w1) ++ concat (map (c_render C) (written l)) /\
    (forall u, c_kind C = KFile -> In (LDestroyed u) l ->
       concat (on_disk w) = concat (on_disk w1) ++ concat (map (c_render C) (written l))).
Proof. exact @reopened_all. Qed.
Print Assumptions C105_goes_on_partial.

(** After one refusal, until the file is opened again, the files get nothing any more but what
    was in the buffer of the stream at that moment. *)
Theorem C105_one_refusal_is_enough :
  forall (E : Type) (C : cfg E) n keep ms w w1 w' l l1,
    iostep C w (IRefuse n keep) = (w1, l1) -> ioexec C w1 ms = (w', l) -> not_reopened l ->
    exists p r, i_buf w = p ++ r /\ concat (on_disk w') = concat (on_disk w) ++ p.
Proof. exact @bad_stays. Qed.
Print Assumptions C105_one_refusal_is_enough.

(** Nobody notices: every call does and returns what it would have without the refusals. *)
Theorem C105_unnoticed :
  forall (E : Type) (C : cfg E) ms w w' l,
    ioexec C w ms = (w', l) -> exec C (base w) (thread_moves ms) = (base w', l).
Proof. exact @unnoticed. Qed.
Print Assumptions C105_unnoticed.

(** ** Cases *)
Definition igo (t n : nat) : list (iomove string) := repeat (IMove t (CGo false)) n.
Definition ipush (t : nat) (e : string) : list (iomove string) := IMove t (CPush INFO e) :: igo t 12.

(** One event; the operating system refuses once; from then on it takes everything: a second
    event, flush(), a third event, flush(), destruction. *)
Definition once_full : list (iomove string) := ipush 1 "one" ++ [IRefuse 0 false].
Definition plenty : list (iomove string) :=
  ipush 1 "two" ++ [IMove 1 CFlush] ++ igo 1 6 ++ [ITake 100] ++
  ipush 1 "three" ++ [IMove 1 CFlush] ++ igo 1 6 ++ [ITake 100; IMove 1 CDestroy] ++ igo 1 8.

(** The claim is false: what is logged after the refusal never reaches the file. *)
Theorem C105_goes_on_refuted :
  forall k, k = KFile \/ k = KConsole -> exists (C : cfg string) n w1 l1 w l t,
    c_kind C = k /\ ioexec C (ioinit C true n) once_full = (w1, l1) /\ no_refusal plenty /\
    ioexec C w1 plenty = (w, l) /\ In (LDestroyed t) l /\
    accepted l = ["two"; "three"] /\ written l = ["two"; "three"] /\
    length (filter (fun x => match x with LReturn _ => true | _ => false end) l) = 4 /\
    concat (on_disk w) = [] /\ i_buf w = [].
Proof.
  intros k Hk. exists (wcfg k true), 1.
  destruct (ioexec (wcfg k true) (ioinit (wcfg k true) true 1) once_full) as [w1 l1] eqn:E1.
  destruct (ioexec (wcfg k true) w1 plenty) as [w l] eqn:E2. exists w1, l1, w, l, 1.
  destruct Hk as [-> | ->]; vm_compute in E1; injection E1 as <- <-; vm_compute in E2; injection E2 as <- <-;
    (split; [reflexivity|]); (split; [reflexivity|]); (split; [repeat constructor|]); (split; [reflexivity|]);
    (split; [vm_compute; tauto|]); repeat split; reflexivity.
Qed.
Print Assumptions C105_goes_on_refuted.

(** With rotation after the refusal: what follows is in the file; what was written between the
    two is not. *)
Definition rotated : list (iomove string) :=
  once_full ++ ipush 1 "two" ++ [IMove 1 CRotate] ++ igo 1 6.
Example C105_rotation :
  exists w0 l0 w1 l1 w l,
    ioexec (wcfg KFile true) (ioinit (wcfg KFile true) true 1) rotated = (w0, l0) /\
    iostep (wcfg KFile true) w0 (IMove 1 (COpen ROSame)) = (w1, l1) /\ In (LReopen 1 ROSame) l1 /\
    ioexec (wcfg KFile true) w1 (igo 1 1 ++ plenty) = (w, l) /\ no_refusal (igo 1 1 ++ plenty) /\ In (LDestroyed 1) l /\
    written l = ["two"; "three"] /\ written (l0 ++ l1) = ["one"; "two"] /\
    on_disk w = [bs "two" ++ [newline] ++ bs "three" ++ [newline]].
Proof.
  destruct (ioexec (wcfg KFile true) (ioinit (wcfg KFile true) true 1) rotated) as [w0 l0] eqn:E0.
  destruct (iostep (wcfg KFile true) w0 (IMove 1 (COpen ROSame))) as [w1 l1] eqn:E1.
  destruct (ioexec (wcfg KFile true) w1 (igo 1 1 ++ plenty)) as [w l] eqn:E2.
  exists w0, l0, w1, l1, w, l. vm_compute in E0. injection E0 as <- <-. vm_compute in E1. injection E1 as <- <-.
  vm_compute in E2. injection E2 as <- <-.
  (split; [reflexivity|]); (split; [reflexivity|]); (split; [vm_compute; tauto|]); (split; [reflexivity|]);
  (split; [repeat constructor|]); (split; [vm_compute; tauto|]); repeat split; reflexivity.
Qed.

(** Without a refusal everything is there. *)
Example C105_all_there :
  exists w l, ioexec (wcfg KFile true) (ioinit (wcfg KFile true) true 1) plenty = (w, l) /\ In (LDestroyed 1) l /\
    on_disk w = [bs "two" ++ [newline] ++ bs "three" ++ [newline]].
Proof.
  destruct (ioexec (wcfg KFile true) (ioinit (wcfg KFile true) true 1) plenty) as [w l] eqn:E.
  exists w, l. vm_compute in E. injection E as <- <-.
  (split; [reflexivity|]); (split; [vm_compute; tauto|]); reflexivity.
Qed.
