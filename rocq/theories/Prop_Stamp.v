(** * Properties C103 and C104: the times of events and the order of the records

    The time of an event is read while it is constructed, after it has got its place in the
    queue.  [wreach C op n w tr]: any number of threads, any schedule, any passing of time;
    [tr] lists what is observed, with the time of each observation; [stamp_of w i] is the time
    stamp of the [i]-th accepted event. *)

From Coq Require Import Ascii String NArith Arith List Bool Lia.
From Verif Require Import Base LevelModel SinkModel SinkSpec SinkProps SinkWitness StampModel StampSpec StampProofs CoverProofs.
Import ListNotations.
Open Scope string_scope.
Open Scope list_scope.

(** The time stamp of an event lies between its call and the return of that call: it is not
    before anything that was observed before the event was accepted (so not before the call),
    and not after the return. *)
Theorem C103_within_the_call :
  forall (E : Type) (C : cfg E) op n w tr a x t e b,
    wreach C op n w tr -> tr = a ++ (x, LAccept t e) :: b ->
    (forall v, stamp_of w (so_far a) = Some v -> x <= v) /\
    (forall r, In (r, LReturn t) b -> exists v, stamp_of w (so_far a) = Some v /\ v <= r) /\
    (forall p l, In (p, l) a -> p <= x).
Proof. exact @stamp_in_call. Qed.
Print Assumptions C103_within_the_call.

(** Every record of the output has a time stamp; the records are the accepted events, in the
    order of acceptance. *)
Theorem C103_records :
  forall (E : Type) (C : cfg E) n, sizes_ok C -> forall w tr, wreach C true n w tr ->
    written (map snd tr) = firstn (length (written (map snd tr))) (accepted (map snd tr)) /\
    Forall (fun o => o <> None) (written_stamps w tr) /\
    length (written_stamps w tr) = length (written (map snd tr)).
Proof. exact @written_stamped. Qed.
Print Assumptions C103_records.

(** Every execution of the sink (C18-C27, from any time on) is one of these. *)
Theorem C103_every_execution :
  forall (E : Type) (C : cfg E) op n t0 ms s ls, exec C (init C op n) ms = (s, ls) ->
    exists wms w tr, wexec C (winit C op n t0) wms = (w, tr) /\ base w = s /\ map snd tr = ls.
Proof. exact @stamped_execution. Qed.
Print Assumptions C103_every_execution.

(** If one call returns before the other begins, their events are in the order of their
    times. *)
Theorem C103_apart :
  forall (E : Type) (C : cfg E) op n w tr a x t e b y u f c b1 r b2 p l g b3 v v',
    wreach C op n w tr -> tr = a ++ (x, LAccept t e) :: b ++ (y, LAccept u f) :: c ->
    b = b1 ++ (r, LReturn t) :: b2 ++ (p, LPush u l g) :: b3 ->
    stamp_of w (so_far a) = Some v -> stamp_of w (so_far (a ++ (x, LAccept t e) :: b)) = Some v' ->
    v <= v'.
Proof. exact @apart_in_order. Qed.
Print Assumptions C103_apart.

(** So are the events of one thread. *)
Theorem C103_one_thread :
  forall (E : Type) (C : cfg E) op n w tr a x t e b y f c v v',
    wreach C op n w tr -> tr = a ++ (x, LAccept t e) :: b ++ (y, LAccept t f) :: c ->
    stamp_of w (so_far a) = Some v -> stamp_of w (so_far (a ++ (x, LAccept t e) :: b)) = Some v' ->
    v <= v'.
Proof. exact @own_in_order. Qed.
Print Assumptions C103_one_thread.

(** If calls never overlap, the whole output is in the order of time. *)
Theorem C104_sorted_partial :
  forall (E : Type) (C : cfg E) op n w tr,
    wreach C op n w tr -> apart tr -> in_time_order (written_stamps w tr).
Proof. exact @sorted_if_apart. Qed.
Print Assumptions C104_sorted_partial.

(** ** Two threads at once *)
Definition mv (l : list (move string)) : list (wmove string) := map (@WMove string) l.
Definition swapped : list (wmove string) :=
  mv (push 1 INFO "one" ++ go 1 1 ++ push 2 INFO "two" ++ go 2 1) ++ [WTick 5; WStamp 2; WTick 2; WStamp 1] ++
  mv (go 1 3 ++ go 2 3 ++ [MThread 1 CFlush] ++ go 1 7 ++ [MThread 1 CFlush] ++ go 1 7).
Definition wrun (ms : list (wmove string)) := wexec (wcfg KFile false) (winit (wcfg KFile false) true 2 0) ms.
Definition swapped_end := wrun swapped.

(** Both records are in the file, the later one first. *)
Theorem C104_sorted_refuted :
  ~ (forall (E : Type) (C : cfg E) n w tr, sizes_ok C -> wreach C true n w tr -> in_time_order (written_stamps w tr)).
Proof.
  intros H. specialize (H string (wcfg KFile false) 2 (fst swapped_end) (snd swapped_end) (wsizes KFile false)).
  assert (R : wreach (wcfg KFile false) true 2 (fst swapped_end) (snd swapped_end)).
  { exists 0, swapped. unfold swapped_end, wrun. destruct (wexec _ _ _); reflexivity. }
  specialize (H R 0 1 7 5 (le_n 1)). assert (7 <= 5); [|lia]. apply H; vm_compute; reflexivity.
Qed.
Print Assumptions C104_sorted_refuted.

Example C104_swapped :
  written (map snd (snd swapped_end)) = ["one"; "two"] /\
  written_stamps (fst swapped_end) (snd swapped_end) = [Some 7; Some 5] /\
  files (base (fst swapped_end)) = [bs "one" ++ [newline] ++ bs "two" ++ [newline]].
Proof. vm_compute. auto. Qed.

(** ** Calls that do not overlap *)
Definition calm : list (wmove string) :=
  [WTick 3] ++ mv (push 1 INFO "one" ++ go 1 1) ++ [WTick 1; WStamp 1] ++ mv (go 1 3) ++ [WTick 5] ++
  mv (push 2 INFO "two" ++ go 2 1) ++ [WStamp 2] ++ mv (go 2 3 ++ [MThread 1 CFlush] ++ go 1 7 ++ [MThread 1 CFlush] ++ go 1 7).
Definition calm_end := wrun calm.
Ltac peel H k :=
  match type of H with
  | _ = ?a ++ _ =>
      let z := fresh "z" in destruct a as [|z a]; cbn [app] in H;
      [first [discriminate H|k H]|first [discriminate H|injection H as ? H; peel H k]]
  end.
Example C103_apart_nonvacuous :
  wreach (wcfg KFile false) true 2 (fst calm_end) (snd calm_end) /\ apart (snd calm_end) /\
  written_stamps (fst calm_end) (snd calm_end) = [Some 4; Some 9].
Proof.
  split; [exists 0, calm; unfold calm_end, wrun; destruct (wexec _ _ _); reflexivity|].
  split; [|vm_compute; reflexivity].
  intros a x t e b y u f c H. let v := eval vm_compute in (snd calm_end) in change (snd calm_end) with v in H.
  assert (G : a = [(3, LPush 1 INFO "one")] /\ b = [(4, LReturn 1); (9, LPush 2 INFO "two")] /\ t = 1 /\ u = 2).
  { peel H ltac:(fun H => injection H as ? ? ? H; peel H ltac:(fun H => injection H as ? ? ? H)).
    subst. auto. }
  destruct G as (-> & -> & -> & ->). exists [], 4, [], 9, INFO, "two", []. reflexivity.
Qed.
