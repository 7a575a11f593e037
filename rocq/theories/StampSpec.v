(** * Vocabulary for the time stamps of events (C103, C104) *)
From Coq Require Import List Arith Bool.
From Verif Require Import SinkModel SinkSpec StampModel.
Import ListNotations.

Section Spec.
Context {E : Type}.

(** Reachable at any time, by any threads, with trace [tr] (observations and their times). *)
Definition wreach (C : cfg E) (op : bool) (clients : nat) (w : wstate E) (tr : list (nat * label E)) : Prop :=
  exists t0 ms, wexec C (winit C op clients t0) ms = (w, tr).

(** How many events were accepted: the next one accepted gets this number. *)
Definition so_far (tr : list (nat * label E)) : nat := length (accepted (map snd tr)).

(** The stamps of the records written, in the order in which they were written: records are
    written in the order of acceptance (C19). *)
Definition written_stamps (w : wstate E) (tr : list (nat * label E)) : list (option nat) :=
  firstn (length (written (map snd tr))) (stamps w).

(** Sorted by time. *)
Definition in_time_order (l : list (option nat)) : Prop :=
  forall i j x y, i < j -> nth_error l i = Some (Some x) -> nth_error l j = Some (Some y) -> x <= y.

(** Calls of push() do not overlap: between the acceptance of an event and that of the next one
    by somebody else, the first call returns and then the other begins. *)
Definition apart (tr : list (nat * label E)) : Prop :=
  forall a x t e b y u f c, tr = a ++ (x, LAccept t e) :: b ++ (y, LAccept u f) :: c ->
    exists b1 r b2 p l g b3, b = b1 ++ (r, LReturn t) :: b2 ++ (p, LPush u l g) :: b3.

End Spec.
