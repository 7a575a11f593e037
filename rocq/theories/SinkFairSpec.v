(** * Vocabulary for C100: fair executions in which no call begins *)
From Coq Require Import List Arith NArith Bool.
From Verif Require Import Base LevelModel SinkModel SinkSpec.
Import ListNotations.

Section FairSpec.
Context {E : Type}.
Variable C : cfg E.

(** No thread starts a call (what is running goes on). *)
Definition no_calls (ms : list (move E)) : Prop :=
  Forall (fun m => match m with
                   | MThread _ (CPush _ _) | MThread _ CFlush | MThread _ CAsync | MThread _ CRotate
                   | MThread _ CDestroy => False
                   | _ => True
                   end) ms.

(** During [ms], executed from [s], there is a moment at which thread [t] moves, or has no call
    running, or could not move whatever the environment did. *)
Inductive had_turn (t : nat) : state E -> list (move E) -> Prop :=
| ht_now s ms : nth_error (thr s) t = Some Idle \/ ~ can_move C t s -> had_turn t s ms
| ht_move s m ms : nth_error (thr (fst (step C s m))) t <> nth_error (thr s) t -> had_turn t s (m :: ms)
| ht_later s m ms : had_turn t (fst (step C s m)) ms -> had_turn t s (m :: ms).

(** A stretch of execution in which the scheduler does not forget any thread. *)
Definition fair_round (s : state E) (ms : list (move E)) : Prop :=
  no_calls ms /\ forall t, t < length (thr s) -> had_turn t s ms.

(** [k] such stretches, one after the other. *)
Inductive rounds : nat -> state E -> list (move E) -> Prop :=
| rounds_0 s : rounds 0 s []
| rounds_S k s ms ms' : fair_round s ms -> rounds k (fst (exec C s ms)) ms' -> rounds (S k) s (ms ++ ms').

End FairSpec.
