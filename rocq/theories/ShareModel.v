(** * Several sinks writing to one file (src/impl/sink_to_file.cpp:90-97, 204-241)

    Nothing keeps two sinks from having the same path.  Each has its own std::ofstream, opened
    with std::ios::app (file 90, 226): what a stream passes to the operating system is appended
    to the file as it then is.

    The steps are those of [SinkModel], for sinks numbered 0, 1, ...; what a step adds to the
    file as the operating system has it is appended to the one file.

    Simplifications:
    - One write of the operating system is atomic (POSIX O_APPEND).
    - Nobody renames or removes the file ([COpen ROFresh] is no move here). *)

From Coq Require Import List Arith Bool.
From Verif Require Import Base LevelModel SinkModel.
Import ListNotations.

Set Implicit Arguments.

Section Share.
Context {E : Type}.

Record shared := mkSh {
  one : nat -> state E;              (* the sinks *)
  chunks : list (nat * bytes)        (* the file: what was appended to it, and by which sink *)
}.

Variable cf : nat -> cfg E.

Definition put_one (f : nat -> state E) (i : nat) (s : state E) : nat -> state E :=
  fun j => if Nat.eqb j i then s else f j.

Inductive smove := SMove (i : nat) (m : move E).

Definition allowed (m : move E) : bool :=
  match m with MThread _ (COpen ROFresh) => false | _ => true end.

Definition sstep (w : shared) (x : smove) : shared * list (nat * label E) :=
  match x with
  | SMove i m =>
      if allowed m then
        let '(s, ls) := step (cf i) (one w i) m in
        (mkSh (put_one (one w) i s) (chunks w ++ [(i, skipn (length (cur (one w i))) (cur s))]),
         map (fun l => (i, l)) ls)
      else (w, [])
  end.

Fixpoint sexec (w : shared) (ms : list smove) : shared * list (nat * label E) :=
  match ms with
  | [] => (w, [])
  | m :: ms' => let '(w1, l1) := sstep w m in
                let '(w2, l2) := sexec w1 ms' in (w2, l1 ++ l2)
  end.

(** All have opened the (empty) file; sink [i] is used by [n i] threads. *)
Definition sinit (n : nat -> nat) : shared := mkSh (fun i => init (cf i) true (n i)) [].

End Share.
Arguments shared : clear implicits.
Arguments smove : clear implicits.
