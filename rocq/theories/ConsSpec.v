(** * Vocabulary for several writers on one standard stream (C108) *)
From Coq Require Import List Arith Bool.
From Verif Require Import Base SinkModel SinkSpec ConsModel.
Import ListNotations.

Section Spec.
Context {E : Type}.

Definition creach (cf : nat -> cfg E) (n : nat -> nat) (w : console E) (tr : list (seen E)) : Prop :=
  exists ms, cexec cf (cinit cf n) ms = (w, tr).

(** All sinks are console sinks. *)
Definition console_sinks (cf : nat -> cfg E) : Prop := forall i, c_kind (cf i) = KConsole.

(** Everything the stream was given. *)
Definition the_console (w : console E) : bytes := shown w ++ kept w.

(** A piece of the output: a record of a sink, or something the program wrote. *)
Inductive piece := Record_of (i : nat) (e : E) | Program (b : bytes).
Definition piece_text (cf : nat -> cfg E) (p : piece) : bytes :=
  match p with Record_of i e => c_render (cf i) e | Program b => b end.

(** The records of sink [i] among the pieces; what the program wrote among them. *)
Definition records (i : nat) (ps : list piece) : list E :=
  flat_map (fun p => match p with Record_of j e => if Nat.eqb j i then [e] else [] | _ => [] end) ps.
Definition program (ps : list piece) : list bytes :=
  flat_map (fun p => match p with Program b => [b] | _ => [] end) ps.

(** What was observed in sink [i]; what the program wrote. *)
Definition in_sink (i : nat) (tr : list (seen E)) : list (label E) :=
  flat_map (fun x => match x with SawSink j l => if Nat.eqb j i then [l] else [] | _ => [] end) tr.
Definition printed (tr : list (seen E)) : list bytes :=
  flat_map (fun x => match x with SawProgram b => [b] | _ => [] end) tr.

End Spec.
Arguments piece : clear implicits.
