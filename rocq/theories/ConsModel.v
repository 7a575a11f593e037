(** * Several console sinks and the program itself writing to one standard stream
      (src/impl/sink_to_console.cpp:152, 299-315)

    All console sinks of a process that write to stdout have a reference to std::cout (the
    others to std::cerr), and the program writes to it too.

    The steps of the sinks are those of [SinkModel]; what a step writes is appended to the
    buffer of the one stream.

    Simplifications:
    - One write() on the stream is atomic.  This is so for the standard streams as long as they
      are synchronised with stdio, which they are unless the program switches it off (then two
      sinks on one stream are a data race).
    - The stream takes everything (for refusals see [IoModel]).
    - The fields [cur] and [obuf] of a single sink have no meaning here. *)

From Coq Require Import List Arith Bool.
From Verif Require Import Base LevelModel SinkModel.
Import ListNotations.

Set Implicit Arguments.

Section Cons.
Context {E : Type}.

Record console := mkCons {
  member : nat -> state E;       (* the sinks *)
  shown : bytes;                 (* what the stream has passed on *)
  kept : bytes                   (* what is in its buffer *)
}.

Variable cf : nat -> cfg E.

(** What is observed: something in a sink, or a write of the program. *)
Inductive seen := SawSink (i : nat) (l : label E) | SawProgram (b : bytes).

Inductive cmove :=
| CSink (i : nat) (t : nat) (c : choice E)   (* a step of thread [t] in sink [i] *)
| CProgram (b : bytes)                       (* the program writes to the stream *)
| CFlushed                                   (* the program flushes the stream *)
| CSpill (n : nat).                          (* the stream passes on [n] bytes of its own accord *)

Definition put_member (f : nat -> state E) (i : nat) (s : state E) : nat -> state E :=
  fun j => if Nat.eqb j i then s else f j.

(** stream_.write(begin, ptr - begin) (305) *)
Definition write_of (C : cfg E) (ls : list (label E)) : bytes :=
  flat_map (fun l => match l with LWrite _ e => c_render C e | _ => [] end) ls.

(** stream_.flush() (313): is thread [t] about to call it? *)
Definition at_flush (s : state E) (t : nat) : bool :=
  match nth_error (thr s) t with Some (FStream _) => true | _ => false end.

Definition cstep (w : console) (x : cmove) : console * list seen :=
  match x with
  | CSink i t c =>
      let '(s, ls) := step (cf i) (member w i) (MThread t c) in
      let f := put_member (member w) i s in
      (if at_flush (member w i) t then mkCons f (shown w ++ kept w) []
       else mkCons f (shown w) (kept w ++ write_of (cf i) ls),
       map (SawSink i) ls)
  | CProgram b => (mkCons (member w) (shown w) (kept w ++ b), [SawProgram b])
  | CFlushed => (mkCons (member w) (shown w ++ kept w) [], [])
  | CSpill n => (mkCons (member w) (shown w ++ firstn n (kept w)) (skipn n (kept w)), [])
  end.

Fixpoint cexec (w : console) (ms : list cmove) : console * list seen :=
  match ms with
  | [] => (w, [])
  | m :: ms' => let '(w1, l1) := cstep w m in
                let '(w2, l2) := cexec w1 ms' in (w2, l1 ++ l2)
  end.

Definition cinit (n : nat -> nat) : console := mkCons (fun i => init (cf i) true (n i)) [] [].

End Cons.
Arguments console : clear implicits.
Arguments cmove : clear implicits.
Arguments seen : clear implicits.
