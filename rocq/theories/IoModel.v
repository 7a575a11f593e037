(** * A stream that refuses (full disk, closed pipe)
      (src/impl/sink_to_file.cpp:90-97, 204-241, src/impl/sink_to_console.cpp:300-314)

    The steps are those of [SinkModel] for file and console sinks, the destination is a
    std::ostream with its state: output operations on a stream that is not good() do nothing
    (C++ standard, [ostream.formatted.reqmts], [ostream.unformatted]); the code calls neither
    clear() nor good().  Only a new stream (file 227-239: the swapped in one) is good again.

    The operating system may refuse what the stream gives it at any moment (in the middle of
    write(), flush(), or of its own accord when the buffer is full); it may have taken a part.
    Whether the rest stays in the buffer of the stream differs between standard libraries, and
    so does whether flush() of a stream that is not good offers it again: both are left open
    ([IRefuse], [ITake]).  Closing the stream offers it again.

    Simplifications:
    - What the operating system took it does not get a second time.
    - The steps of [SinkModel] keep their own account of what the program has written. *)

From Coq Require Import List Arith NArith Bool.
From Verif Require Import Base LevelModel SinkModel.
Import ListNotations.

Set Implicit Arguments.

Section Io.
Context {E : Type}.

Record iostate := mkIo {
  base : state E;
  good : bool;               (* out_.good() *)
  i_closed : list bytes;     (* files left behind by rotation *)
  i_cur : bytes;             (* the current file as the operating system has it *)
  i_buf : bytes              (* in the buffer of the stream *)
}.

Variable C : cfg E.

(** A step of a thread; the operating system takes [n] bytes; it takes [n] bytes and refuses
    the next one, which is then kept ([keep]) or not. *)
Inductive iomove := IMove (t : nat) (c : choice E) | ITake (n : nat) | IRefuse (n : nat) (keep : bool).

(** out_.write (file 209, console 305). *)
Definition io_write (w : iostate) (s : state E) (r : bytes) : iostate :=
  if good w then mkIo s (good w) (i_closed w) (i_cur w) (i_buf w ++ r)
  else mkIo s (good w) (i_closed w) (i_cur w) (i_buf w).

(** out_.flush() (file 217, console 313). *)
Definition io_flush (w : iostate) (s : state E) : iostate :=
  if good w then mkIo s (good w) (i_closed w) (i_cur w ++ i_buf w) []
  else mkIo s (good w) (i_closed w) (i_cur w) (i_buf w).

(** The destructor of the stream closes the file: what is in the buffer is offered. *)
Definition io_close (w : iostate) (s : state E) : iostate :=
  mkIo s (good w) (i_closed w) (i_cur w ++ i_buf w) [].

(** The newly opened stream is swapped in, the old one destroyed (file 227-239). *)
Definition io_reopen (w : iostate) (s : state E) (fresh : bool) : iostate :=
  if fresh && opened (base w)
  then mkIo s true (i_closed w ++ [i_cur w ++ i_buf w]) [] []
  else mkIo s true (i_closed w) (i_cur w ++ i_buf w) [].

(** What a step does to the stream: seen from where the thread was and what it did. *)
Definition io_after (w : iostate) (p : pc E) (s : state E) (ls : list (label E)) : iostate :=
  match p, ls with
  | FWrite _ (Some e), [LWrite _ _] => io_write w s (c_render C e)
  | FStream _, _ => io_flush w s
  | FReopen _, [LReopen _ ROSame] => io_reopen w s false
  | FReopen _, [LReopen _ ROFresh] => io_reopen w s true
  | DClose, _ => match c_kind C with KFile => io_close w s
                                   | _ => mkIo s (good w) (i_closed w) (i_cur w) (i_buf w) end
  | _, _ => mkIo s (good w) (i_closed w) (i_cur w) (i_buf w)
  end.

Definition iostep (w : iostate) (m : iomove) : iostate * list (label E) :=
  match m with
  | IMove t c =>
      match nth_error (thr (base w)) t with
      | Some p => let '(s, ls) := step_thread C (base w) t c p in (io_after w p s ls, ls)
      | None => (w, [])
      end
  | ITake n => (mkIo (base w) (good w) (i_closed w) (i_cur w ++ firstn n (i_buf w)) (skipn n (i_buf w)), [])
  | IRefuse n keep =>
      (mkIo (base w) false (i_closed w) (i_cur w ++ firstn n (i_buf w)) (if keep then skipn n (i_buf w) else []), [])
  end.

Fixpoint ioexec (w : iostate) (ms : list iomove) : iostate * list (label E) :=
  match ms with
  | [] => (w, [])
  | m :: ms' => let '(w1, l1) := iostep w m in
                let '(w2, l2) := ioexec w1 ms' in (w2, l1 ++ l2)
  end.

(** The sink has just been made; [op]: its file could be opened. *)
Definition ioinit (op : bool) (clients : nat) : iostate := mkIo (init C op clients) op [] [] [].

End Io.
Arguments iostate : clear implicits.
Arguments iomove : clear implicits.
