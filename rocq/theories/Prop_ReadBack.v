(** * Property C95: what was logged can be read back from the file

    [file_sink F]: a file sink with settings [F], over its circular buffer ([FullModel]); its
    events are the calls, [stored] as objects and [rendered] by flush().  [reads F e]: what the
    reader of a line should get for the call [e]; [read_file F]: the complete lines of a file,
    taken apart. *)

From Coq Require Import Ascii String NArith Arith List Bool Lia.
From Verif Require Import Base LevelModel EventModel RecordModel RecordSpec SinkModel SinkSpec FullModel FullSpec
  EndModel EndSpec EndProofs.
Import ListNotations.

(** Nothing is written past the end of the buffer. *)
Theorem C95_within_buffer :
  forall F, settings_ok F -> forall e, call_ok e -> rendered F e <> None.
Proof. exact within_buffer. Qed.
Print Assumptions C95_within_buffer.

(** After the destruction of a sink with a worker, whatever any number of threads did before:
    the files, one more than there were rotations to a new file, contain the accepted calls,
    in this order, and nothing else. *)
Theorem C95_read_back :
  forall F, settings_ok F ->
  forall n s ls t, c_lat0 (file_sink F) = false -> freach (file_sink F) true n s ls -> In (LDestroyed t) ls ->
    Forall (fun e => call_ok e /\ legible e) (accepted ls) ->
    exists runs, length runs = 1 + fresh_files ls /\ concat runs = accepted ls /\
      map (read_file F) (disk (rest s)) = map (map (reads F)) runs.
Proof. exact destroyed_read. Qed.
Print Assumptions C95_read_back.

(** And those are all: every call of any thread whose level is one for this sink was
    accepted, in the order of its calls. *)
Theorem C95_nothing_missing :
  forall F, settings_ok F ->
  forall n s ls t u, freach (file_sink F) true n s ls -> In (LDestroyed t) ls -> 1 <= u <= n ->
    accepted_by u ls = for_sink_by (f_level F) u ls.
Proof. exact destroyed_all. Qed.
Print Assumptions C95_nothing_missing.

(** If the program dies at any moment: the complete lines in the files are the first calls
    accepted. *)
Theorem C95_read_back_after_crash :
  forall F, settings_ok F ->
  forall n s ls, freach (file_sink F) true n s ls ->
    Forall (fun e => call_ok e /\ legible e) (accepted ls) ->
    exists k, flat_map (read_file F) (disk (rest s)) = map (reads F) (firstn k (accepted ls)).
Proof. exact crash_read. Qed.
Print Assumptions C95_read_back_after_crash.

(** Three calls by two threads, one of them with a broken format and one cut, with a
    rotation. *)
Definition ex_F : fsettings :=
  mkFs INFO TI_NAME 4 20 416 false (fun s => mkTm 24 2 29 12 (s / 60 mod 60) (s mod 60)) (fun _ => "x"%char) 4096.
Definition call (tn : string) (lv : level) (r : fmt_result) : logged :=
  mkLogged 1709209055123456789 (bs tn ++ repeat nul (16 - String.length tn)) 7 lv (bs "core") r (bs "{:d}").
Definition g (t n : nat) : list (move logged) := repeat (MThread t (CGo false)) n.
Definition log_ (t : nat) (e : logged) : list (move logged) := MThread t (CPush (g_level e) e) :: g t 13.
Definition ex_a := call "main" INFO (FmtOk (bs "hello")).
Definition ex_b := call "worker" WARN (FmtOk (bs "this text is too long for it")).
Definition ex_c := call "main" INFO (FmtThrow [] (bs "bad")).
Definition round_ : list (move logged) := MThread 0 (CWake true) :: g 0 9 ++ g 0 9 ++ MThread 0 (COpen ROFresh) :: g 0 5.
Definition ex95 := fexec (file_sink ex_F) (finit (file_sink ex_F) true 2)
  (log_ 1 ex_a ++ log_ 2 ex_b ++ round_ ++ [MThread 2 CRotate] ++ g 2 2 ++ round_ ++ log_ 1 ex_c ++
   [MThread 1 CDestroy] ++ g 1 2 ++ round_ ++ round_ ++ round_ ++ round_ ++ g 1 4).
Example C95_nonvacuous :
  match ex95 with
  | Some (s, ls) =>
      In (LDestroyed 1) ls /\ accepted ls = [ex_a; ex_b; ex_c] /\ fresh_files ls = 1 /\
      disk (rest s) =
        [bs "24.02.29 12:17:35.123456  main             Info      core  hello" ++ [newline] ++
         bs "24.02.29 12:17:35.123456  worker           Warning   core  this text is too lon" ++ [newline];
         bs "24.02.29 12:17:35.123456  main             Error     Soralog  Format error: bad; F" ++ [newline]]
  | None => False
  end.
Proof. vm_compute. repeat split. tauto. Qed.

Example C95_hypotheses_met :
  settings_ok ex_F /\ c_lat0 (file_sink ex_F) = false /\
  Forall (fun e => call_ok e /\ legible e) [ex_a; ex_b; ex_c].
Proof.
  assert (NB : forall l, existsb (Ascii.eqb newline) l = false -> no_byte newline l).
  { intros l H Hi. assert (E : existsb (Ascii.eqb newline) l = true); [|congruence].
    apply existsb_exists. exists newline. split; [exact Hi|apply Ascii.eqb_refl]. }
  assert (RN : forall l, count_occ Ascii.ascii_dec l space = 0 -> readable_name l).
  { intros l H. split.
    - intros a b ->. rewrite !count_occ_app in H. change (count_occ ascii_dec [space; space] space) with 2 in H. lia.
    - intros a ->. rewrite count_occ_app in H. change (count_occ ascii_dec [space] space) with 1 in H. lia. }
  split; [|split; [reflexivity|]].
  - split; [vm_compute; discriminate|]. split; [reflexivity|]. split; [reflexivity|]. split; [|cbn; lia].
    intros s. unfold tm_ok, ex_F. cbn [f_localtime tm_yy tm_mm tm_dd tm_h tm_m tm_s].
    assert (forall x, x mod 60 < 100)%N by (intros x; apply N.lt_trans with 60%N; [apply N.mod_lt; discriminate|reflexivity]).
    repeat split; try reflexivity; auto.
  - repeat (apply Forall_cons; [split; [vm_compute; repeat split; discriminate|]|]); [| | |apply Forall_nil];
      (split; [apply NB; reflexivity|]); (split; [apply NB; reflexivity|]); (split; [apply NB; reflexivity|apply RN; reflexivity]).
Qed.
