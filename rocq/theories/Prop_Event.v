(** * Properties C07-C10: events

    [construct m p ...] is the memory after the constructor of an Event at
    address [p]; [view m p] is what the accessors return. *)

From Coq Require Import Ascii String NArith Arith List.
From Verif Require Import Base LevelModel EventModel LayoutModel EventProofs.
Import ListNotations.
Local Open Scope N_scope.

(** ** C07 *)
Theorem C07_exact :
  forall m p name ti lvl max now tname tnum text ft,
    length tname = 16%nat -> now < 2 ^ 64 -> tnum < 2 ^ 64 ->
    p + sizeof_Event < 2 ^ 64 -> N.of_nat max < 2 ^ 64 ->
    let e := view (construct m p name ti lvl max now tname tnum (FmtOk text) ft) p in
    e_message e = firstn max text /\
    e_name e = firstn 32 name /\
    e_level_code e = N.of_nat (lcode lvl) /\
    e_time e = now.
Proof. exact exact_event. Qed.
Print Assumptions C07_exact.

(** The byte-exact case below the limits. *)
Theorem C07_uncut :
  forall m p name ti lvl max now tname tnum text ft,
    length tname = 16%nat -> now < 2 ^ 64 -> tnum < 2 ^ 64 ->
    p + sizeof_Event < 2 ^ 64 -> N.of_nat max < 2 ^ 64 ->
    (length text <= max)%nat -> (length name <= 32)%nat ->
    let e := view (construct m p name ti lvl max now tname tnum (FmtOk text) ft) p in
    e_message e = text /\ e_name e = name.
Proof. exact uncut_event. Qed.
Print Assumptions C07_uncut.

Definition ex_mem : mem := fun _ => "x"%char.
Definition ex_tname : bytes := bs "worker" ++ repeat nul 10.

Example C07_nonvacuous :
  view (construct ex_mem 4096 (bs "main") TI_NAME WARN 12 1234567890123 ex_tname 3
          (FmtOk (bs "hello, world!")) (bs "{}")) 4096
  = {| e_time := 1234567890123; e_thread_number := 3; e_thread_name := bs "worker";
       e_name := bs "main"; e_level_code := 3; e_message := bs "hello, world" |}.
Proof. vm_compute. reflexivity. Qed.

(** ** C08 *)
Theorem C08_format_error :
  forall m p name ti lvl max now tname tnum partial what ft,
    length tname = 16%nat -> now < 2 ^ 64 -> tnum < 2 ^ 64 ->
    p + sizeof_Event < 2 ^ 64 -> N.of_nat max < 2 ^ 64 ->
    let e := view (construct m p name ti lvl max now tname tnum (FmtThrow partial what) ft) p in
    e_name e = bs "Soralog" /\
    e_level_code e = N.of_nat (lcode ERROR) /\
    e_time e = now /\
    e_message e = firstn max (bs "Format error: " ++ what ++ bs "; Format: " ++ ft).
Proof. exact format_error_event. Qed.
Print Assumptions C08_format_error.

Example C08_nonvacuous :
  e_message (view (construct ex_mem 4096 (bs "main") TI_ID DEBUG 64 5 ex_tname 3
     (FmtThrow (bs "partial output that is quite a bit longer than the text") (bs "bad")) (bs "{:d}")) 4096)
  = bs "Format error: bad; Format: {:d}".
Proof. vm_compute. reflexivity. Qed.

(** ** C09 *)
Theorem C09_frame :
  forall m p name ti lvl max now tname tnum ft,
    length tname = 16%nat ->
    forall fr x,
    x < p \/ p + sizeof_Event + N.of_nat max <= x ->
    construct m p name ti lvl max now tname tnum fr ft x = m x.
Proof. exact frame. Qed.
Print Assumptions C09_frame.

(** In a buffer block at address [b]: building an event in slot [i] changes no
    byte of slot [j]. *)
Theorem C09_neighbours :
  forall m b cap padding i j name ti lvl max now tname tnum fr ft x,
    length tname = 16%nat -> N.of_nat max <= padding ->
    cap <= int_max ->
    cap * (node_size sizeof_Event 8 + padding + 8) <= vector_max ->
    node_size sizeof_Event 8 + padding + 8 <= vector_max ->
    i < cap -> j < cap -> i <> j ->
    b + slot_offset sizeof_Event 8 padding j <= x ->
    x < b + slot_offset sizeof_Event 8 padding j + node_size sizeof_Event 8 + padding ->
    construct m (b + slot_offset sizeof_Event 8 padding i + item_offset 8)
              name ti lvl max now tname tnum fr ft x = m x.
Proof. exact neighbours. Qed.
Print Assumptions C09_neighbours.

Example C09_nonvacuous :
  (64 <= int_max /\ 64 * (node_size sizeof_Event 8 + 1024 + 8) <= vector_max /\
   node_size sizeof_Event 8 + 1024 + 8 <= vector_max /\
   slot_offset sizeof_Event 8 1024 3 = 3408) /\
  (* the object is really written: *)
  construct ex_mem (4096 + 3408 + 8) (bs "n") TI_NONE INFO 1024 5 ex_tname 3 (FmtOk (bs "m")) (bs "")
    (4096 + 3408 + 8 + 104) = "m"%char.
Proof. vm_compute. intuition congruence. Qed.

(** ** C10 *)
Theorem C10_thread_info :
  forall m p name ti lvl max now tname tnum fr ft,
    length tname = 16%nat -> now < 2 ^ 64 -> tnum < 2 ^ 64 ->
    p + sizeof_Event < 2 ^ 64 -> N.of_nat max < 2 ^ 64 ->
    let e := view (construct m p name ti lvl max now tname tnum fr ft) p in
    match ti with
    | TI_NONE => e_thread_number e = 0 /\ e_thread_name e = []
    | TI_ID => e_thread_number e = tnum /\ e_thread_name e = []
    | TI_NAME => e_thread_number e = tnum /\
        (length (e_thread_name e) <= 15)%nat /\
        Forall (fun b => b <> nul) (e_thread_name e) /\
        (exists rest, tname = e_thread_name e ++ rest /\
           (hd nul rest = nul \/ length (e_thread_name e) = 15%nat))
    end.
Proof. exact thread_information. Qed.
Print Assumptions C10_thread_info.
