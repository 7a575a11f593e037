(** * Properties C91 and (again) C39: the message of a logging call

    [says a t]: the programmer sees the text [t] in the argument [a].  [method_request],
    [log_request]: the format and arguments that logger->info(a, args...) etc. and
    SL_INFO(logger, a, args...) etc. hand on; [formatted]: what fmt makes of them, for any
    error texts [what] and any behaviour [general] of the parts of fmt not modelled. *)

From Coq Require Import Ascii String NArith List Bool.
From Verif Require Import Base LevelModel EventModel EventProofs TextModel TextSpec TextProofs.
Import ListNotations.

(** ** C91: a text logged by itself appears as it is

    Methods, for every argument that is no string_view: the event carries it (cut to the
    maximum length), with the level of the call. *)
Theorem C91_methods_partial :
  forall what general a t, says a t -> (forall l, a <> TView l) ->
    exists fr, formatted what general (method_request a []) = Some fr /\
    forall m p name ti lvl max now tname tnum ft,
      List.length tname = 16%nat -> (now < 2 ^ 64)%N -> (tnum < 2 ^ 64)%N ->
      (p + sizeof_Event < 2 ^ 64)%N -> (N.of_nat max < 2 ^ 64)%N ->
      let e := view (construct m p name ti lvl max now tname tnum fr ft) p in
      e_message e = firstn max t /\ e_level_code e = N.of_nat (lcode lvl).
Proof.
  intros what general a t H N. exists (FmtOk t). split; [exact (value_as_is what general a t H N)|].
  intros m p name ti lvl max now tname tnum ft H1 H2 H3 H4 H5.
  destruct (exact_event m p name ti lvl max now tname tnum t ft H1 H2 H3 H4 H5) as (A & _ & B & _).
  split; assumption.
Qed.
Print Assumptions C91_methods_partial.

(** A text with braces, as it is. *)
Example C91_methods_nonvacuous :
  says (literal (bs "{a}")) (bs "{a}") /\
  (forall what general, formatted what general (method_request (literal (bs "{a}")) []) = Some (FmtOk (bs "{a}"))).
Proof.
  split; [|reflexivity]. apply (Says_array (bs "{a}") []). intros [H|[H|[H|[]]]]; discriminate.
Qed.

(** A string_view given to a method, and any text given to a macro or to log(), is taken as
    a format: it gives the text [t] if and only if it is [t] with every brace doubled. *)
Theorem C91_formats_partial :
  forall what general a f, as_format a = Some f ->
    forall t, (formatted what general (log_request a []) = Some (FmtOk t) <-> doubled t f) /\
              (formatted what general (method_request (TView f) []) = Some (FmtOk t) <-> doubled t f).
Proof. intros what general a f E t. split; [exact (log_text what general f a t E)|exact (format_text what general f t)]. Qed.
Print Assumptions C91_formats_partial.

(** So it appears as it is if and only if there is no brace in it. *)
Theorem C91_no_brace_partial :
  forall what general a t, says a t -> as_format a = Some t ->
    (formatted what general (log_request a []) = Some (FmtOk t) <-> Forall (fun c => ~ brace c) t) /\
    (formatted what general (method_request (TView t) []) = Some (FmtOk t) <-> Forall (fun c => ~ brace c) t).
Proof.
  intros what general a t _ E. split; (etransitivity; [|symmetry; exact (doubled_no_brace t)]).
  - exact (log_text what general t a t E).
  - exact (format_text what general t t).
Qed.
Print Assumptions C91_no_brace_partial.

(** All other texts give an event of level ERROR that complains about the format. *)
Theorem C91_view_refuted :
  forall what general f, (forall t, ~ doubled t f) ->
    exists fr, formatted what general (method_request (TView f) []) = Some fr /\
    formatted what general (log_request (literal f) []) = Some fr /\
    forall m p name ti lvl max now tname tnum,
      List.length tname = 16%nat -> (now < 2 ^ 64)%N -> (tnum < 2 ^ 64)%N ->
      (p + sizeof_Event < 2 ^ 64)%N -> (N.of_nat max < 2 ^ 64)%N ->
      let e := view (construct m p name ti lvl max now tname tnum fr f) p in
      e_level_code e = N.of_nat (lcode ERROR) /\
      e_message e = firstn max (bs "Format error: " ++ what f ++ bs "; Format: " ++ f).
Proof.
  intros what general f N. destruct (text_throws what general f N) as (p0 & H). exists (FmtThrow p0 (what f)).
  split; [exact H|]. split.
  { unfold log_request, literal, as_format. rewrite rev_app_distr. cbn [rev app]. rewrite rev_involutive. exact H. }
  intros m p name ti lvl max now tname tnum H1 H2 H3 H4 H5.
  destruct (format_error_event m p name ti lvl max now tname tnum p0 (what f) f H1 H2 H3 H4 H5) as (_ & A & _ & B).
  split; assumption.
Qed.
Print Assumptions C91_view_refuted.

Example C91_view_refuted_nonvacuous : forall t, ~ doubled t (bs "{a}").
Proof.
  intros t H. inversion H as [|c t' f N D|c t' f B D]; subst;
    [apply N; left; reflexivity|discriminate].
Qed.

(** A macro given an array of characters longer than its text: the rest of the array is
    logged, too. *)
Theorem C91_buffer_refuted :
  forall what general t rest, ~ In nul t -> Forall (fun c => ~ brace c) (t ++ nul :: rest) ->
    says (TArray (t ++ nul :: rest ++ [nul])) t /\
    formatted what general (method_request (TArray (t ++ nul :: rest ++ [nul])) []) = Some (FmtOk t) /\
    formatted what general (log_request (TArray (t ++ nul :: rest ++ [nul])) []) = Some (FmtOk (t ++ nul :: rest)).
Proof.
  intros what general t rest N B. pose proof (Says_array t (rest ++ [nul]) N) as S. split; [exact S|]. split.
  - apply value_as_is; [exact S|discriminate].
  - apply (log_text what general (t ++ nul :: rest)); [|apply doubled_no_brace; exact B].
    cbn [as_format]. change (t ++ nul :: rest ++ [nul]) with (t ++ (nul :: rest) ++ [nul]).
    rewrite app_assoc, rev_app_distr. cbn [rev app]. rewrite rev_involutive. reflexivity.
Qed.
Print Assumptions C91_buffer_refuted.

(** ** C39: the macros agree with the methods, as to the message

    With further arguments they do (if the format is no array longer than its text), also
    for a string_view and for a text without braces. *)
Theorem C114_message_partial :
  forall what general a t args, says a t -> as_format a = Some t ->
    args <> [] \/ a = TView t \/ Forall (fun c => ~ brace c) t ->
    formatted what general (log_request a args) = formatted what general (method_request a args).
Proof.
  intros what general a t args H E C. destruct args as [|b args].
  - destruct C as [C|[-> |C]]; [contradiction|reflexivity|].
    assert (A : formatted what general (log_request a []) = Some (FmtOk t))
      by (apply (log_text what general t _ t E); apply doubled_no_brace; exact C).
    destruct a; try reflexivity; rewrite A; symmetry; (apply value_as_is; [exact H|discriminate]).
  - f_equal. symmetry. apply (agree_args a t); [exact H|discriminate|exact E].
Qed.
Print Assumptions C114_message_partial.

(** A text with a brace given alone (here "{a}"): the method logs it, the macro complains. *)
Theorem C114_message_refuted :
  forall what general, exists p,
    formatted what general (method_request (literal (bs "{a}")) []) = Some (FmtOk (bs "{a}")) /\
    formatted what general (log_request (literal (bs "{a}")) []) = Some (FmtThrow p (what (bs "{a}"))).
Proof. intros what general. exists []. split; reflexivity. Qed.
Print Assumptions C114_message_refuted.

Example C114_message_nonvacuous : forall what general x,
  formatted what general (log_request (literal (bs "{}")) [TValue x]) = Some (FmtOk x) /\
  formatted what general (method_request (literal (bs "{}")) [TValue x]) = Some (FmtOk x).
Proof. intros. split; reflexivity. Qed.
