(** * Proofs about messages *)

From Coq Require Import Ascii String List Bool Arith Lia.
From Verif Require Import Base EventModel UtilModel TextModel TextSpec.
Import ListNotations.

Lemma c_str_text l rest : ~ In nul l -> c_str (l ++ nul :: rest) = l.
Proof.
  induction l as [|c l IH]; intros H.
  - reflexivity.
  - cbn [app c_str]. destruct (Ascii.eqb_spec c nul) as [->|N].
    + exfalso. apply H. left. reflexivity.
    + f_equal. apply IH. intros K. apply H. right. exact K.
Qed.

Lemma printed_says a t : says a t -> printed a = t.
Proof. intros H. destruct H; cbn [printed]; [apply c_str_text; assumption|reflexivity..]. Qed.

Section Fmt.
Variable what : bytes -> bytes.
Variable general : bytes -> list arg -> fmt_result.

Lemma value_as_is a t : says a t -> (forall l, a <> TView l) ->
  formatted what general (method_request a []) = Some (FmtOk t).
Proof.
  intros H N. unfold method_request.
  assert (E : formatted what general (Some (bs "{}", [a])) = Some (FmtOk t)).
  { cbn [formatted vformat]. destruct (list_eq_dec _ _ _) as [_|C]; [|exfalso; apply C; reflexivity].
    rewrite (printed_says a t H). reflexivity. }
  destruct a; try exact E. exfalso. exact (N _ eq_refl).
Qed.

Lemma eqb_brace c : (Ascii.eqb c lbrace = false /\ Ascii.eqb c rbrace = false) <-> ~ brace c.
Proof.
  unfold brace, lbrace, rbrace. split.
  - intros [A B] [-> | ->]; [discriminate A|discriminate B].
  - intros N. split; apply Ascii.eqb_neq; intros ->; apply N; auto.
Qed.

Lemma plain_doubled w t f : doubled t f -> forall out, plain what w f out = FmtOk (out ++ t).
Proof.
  induction 1 as [|c t f N D IH|c t f B D IH]; intros out.
  - cbn. rewrite app_nil_r. reflexivity.
  - cbn [plain]. apply eqb_brace in N as [-> ->]. rewrite IH, <- app_assoc. reflexivity.
  - destruct B as [-> | ->]; cbn; rewrite IH, <- app_assoc; reflexivity.
Qed.

Lemma plain_ok w : forall n f, List.length f <= n -> forall out x, plain what w f out = FmtOk x ->
  exists t, x = out ++ t /\ doubled t f.
Proof.
  induction n as [|n IH]; intros f L out x H.
  - destruct f; [|cbn in L; lia]. injection H as <-. exists []. rewrite app_nil_r. split; [reflexivity|constructor].
  - destruct f as [|c r].
    { injection H as <-. exists []. rewrite app_nil_r. split; [reflexivity|constructor]. }
    cbn in L. cbn [plain] in H.
    destruct (Ascii.eqb_spec c lbrace) as [->|N1].
    + destruct r as [|d r']; [discriminate|]. destruct (Ascii.eqb_spec d lbrace) as [->|]; [|discriminate].
      cbn in L. destruct (IH r' ltac:(lia) _ _ H) as (t & -> & D). exists (lbrace :: t).
      split; [rewrite <- app_assoc; reflexivity|]. apply D_brace; [left; reflexivity|exact D].
    + destruct (Ascii.eqb_spec c rbrace) as [->|N2].
      * destruct r as [|d r']; [discriminate|]. destruct (Ascii.eqb_spec d rbrace) as [->|]; [|discriminate].
        cbn in L. destruct (IH r' ltac:(lia) _ _ H) as (t & -> & D). exists (rbrace :: t).
        split; [rewrite <- app_assoc; reflexivity|]. apply D_brace; [right; reflexivity|exact D].
      * destruct (IH r ltac:(lia) _ _ H) as (t & -> & D). exists (c :: t).
        split; [rewrite <- app_assoc; reflexivity|].
        apply D_plain; [intros [-> | ->]; [apply N1|apply N2]; reflexivity|exact D].
Qed.

Lemma plain_iff f t : plain what f f [] = FmtOk t <-> doubled t f.
Proof.
  split.
  - intros H. destruct (plain_ok f _ f (le_n _) [] t H) as (t' & -> & D). exact D.
  - intros D. exact (plain_doubled f t f D []).
Qed.

Lemma plain_cases w : forall n f, List.length f <= n -> forall out, exists x, plain what w f out = FmtOk x \/ plain what w f out = FmtThrow x (what w).
Proof.
  induction n as [|n IH]; intros f L out.
  - destruct f; [|cbn in L; lia]. exists out. left. reflexivity.
  - destruct f as [|c r]; [exists out; left; reflexivity|]. cbn in L. cbn [plain].
    destruct (Ascii.eqb c lbrace).
    { destruct r as [|d r']; [exists out; right; reflexivity|].
      destruct (Ascii.eqb d lbrace); [|exists out; right; reflexivity].
      cbn in L. apply IH. lia. }
    destruct (Ascii.eqb c rbrace).
    { destruct r as [|d r']; [exists out; right; reflexivity|].
      destruct (Ascii.eqb d rbrace); [|exists out; right; reflexivity].
      cbn in L. apply IH. lia. }
    apply IH. lia.
Qed.

Lemma doubled_self t f : doubled t f -> List.length t <= List.length f /\ (List.length t = List.length f -> Forall (fun c => ~ brace c) t /\ t = f).
Proof.
  induction 1 as [|c t f N D [IL IH]|c t f B D [IL IH]]; cbn [List.length].
  - split; [lia|]. intros _. split; [constructor|reflexivity].
  - split; [lia|]. intros E. destruct (IH ltac:(lia)) as [A ->]. split; [constructor; assumption|reflexivity].
  - split; [lia|]. intros E. lia.
Qed.

Lemma doubled_no_brace t : Forall (fun c => ~ brace c) t <-> doubled t t.
Proof.
  split.
  - induction 1; constructor; assumption.
  - intros D. exact (proj1 (proj2 (doubled_self t t D) eq_refl)).
Qed.

(** A single text given to a macro, to log() or, as a view, to a method is a format. *)
Lemma format_text f t : formatted what general (method_request (TView f) []) = Some (FmtOk t) <-> doubled t f.
Proof.
  cbn [method_request formatted vformat]. split.
  - intros H. injection H as H. apply plain_iff. exact H.
  - intros D. f_equal. apply plain_iff. exact D.
Qed.

Lemma log_text f a t : as_format a = Some f ->
  (formatted what general (log_request a []) = Some (FmtOk t) <-> doubled t f).
Proof. intros E. unfold log_request. rewrite E. exact (format_text f t). Qed.

Lemma text_throws f : (forall t, ~ doubled t f) -> exists p,
  formatted what general (method_request (TView f) []) = Some (FmtThrow p (what f)).
Proof.
  intros N. cbn [method_request formatted vformat]. destruct (plain_cases f _ f (le_n _) []) as (x & [H|H]).
  - exfalso. exact (N x (proj1 (plain_iff f x) H)).
  - exists x. rewrite H. reflexivity.
Qed.

Lemma as_format_says a t : says a t ->
  as_format a = Some t \/ (exists rest, rest <> [] /\ a = TArray (t ++ nul :: rest)) \/ a = TValue t.
Proof.
  intros H. destruct H as [l rest N|l|l|l|l]; auto.
  destruct rest as [|c rest].
  - left. cbn [as_format]. rewrite rev_app_distr. cbn [rev app]. rewrite rev_involutive. reflexivity.
  - right. left. exists (c :: rest). split; [discriminate|reflexivity].
Qed.

(** With further arguments, methods and macros agree. *)
Lemma agree_args a t args : says a t -> args <> [] -> as_format a = Some t ->
  method_request a args = log_request a args.
Proof.
  intros H N E. destruct args as [|b args]; [contradiction|]. unfold method_request, log_request. rewrite E.
  destruct H; cbn [as_view]; try (rewrite c_str_text by assumption); try reflexivity. discriminate E.
Qed.

End Fmt.
