(** * Witnesses for the syslog sink *)
From Coq Require Import Ascii String NArith Arith List Lia.
From Verif Require Import Base LevelModel EventModel RecordModel RecordSpec
  SyslogModel SyslogSpec SyslogProofs.
Import ListNotations.

Lemma flush_priorities cap lt ti es sent : sys_flush cap lt ti es = Some sent ->
    map fst sent = flat_map (fun e => sys_priorities (v_level e)) es.
Proof. apply priorities_of_flush. Qed.

Lemma single_event cap lt ti e :
    tm_ok (lt (v_time e / 1000000000)%N) -> (1000000000 <= v_time e)%N ->
    length (sys_line lt ti e) < cap -> no_byte nul (sys_line lt ti e) ->
    sys_flush cap lt ti [e] = Some (map (fun p => (p, sys_line lt ti e)) (sys_priorities (v_level e))).
Proof. intros H1 H2. apply single. split; assumption. Qed.

Definition w_lt (s : N) : tm := mkTm 1 1 1 1 1 1.
Definition w_ev (m : string) : ev := mkEv 1000000000 0 [] INFO (bs "a") (bs m).

Lemma own_text_witness :
  exists cap lt ti e1 e2 sent,
    Forall (fun x => tm_ok (lt (v_time x / 1000000000)%N) /\ (1000000000 <= v_time x)%N) [e1; e2] /\
    sys_flush cap lt ti [e1; e2] = Some sent /\
    map snd sent <> [sys_line lt ti e1; sys_line lt ti e2].
Proof.
  exists 500, w_lt, TI_NONE, (w_ev "x"), (w_ev "y").
  eexists. split; [|split; [vm_compute; reflexivity|]].
  - repeat constructor; vm_compute; intuition (try reflexivity; discriminate).
  - vm_compute. intros H. discriminate H.
Qed.

Lemma overrun_witness cap : exists lt ti es,
    Forall (fun x => ev_ok x /\ tm_ok (lt (v_time x / 1000000000)%N) /\ length (v_msg x) <= 1) es /\
    sys_flush cap lt ti es = None.
Proof.
  exists w_lt, TI_NONE, (repeat (w_ev "x") (S cap)). split.
  - apply Forall_forall. intros x Hin. apply repeat_spec in Hin. subst x.
    split; [|split; [vm_compute; intuition reflexivity|vm_compute; lia]].
    split; [vm_compute; lia|split; [vm_compute; lia|split; [constructor|reflexivity]]].
  - rewrite sys_flush_exact.
    2:{ apply Forall_forall. intros x Hin. apply repeat_spec in Hin. subst x.
        split; [vm_compute; intuition reflexivity|vm_compute; discriminate]. }
    assert (L : forall n, n <= length (sys_text w_lt TI_NONE (repeat (w_ev "x") n))).
    { induction n as [|n IH]; [lia|]. unfold sys_text in *. cbn [repeat map concat].
      rewrite app_length. cbn [repeat map concat] in *.
      assert (1 <= length (sys_line w_lt TI_NONE (w_ev "x") ++ [nul])) by (vm_compute; lia). lia. }
    specialize (L (S cap)).
    destruct (Nat.leb_spec (length (sys_text w_lt TI_NONE (repeat (w_ev "x") (S cap)))) cap); [lia|reflexivity].
Qed.
