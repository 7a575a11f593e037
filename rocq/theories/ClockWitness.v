(** * Witnesses for the properties of a sink with threads and a clock *)
From Coq Require Import Ascii String NArith Arith List Bool Lia.
From Verif Require Import Base LevelModel SinkModel SinkSpec SinkWitness ClockModel ClockSpec ClockEnd.
Import ListNotations.

Section Go.
Context {E : Type}.
Variable T : tcfg E.

Definition cdo (s : cstate E) (ev : event E) : option (cstate E * list (label E)) :=
  match ev with
  | Move m => if may s m then Some (cstep T s m) else None
  | Read => match at_pc (base s) 0, until s with
            | Some WWait, None => Some (mkC (base s) (now s) (next s) (Some (next s)), [])
            | _, _ => None
            end
  | Tick d => Some (mkC (base s) (now s + d) (next s) (until s), [])
  end.

Fixpoint cgo (s : cstate E) (evs : list (event E)) : option (list (cstate E * event E) * cstate E * list (nat * label E)) :=
  match evs with
  | [] => Some ([], s, [])
  | ev :: evs' =>
      match cdo s ev with
      | Some (s1, ls) =>
          match cgo s1 evs' with
          | Some (h, s2, tr) => Some ((s, ev) :: h, s2, map (fun l => (now s, l)) ls ++ tr)
          | None => None
          end
      | None => None
      end
  end.

Lemma cdo_next s ev s' ls : cdo s ev = Some (s', ls) -> cnext T s ev s' ls.
Proof.
  destruct ev as [m| |d]; cbn [cdo].
  - destruct (may s m) eqn:M; [|discriminate]. intros H. injection H as H. constructor; [exact M|exact H].
  - destruct (until s) eqn:U; destruct (at_pc (base s) 0) as [[]|] eqn:A; try discriminate.
    intros H. injection H as <- <-. constructor; assumption.
  - intros H. injection H as <- <-. constructor.
Qed.

Lemma cgo_run evs : forall s h s' tr, cgo s evs = Some (h, s', tr) -> crun T s h s' tr.
Proof.
  induction evs as [|ev evs IH]; cbn; intros s h s' tr H.
  - injection H as <- <- <-. constructor.
  - destruct (cdo s ev) as [[s1 ls]|] eqn:D; [|discriminate].
    destruct (cgo s1 evs) as [[[h1 s2] tr1]|] eqn:G; [|discriminate]. injection H as <- <- <-.
    change ((s, ev) :: h1) with ([(s, ev)] ++ h1).
    apply crun_app with (s1 := s1); [|apply IH; exact G].
    change [(s, ev)] with ([] ++ [(s, ev)]). change (map (fun l => (now s, l)) ls) with ([] ++ map (fun l => (now s, l)) ls).
    eapply R_snoc; [constructor|]. apply cdo_next. exact D.
Qed.

Definition calmb (x : cstate E * event E) : bool :=
  match snd x with
  | Tick d =>
      Nat.eqb d 0 ||
      (negb (fip (base (fst x))) &&
       match nth_error (thr (base (fst x))) 0, until (fst x) with
       | Some WWait, Some u => Nat.leb (now (fst x) + d) u
       | Some WDone, _ => true
       | _, _ => false
       end)
  | _ => true
  end.

Lemma calmb_calm x : calmb x = true -> calm x.
Proof.
  unfold calmb, calm. destruct (snd x) as [m| |d]; auto. intros H. apply orb_true_iff in H as [H|H].
  - left. apply Nat.eqb_eq. exact H.
  - right. apply andb_true_iff in H as [H1 H2]. split; [destruct (fip _); [discriminate|reflexivity]|].
    destruct (until (fst x)); destruct (nth_error (thr (base (fst x))) 0) as [[]|]; try discriminate; auto.
    apply Nat.leb_le. exact H2.
Qed.

Lemma quickb (h : list (cstate E * event E)) : forallb calmb h = true -> quick h.
Proof. intros H. apply Forall_forall. intros x Hx. apply calmb_calm. exact (proj1 (forallb_forall _ _) H x Hx). Qed.

Definition tell (C : cfg E) (b : bool) (x : cstate E * event E) : bool :=
  if asleep (fst x) then match snd x with Move (MThread 0 _) => false | _ => b || notifies C x end else false.
Fixpoint promptb (C : cfg E) (b : bool) (h : list (cstate E * event E)) : bool :=
  match h with
  | [] => true
  | x :: h' => match snd x with Tick d => Nat.eqb d 0 || negb b | _ => true end && promptb C (tell C b x) h'
  end.
Lemma promptb_prompt C h : promptb C false h = true -> prompt C h.
Proof.
  assert (G : forall h1 b s d h2, promptb C b (h1 ++ (s, Tick d) :: h2) = true -> 0 < d -> fold_left (tell C) h1 b = false).
  2: { intros H h1 s d h2 -> Hd. exact (G h1 false s d h2 H Hd). }
  clear h. induction h1 as [|x h1 IH]; intros b s d h2 H Hd.
  - cbn in H. apply andb_true_iff in H as [H _]. apply orb_true_iff in H as [H|H]; [apply Nat.eqb_eq in H; lia|].
    destruct b; [discriminate|reflexivity].
  - cbn [app promptb] in H. apply andb_true_iff in H as [_ H]. cbn [fold_left]. eapply IH; eassumption.
Qed.

Definition steadyb (h : list (cstate E * event E)) : bool :=
  forallb (fun x => match snd x with Move m => negb (spurious m) | _ => true end) h.
Lemma steadyb_steady h : steadyb h = true -> steady h.
Proof.
  intros H. apply Forall_forall. intros x Hx. pose proof (proj1 (forallb_forall _ _) H x Hx) as G. cbv beta in G.
  destruct (snd x); auto. destruct (spurious m); [discriminate|reflexivity].
Qed.

End Go.

(** A small console sink: latency 200. *)
Definition ctc : tcfg string := mkTcfg (wcfg KConsole false) 200 false.
Definition mv (t : nat) (n : nat) : list (event string) := repeat (Move (MThread t (CGo false))) n.
Definition cpush (t : nat) (e : string) : list (event string) := Move (MThread t (CPush INFO e)) :: mv t 4.
Definition round : list (event string) := Read :: Move (MThread 0 (CWake true)) :: mv 0 7.

(** Two clients push three events at once; one is in the middle of its push while the other
    one flushes; the worker writes one event per period. *)
Definition w89 : list (event string) :=
  (Move (MThread 1 (CPush INFO "one")) :: mv 1 2) ++ cpush 2 "two" ++
  (* client 2 flushes, and has to wait for client 1 *)
  Move (MThread 2 CFlush) :: mv 2 2 ++ mv 1 2 ++ mv 2 6 ++
  cpush 1 "three" ++ [Read; Tick 200; Move (MThread 0 (CWake true))] ++ mv 0 7 ++ [Read; Tick 150].

Definition events_of (tr : list (nat * label string)) : list (nat * label string) :=
  filter (fun x => match snd x with LAccept _ _ | LWrite _ _ => true | _ => false end) tr.

Lemma C89_witness : exists h s tr, crun ctc (cstart ctc 2 0) h s tr /\ quick h /\ now s = 350 /\
  events_of tr = [(0, LAccept 1 "one"%string); (0, LAccept 2 "two"%string); (0, LWrite 2 "one"%string);
                  (0, LAccept 1 "three"%string); (200, LWrite 0 "two"%string)].
Proof.
  destruct (cgo ctc (cstart ctc 2 0) w89) as [[[h s] tr]|] eqn:H; [|vm_compute in H; discriminate].
  exists h, s, tr. split; [apply (cgo_run ctc w89); exact H|].
  assert (Q : forallb calmb h = true) by (vm_compute in H; injection H as <- <- <-; reflexivity).
  split; [apply quickb; exact Q|]. vm_compute in H. injection H as <- <- <-. split; reflexivity.
Qed.

(** The same sink with "three" in the queue is destroyed at 350 and ends at 400. *)
Definition w75 : list (event string) := w89 ++ Move (MThread 1 CDestroy) :: mv 1 2.
Definition w75b : list (event string) := [Tick 50; Move (MThread 0 (CWake true))] ++ mv 0 9.

Lemma C75_clock_witness : exists h s1 tr h2 s2 tr2, crun ctc (cstart ctc 2 0) h s1 tr /\ crun ctc s1 h2 s2 tr2 /\
  quick (h ++ h2) /\ Forall sees_end h2 /\ fin (base s1) = true /\ pending (base s1) = ["three"%string] /\
  nth_error (thr (base s2)) 0 = Some WDone /\ now s1 = 350 /\ now s2 = 400 /\ written (labels tr2) = ["three"%string].
Proof.
  destruct (cgo ctc (cstart ctc 2 0) w75) as [[[h s1] tr]|] eqn:H; [|vm_compute in H; discriminate].
  destruct (cgo ctc s1 w75b) as [[[h2 s2] tr2]|] eqn:H2.
  2: { vm_compute in H. injection H as <- <- <-. vm_compute in H2. discriminate. }
  exists h, s1, tr, h2, s2, tr2. split; [apply (cgo_run ctc w75); exact H|]. split; [apply (cgo_run ctc w75b); exact H2|].
  vm_compute in H. injection H as <- <- <-. vm_compute in H2. injection H2 as <- <- <-.
  split; [apply quickb; reflexivity|]. split; [repeat (apply Forall_cons; [exact I|]); apply Forall_nil|].
  repeat split.
Qed.

(** A file sink.  The worker has gone round and is about to sleep again when rotate() is
    called: nobody hears the notification. *)
Definition ctf : tcfg string := mkTcfg (wcfg KFile false) 200 false.
Definition rotation : list (event string) := Move (MThread 1 CRotate) :: mv 1 2.
Definition w93 : list (event string) :=
  [Read; Move (MThread 0 (CWake true))] ++ mv 0 6 ++ rotation ++ [Read; Tick 200].
(** ... and then it wakes because its time has come. *)
Definition w93b : list (event string) :=
  w93 ++ Move (MThread 0 (CWake true)) :: mv 0 4 ++ [Move (MThread 0 (COpen ROFresh))].

Lemma C93_lost_witness : exists h s tr t, crun ctf (cstart ctf 1 0) h s tr /\ quick h /\ prompt (t_sink ctf) h /\ steady h /\
  fin (base s) = false /\ tr = [(0, LLock 0); (0, LUnlock 0); (t, LRotate 1); (t, LReturn 1)] /\ now s = t + 200.
Proof.
  destruct (cgo ctf (cstart ctf 1 0) w93) as [[[h s] tr]|] eqn:H; [|vm_compute in H; discriminate].
  exists h, s, tr, 0. split; [apply (cgo_run ctf w93); exact H|].
  assert (Q : forallb calmb h && promptb (t_sink ctf) false h && steadyb h = true) by (vm_compute in H; injection H as <- <- <-; reflexivity).
  apply andb_true_iff in Q as [Q Q3]. apply andb_true_iff in Q as [Q1 Q2].
  split; [apply quickb; exact Q1|]. split; [apply promptb_prompt; exact Q2|]. split; [apply steadyb_steady; exact Q3|].
  vm_compute in H. injection H as <- <- <-. auto.
Qed.

Lemma C93_tight_witness : exists h s tr, crun ctf (cstart ctf 1 0) h s tr /\ quick h /\ steady h /\
  tr = [(0, LLock 0); (0, LUnlock 0); (0, LRotate 1); (0, LReturn 1); (200, LLock 0); (200, LReopen 0 ROFresh)].
Proof.
  destruct (cgo ctf (cstart ctf 1 0) w93b) as [[[h s] tr]|] eqn:H; [|vm_compute in H; discriminate].
  exists h, s, tr. split; [apply (cgo_run ctf w93b); exact H|].
  assert (Q : forallb calmb h && steadyb h = true) by (vm_compute in H; injection H as <- <- <-; reflexivity).
  apply andb_true_iff in Q as [Q1 Q3].
  split; [apply quickb; exact Q1|]. split; [apply steadyb_steady; exact Q3|].
  vm_compute in H. injection H as <- <- <-. reflexivity.
Qed.

(** The worker sleeps; rotate() at 50 wakes it, and it re-opens the file at 50. *)
Definition w93c : list (event string) :=
  [Read; Move (MThread 0 (CWake true))] ++ mv 0 6 ++ [Read; Tick 50; Move (MThread 1 CRotate)] ++ mv 1 1.
Definition w93d : list (event string) :=
  mv 1 1 ++ Move (MThread 0 (CWake false)) :: mv 0 4 ++ [Move (MThread 0 (COpen ROFresh))].

Lemma C93_asleep_witness : exists h s1 tr h2 s2 tr2, crun ctf (cstart ctf 1 0) h s1 (tr ++ [(50, LRotate 1)]) /\
  nth_error (thr (base s1)) 1 = Some RAsync /\ fip (base s1) = false /\ asleep s1 = true /\
  crun ctf s1 ((s1, Move (MThread 1 (CGo false))) :: h2) s2 tr2 /\
  quick (h ++ (s1, Move (MThread 1 (CGo false))) :: h2) /\ prompt (t_sink ctf) (h ++ (s1, Move (MThread 1 (CGo false))) :: h2) /\
  steady (h ++ (s1, Move (MThread 1 (CGo false))) :: h2) /\ fin (base s2) = false /\
  tr2 = [(50, LReturn 1); (50, LLock 0); (50, LReopen 0 ROFresh)].
Proof.
  destruct (cgo ctf (cstart ctf 1 0) w93c) as [[[h s1] tr]|] eqn:H; [|vm_compute in H; discriminate].
  destruct (cgo ctf s1 w93d) as [[[h2 s2] tr2]|] eqn:H2.
  2: { vm_compute in H. injection H as <- <- <-. vm_compute in H2. discriminate. }
  assert (Eh : h2 = (s1, Move (MThread 1 (CGo false))) :: tl h2).
  { change w93d with (Move (MThread 1 (CGo false)) :: tl w93d) in H2. remember (tl w93d) as evs. clear Heqevs.
    cbn [cgo] in H2. destruct (cdo ctf s1 (Move (MThread 1 (CGo false)))) as [[x ls]|]; [|discriminate].
    destruct (cgo ctf x evs) as [[[h3 s3] tr3]|]; [|discriminate]. injection H2 as <- _ _. reflexivity. }
  assert (Et : tr = removelast tr ++ [(50, LRotate 1)]).
  { vm_compute in H. injection H as _ _ <-. reflexivity. }
  exists h, s1, (removelast tr), (tl h2), s2, tr2. rewrite <- Et, <- Eh.
  split; [apply (cgo_run ctf w93c); exact H|].
  assert (R2 : crun ctf s1 h2 s2 tr2) by (apply (cgo_run ctf w93d); exact H2).
  vm_compute in H. injection H as <- <- <-. vm_compute in H2. injection H2 as <- <- <-.
  split; [reflexivity|]. split; [reflexivity|]. split; [reflexivity|]. split; [exact R2|].
  split; [apply quickb; reflexivity|]. split; [apply promptb_prompt; reflexivity|]. split; [apply steadyb_steady; reflexivity|].
  split; reflexivity.
Qed.
