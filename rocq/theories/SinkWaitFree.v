(** * Calls of a sink with a worker that wait for nobody (C98) *)
From Coq Require Import List Arith NArith Bool Lia.
From Verif Require Import Base LevelModel SinkModel SinkSpec SinkProofs SinkLabels SinkLife SinkProps SinkProgress SinkReturn.
Import ListNotations.

Section WaitFree.
Context {E : Type}.
Variable C : cfg E.
Notation state := (state E).
Notation pc := (pc E).
Hypothesis lat : c_lat0 C = false.
Variable t : nat.

Lemma labels_of_app (a b : list (label E)) : labels_of t (a ++ b) = labels_of t a ++ labels_of t b.
Proof. apply filter_app. Qed.

(** The steps that do not depend on the state. *)
Definition next (p : pc) : option (pc * list (label E)) :=
  match p with
  | PAdd n e => Some (PRel n e, [])
  | PRel n e => Some (PDecide, [])
  | PDecide => Some (Idle, [LReturn t])
  | RStore => Some (RAsync, [LRotate t])
  | RAsync => Some (Idle, [LReturn t])
  | _ => None
  end.

Lemma next_step s c p p' l : nth_error (thr s) t = Some p -> next p = Some (p', l) ->
  nth_error (thr (fst (step_thread C s t c p))) t = Some p' /\ snd (step_thread C s t c p) = l.
Proof.
  intros Hp Hn. assert (Hlt : t < length (thr s)) by (apply nth_error_Some; congruence).
  destruct p; try discriminate; cbn in Hn; injection Hn as <- <-; cbn [step_thread]; rewrite ?lat;
    try (destruct (N.leb _ _)); cbn [fst snd s_thr s_q s_flags thr];
    (split; [apply nth_error_upd; exact Hlt|reflexivity]).
Qed.

Fixpoint follow (k : nat) (p : pc) : option (pc * list (label E)) :=
  match k with
  | 0 => Some (p, [])
  | S k' => match next p with
            | None => None
            | Some (p', l) => match follow k' p' with Some (p2, l2) => Some (p2, l ++ l2) | None => None end
            end
  end.

Lemma labels_of_all (u : nat) (l : list (label E)) : Forall (own u) l ->
  labels_of t l = if Nat.eqb u t then l else [].
Proof.
  induction 1 as [|x l Hx Hl IH]; cbn [labels_of filter]; [destruct (Nat.eqb u t); reflexivity|].
  assert (label_by x = u) by (destruct x; cbn in *; auto). rewrite H. fold (labels_of t l). rewrite IH.
  destruct (Nat.eqb u t); reflexivity.
Qed.

Lemma follow_exec ms : forall s p p' l s' ls, nth_error (thr s) t = Some p ->
  follow (own_moves t ms) p = Some (p', l) -> exec C s ms = (s', ls) ->
  nth_error (thr s') t = Some p' /\ labels_of t ls = l.
Proof.
  induction ms as [|m ms IH]; intros s p p' l s' ls Hp Hf He.
  - cbn in Hf, He. injection Hf as <- <-. injection He as <- <-. auto.
  - cbn [exec] in He. destruct (step C s m) as [s1 l1] eqn:E1. destruct (exec C s1 ms) as [s2 l2] eqn:E2.
    injection He as <- <-. rewrite labels_of_app. destruct m as [u c|k].
    + cbn [step] in E1. unfold own_moves in Hf. cbn [filter] in Hf. destruct (Nat.eqb u t) eqn:Eu.
      * apply Nat.eqb_eq in Eu. subst u. rewrite Hp in E1. cbn [length follow] in Hf.
        destruct (next p) as [[q1 l1']|] eqn:En; [|discriminate].
        fold (own_moves t ms) in Hf. destruct (follow (own_moves t ms) q1) as [[q2 l2']|] eqn:Ef; [|discriminate].
        injection Hf as <- <-. destruct (next_step s c p q1 l1' Hp En) as [N1 N2]. rewrite E1 in N1, N2.
        cbn [fst snd] in N1, N2. subst l1'. destruct (IH _ _ _ _ _ _ N1 Ef E2) as [A B].
        split; [exact A|]. rewrite B. f_equal. destruct (step_own C s t c p Hp) as [O _]. rewrite E1 in O. cbn [snd] in O.
        rewrite (labels_of_all t _ O), Nat.eqb_refl. reflexivity.
      * fold (own_moves t ms) in Hf. apply Nat.eqb_neq in Eu. destruct (nth_error (thr s) u) as [x|] eqn:Hx.
        -- destruct (step_own C s u c x Hx) as [O (x' & Et)]. rewrite E1 in O, Et. cbn [fst snd] in O, Et.
           assert (H1 : nth_error (thr s1) t = Some p) by (rewrite Et, nth_error_upd_other by auto; exact Hp).
           destruct (IH _ _ _ _ _ _ H1 Hf E2) as [A B]. split; [exact A|].
           rewrite (labels_of_all u _ O). apply Nat.eqb_neq in Eu. rewrite Eu. exact B.
        -- injection E1 as <- <-. exact (IH _ _ _ _ _ _ Hp Hf E2).
    + cbn [step] in E1. injection E1 as <- <-. cbn [app labels_of filter].
      eapply IH; [|exact Hf|exact E2]. exact Hp.
Qed.

Hypothesis client : t <> 0.

Lemma call_alive (s : state) : alive s = true -> (alive s && negb (Nat.eqb t 0)) = true.
Proof. intros ->. apply Nat.eqb_neq in client. rewrite client. reflexivity. Qed.

Theorem async_returns s ms s' ls : nth_error (thr s) t = Some Idle -> alive s = true ->
  own_moves t ms = 1 -> exec C s (MThread t CAsync :: ms) = (s', ls) ->
  labels_of t ls = [LReturn t] /\ nth_error (thr s') t = Some Idle.
Proof.
  intros Hi Ha Ho He. assert (Hlt : t < length (thr s)) by (apply nth_error_Some; congruence).
  cbn [exec step] in He. rewrite Hi in He. cbn [step_thread] in He. rewrite (call_alive s Ha) in He.
  destruct (exec C (s_thr s t RAsync) ms) as [s2 l2] eqn:E2. injection He as <- <-.
  destruct (follow_exec ms (s_thr s t RAsync) RAsync Idle [LReturn t] s2 l2) as [A B]; auto.
  - cbn [s_thr thr]. apply nth_error_upd. exact Hlt.
  - rewrite Ho. reflexivity.
Qed.

Theorem rotate_returns s ms s' ls : nth_error (thr s) t = Some Idle -> alive s = true -> c_kind C = KFile ->
  own_moves t ms = 2 -> exec C s (MThread t CRotate :: ms) = (s', ls) ->
  labels_of t ls = [LRotate t; LReturn t] /\ nth_error (thr s') t = Some Idle.
Proof.
  intros Hi Ha Hk Ho He. assert (Hlt : t < length (thr s)) by (apply nth_error_Some; congruence).
  cbn [exec step] in He. rewrite Hi in He. cbn [step_thread] in He. rewrite (call_alive s Ha), Hk in He.
  destruct (exec C (s_thr s t RStore) ms) as [s2 l2] eqn:E2. injection He as <- <-.
  destruct (follow_exec ms (s_thr s t RStore) RStore Idle [LRotate t; LReturn t] s2 l2) as [A B]; auto.
  - cbn [s_thr thr]. apply nth_error_upd. exact Hlt.
  - rewrite Ho. reflexivity.
Qed.

Lemma away_labels ms : forall s s' ls p, away t ms -> nth_error (thr s) t = Some p -> exec C s ms = (s', ls) ->
  nth_error (thr s') t = Some p /\ labels_of t ls = [].
Proof.
  intros s s' ls p Ha Hp He. eapply follow_exec; [exact Hp| |exact He].
  replace (own_moves t ms) with 0; [reflexivity|]. symmetry. clear - Ha. induction Ha as [|m ms Hm _ IH]; [reflexivity|].
  unfold own_moves in *. cbn [filter]. destruct m as [u c|k]; [|exact IH]. apply Nat.eqb_neq in Hm. rewrite Hm. exact IH.
Qed.

Theorem push_returns s l e ms1 s1 a c ms2 s2 b :
  nth_error (thr s) t = Some Idle -> alive s = true -> for_sink (c_level C) l = true ->
  exec C s (MThread t (CPush l e) :: ms1) = (s1, a) -> away t ms1 ->
  length (q s1) < c_cap C ->
  exec C s1 (MThread t c :: ms2) = (s2, b) -> own_moves t ms2 = 3 ->
  labels_of t (a ++ b) = [LPush t l e; LAccept t e; LReturn t] /\ nth_error (thr s2) t = Some Idle.
Proof.
  intros Hi Ha Hl He1 Haw Hq He2 Ho. assert (Hlt : t < length (thr s)) by (apply nth_error_Some; congruence).
  cbn [exec step] in He1. rewrite Hi in He1. cbn [step_thread] in He1. rewrite (call_alive s Ha), admits_iff, Hl in He1.
  destruct (exec C (s_thr s t (PPut e)) ms1) as [sx lx] eqn:E1. injection He1 as <- <-.
  assert (H0 : nth_error (thr (s_thr s t (PPut e))) t = Some (PPut e)) by (cbn [s_thr thr]; apply nth_error_upd; exact Hlt).
  destruct (away_labels ms1 _ _ _ _ Haw H0 E1) as [Hp La].
  cbn [exec step] in He2. rewrite Hp in He2. cbn [step_thread] in He2. apply Nat.ltb_lt in Hq. rewrite Hq in He2.
  match type of He2 with (let '(_, _) := exec C ?x ms2 in _) = _ => destruct (exec C x ms2) as [sy ly] eqn:E2; set (s3 := x) in * end.
  injection He2 as <- <-.
  assert (H3 : nth_error (thr s3) t = Some (PAdd (length (acc sx)) e)).
  { subst s3. cbn [s_thr s_acc s_q thr]. apply nth_error_upd. apply nth_error_Some. congruence. }
  destruct (follow_exec ms2 s3 _ Idle [LReturn t] sy ly H3) as [A B]; auto.
  { rewrite Ho. reflexivity. }
  split; [|exact A]. change (LPush t l e :: lx) with ([LPush t l e] ++ lx). change (LAccept t e :: ly) with ([LAccept t e] ++ ly).
  rewrite !labels_of_app, La, B. cbn [labels_of filter label_by app]. rewrite !Nat.eqb_refl. reflexivity.
Qed.

(** The request is there when the call returns, and takes a waiting worker out of its wait. *)
Theorem async_wakes s ms c s' ls : nth_error (thr s) t = Some Idle -> alive s = true -> away t ms ->
  exec C s (MThread t CAsync :: ms ++ [MThread t c]) = (s', ls) ->
  labels_of t ls = [LReturn t] /\
  (nth_error (thr s') 0 = Some WWait ->
   nth_error (thr (fst (step C s' (MThread 0 (CWake false))))) 0 = Some (FTas KWorker)).
Proof.
  intros Hi Ha Haw He. assert (Hlt : t < length (thr s)) by (apply nth_error_Some; congruence).
  cbn [exec step] in He. rewrite Hi in He. cbn [step_thread] in He. rewrite (call_alive s Ha) in He.
  destruct (exec C (s_thr s t RAsync) (ms ++ [MThread t c])) as [s2 l2] eqn:E2. injection He as <- <-.
  rewrite exec_app in E2. destruct (exec C (s_thr s t RAsync) ms) as [s1 l1] eqn:E1.
  assert (H0 : nth_error (thr (s_thr s t RAsync)) t = Some RAsync) by (cbn [s_thr thr]; apply nth_error_upd; exact Hlt).
  destruct (away_labels ms _ _ _ _ Haw H0 E1) as [Hp La].
  cbn [exec step] in E2. rewrite Hp in E2. cbn [step_thread] in E2. rewrite lat in E2. injection E2 as <- <-.
  split.
  - cbn [app]. rewrite labels_of_app, La. cbn [labels_of filter label_by app]. rewrite Nat.eqb_refl. reflexivity.
  - intros Hw. cbn [step]. rewrite Hw. cbn [step_thread s_thr s_flags ntf orb fst thr].
    apply nth_error_upd. apply nth_error_Some. cbn [s_thr s_flags thr] in Hw. congruence.
Qed.

(** push() up to its last step, then that step. *)
Theorem push_requests s l e ms1 s1 a c ms2 s2 b c' s3 b' :
  nth_error (thr s) t = Some Idle -> alive s = true -> for_sink (c_level C) l = true ->
  exec C s (MThread t (CPush l e) :: ms1) = (s1, a) -> away t ms1 ->
  length (q s1) < c_cap C ->
  exec C s1 (MThread t c :: ms2) = (s2, b) -> own_moves t ms2 = 2 ->
  step C s2 (MThread t c') = (s3, b') ->
  b' = [LReturn t] /\
  ((c_threshold C <= size s2)%N -> nth_error (thr s3) 0 = Some WWait ->
   nth_error (thr (fst (step C s3 (MThread 0 (CWake false))))) 0 = Some (FTas KWorker)) /\
  ((size s2 < c_threshold C)%N -> ntf s3 = ntf s2).
Proof.
  intros Hi Ha Hl He1 Haw Hq He2 Ho Hs. assert (Hlt : t < length (thr s)) by (apply nth_error_Some; congruence).
  cbn [exec step] in He1. rewrite Hi in He1. cbn [step_thread] in He1. rewrite (call_alive s Ha), admits_iff, Hl in He1.
  destruct (exec C (s_thr s t (PPut e)) ms1) as [sx lx] eqn:E1. injection He1 as <- <-.
  assert (H0 : nth_error (thr (s_thr s t (PPut e))) t = Some (PPut e)) by (cbn [s_thr thr]; apply nth_error_upd; exact Hlt).
  destruct (away_labels ms1 _ _ _ _ Haw H0 E1) as [Hp La].
  cbn [exec step] in He2. rewrite Hp in He2. cbn [step_thread] in He2. apply Nat.ltb_lt in Hq. rewrite Hq in He2.
  match type of He2 with (let '(_, _) := exec C ?x ms2 in _) = _ => destruct (exec C x ms2) as [sy ly] eqn:E2; set (s4 := x) in * end.
  injection He2 as <- <-.
  assert (H3 : nth_error (thr s4) t = Some (PAdd (length (acc sx)) e)).
  { subst s4. cbn [s_thr s_acc s_q thr]. apply nth_error_upd. apply nth_error_Some. congruence. }
  destruct (follow_exec ms2 s4 _ PDecide [] sy ly H3) as [A B]; auto.
  { rewrite Ho. reflexivity. }
  cbn [step] in Hs. rewrite A in Hs. cbn [step_thread] in Hs. rewrite lat in Hs.
  destruct (N.leb (c_threshold C) (size sy)) eqn:En; injection Hs as <- <-; (split; [reflexivity|]); split.
  - intros _ Hw. cbn [step]. rewrite Hw. cbn [step_thread s_thr s_flags ntf orb fst thr].
    apply nth_error_upd. apply nth_error_Some. cbn [s_thr s_flags thr] in Hw. congruence.
  - apply N.leb_le in En. lia.
  - apply N.leb_gt in En. lia.
  - reflexivity.
Qed.

End WaitFree.
