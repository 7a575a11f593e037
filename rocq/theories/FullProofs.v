(** * Proof: the sink over its circular buffer refines the sink over an ideal queue *)

From Coq Require Import List Arith NArith Bool Lia.
From Verif Require CircSpec CircModel CircProofs SinkLabels.
From Verif Require Import Base LevelModel SinkModel FullModel.
Import ListNotations.

Set Implicit Arguments.

Section Proofs.
Context {E : Type}.
Variable C : cfg E.
Notation sstate := (CircSpec.sstate E).

(** ** Lists *)
Lemma upd_length (l : list (pc E)) t p : length (upd l t p) = length l.
Proof. revert t. induction l as [|x l IH]; intros [|t]; cbn; auto. Qed.
Lemma upd_at (l : list (pc E)) t p : t < length l -> nth_error (upd l t p) t = Some p.
Proof. revert t. induction l as [|x l IH]; intros [|t] H; cbn in *; try lia; auto. apply IH. lia. Qed.
Lemma upd_other (l : list (pc E)) t u p : u <> t -> nth_error (upd l t p) u = nth_error l u.
Proof. revert t u. induction l as [|x l IH]; intros [|t] [|u] H; cbn; auto; try lia. Qed.
Lemma upd_id (l : list (pc E)) t p : nth_error l t = Some p -> upd l t p = l.
Proof. revert t. induction l as [|x l IH]; intros [|t] H; cbn in *; try discriminate; [congruence|]. now rewrite IH. Qed.
Lemma fupd_length (l : list (fpc E)) t p : length (fupd l t p) = length l.
Proof. revert t. induction l as [|x l IH]; intros [|t]; cbn; auto. Qed.
Lemma fupd_at (l : list (fpc E)) t p : t < length l -> nth_error (fupd l t p) t = Some p.
Proof. revert t. induction l as [|x l IH]; intros [|t] H; cbn in *; try lia; auto. apply IH. lia. Qed.
Lemma fupd_other (l : list (fpc E)) t u p : u <> t -> nth_error (fupd l t p) u = nth_error l u.
Proof. revert t u. induction l as [|x l IH]; intros [|t] [|u] H; cbn; auto; try lia. Qed.
Lemma some_lt {A} (l : list A) t x : nth_error l t = Some x -> t < length l.
Proof. intros H. apply nth_error_Some. congruence. Qed.

(** ** The specification of the buffer, seen by one thread *)
Definition refs_of (g : sstate) (t : nat) : list (CircSpec.lref E) :=
  filter (fun r => Nat.eqb (CircSpec.r_thr r) t) (CircSpec.s_live g).

Definition of_thread (t : nat) (l : CircSpec.label E) : Prop :=
  match l with
  | CircSpec.LInv u _ | CircSpec.LLin u | CircSpec.LRet u _ | CircSpec.LRead u _ _ | CircSpec.LRel u _ => u = t
  end.

Lemma phase_set (g : sstate) t p u : CircSpec.s_phase (CircSpec.set_phase g t p) u = if Nat.eqb u t then p else CircSpec.s_phase g u.
Proof. reflexivity. Qed.

Lemma frame_step cap (g g' : sstate) t l u :
  CircSpec.sstep cap g l g' -> of_thread t l -> u <> t ->
  CircSpec.s_phase g' u = CircSpec.s_phase g u /\ refs_of g' u = refs_of g u.
Proof.
  intros H O N. apply Nat.eqb_neq in N as N'. assert (N2 : (t =? u) = false) by (apply Nat.eqb_neq; congruence).
  inversion H; subst; cbn in O; subst; unfold refs_of; cbn; rewrite ?N'; auto.
  - rewrite N2. auto.
  - match goal with X : CircSpec.s_live _ = _ |- _ => rewrite X end. rewrite !filter_app. cbn. rewrite N2. auto.
Qed.

Lemma frame_run cap (g g' : sstate) t tr u :
  CircSpec.sruns cap g tr g' -> Forall (of_thread t) tr -> u <> t ->
  CircSpec.s_phase g' u = CircSpec.s_phase g u /\ refs_of g' u = refs_of g u.
Proof.
  induction 1 as [g|g1 l g2 tr g3 St R IH]; intros F N; [auto|]. inversion F; subst.
  destruct (frame_step St H1 N) as [A B]. destruct (IH H2 N) as [A' B']. split; congruence.
Qed.

Lemma ring_trace cap (r : CircModel.state E) t c r' tr : CircModel.step cap r t c = CircModel.Ok r' tr -> Forall (of_thread t) tr.
Proof.
  unfold CircModel.step. intros H.
  repeat match type of H with context [match ?x with _ => _ end] => destruct x end; inversion H; subst;
    repeat constructor.
Qed.

(** Steps of a thread inside the buffer. *)
Lemma ring_inside cap (r : CircModel.state E) t c r' tr :
  CircModel.t_pc (CircModel.thr r t) <> CircModel.Idle ->
  CircModel.step cap r t c = CircModel.Ok r' tr ->
  tr = [] \/
  (tr = [CircSpec.LLin t] /\
     match CircModel.t_pc (CircModel.thr r' t) with
     | CircModel.PFullClear | CircModel.PInc _ _ | CircModel.GEmptyClear | CircModel.GDec _ | CircModel.QClear _ _ => True
     | _ => False
     end) \/
  exists v, tr = [CircSpec.LRet t v].
Proof.
  intros N. unfold CircModel.step. intros H.
  destruct (CircModel.t_pc (CircModel.thr r t)); try congruence;
  repeat match type of H with context [match ?x with _ => _ end] => destruct x end; inversion H; subst; auto;
  try (right; left; split; [reflexivity|cbn; unfold CircModel.upd; rewrite Nat.eqb_refl; exact I]);
  right; right; eexists; reflexivity.
Qed.

(** ** Steps outside the buffer *)
Definition plain (p : pc E) : Prop := match p with PAdd _ _ | PRel _ _ | FSub _ _ => False | _ => True end.
Definition no_queue (p : pc E) : Prop :=
  match p with PAdd _ _ | PRel _ _ | FSub _ _ | PPut _ | FGet _ | WSize => False | _ => True end.


(** A state with the given queue and threads. *)
Definition refill (x : state E) (qa : list (entry E)) (ta : list (pc E)) : state E :=
  mkSt qa (size x) (fip x) (ntf x) (ntr x) (fin x) (opened x) (closed x) (cur x) (obuf x)
       ta (acc x) (h_closed x) (h_cur x) (h_drop x).
Lemma refill_self (a : state E) : refill (strip a) (q a) (thr a) = a.
Proof. destruct a; reflexivity. Qed.
Lemma strip_refill (x : state E) qa ta : strip (refill x qa ta) = strip x.
Proof. reflexivity. Qed.

(** A step of a thread outside the buffer: new control point, new rest, labels. *)
Definition does (t : nat) (x : state E) (qa : list (entry E)) (ta : list (pc E))
    (p' : pc E) (y : state E) (ls : list (label E)) (r : state E * list (label E)) : Prop :=
  r = (refill y qa (upd ta t p'), ls).

Lemma after_plain (k : cont E) : plain (after_flush k).
Proof. destruct k; exact I. Qed.

Lemma outside_step x qa qb ta tb t c p :
  no_queue p -> p <> DJoin ->
  alive (refill x qa ta) = alive (refill x qb tb) ->
  clients_idle (refill x qa ta) = clients_idle (refill x qb tb) ->
  nth_error ta t = Some p -> nth_error tb t = Some p ->
  exists p' y ls, plain p' /\ acc y = acc x /\
    does t x qa ta p' y ls (step_thread C (refill x qa ta) t c p) /\
    does t x qb tb p' y ls (step_thread C (refill x qb tb) t c p).
Proof.
  intros NQ ND Ha Hi Ea Eb.
  assert (Z : plain p) by (destruct p; first [exact I|destruct NQ]).
  assert (Stay : forall l, exists p' y ls, plain p' /\ acc y = acc x /\
     does t x qa ta p' y ls (refill x qa ta, l) /\ does t x qb tb p' y ls (refill x qb tb, l)).
  { intros l. exists p, x, l. unfold does. rewrite (upd_id _ _ Ea), (upd_id _ _ Eb). auto. }
  assert (K : forall k : cont E, plain (match c_kind C with KFile => FCasRot k | _ => FClear k end)) by (intros; destruct (c_kind C); exact I).
  destruct p; cbn [no_queue] in NQ; try contradiction; cbn [step_thread];
    rewrite ?Ha, ?Hi; cbn [fip ntf ntr fin opened size refill s_thr s_flags s_out s_q];
    repeat match goal with
    | |- context [match ?x with CPush _ _ => _ | _ => _ end] => is_var x; destruct x
    | |- context [if ?x then _ else _] => destruct x
    | |- context [match ?x with Some _ => _ | None => _ end] => is_var x; destruct x
    | |- context [match ?x with ROFail => _ | ROSame => _ | ROFresh => _ end] => destruct x
    | |- context [match c_kind C with _ => _ end] => destruct (c_kind C)
    end;
    try (exact (Stay _));
    match goal with |- exists p' y ls, _ /\ _ /\ does _ _ _ _ _ _ _ (?a, ?l) /\ _ => eexists _, a, l end;
    (repeat apply conj; [| |unfold does; cbn; reflexivity|unfold does; cbn; reflexivity];
      first [exact I|exact (after_plain _)|reflexivity]).
Qed.


(** ** The relation between the two models *)
Definition after_sub (k : cont E) (e : E) : pc E :=
  match c_kind C with KSyslog => FGet k | _ => FWrite k (Some e) end.
Definition after_none (k : cont E) : pc E :=
  match c_kind C with KSyslog => FNtf k | _ => FWrite k None end.
Definition after_size (n : nat) : pc E := if Nat.eqb n 0 then WDone else WWait.

Definition prel (g : sstate) (t : nat) (p : fpc E) (pa : pc E) : Prop :=
  match p with
  | At p0 => CircSpec.s_phase g t = CircSpec.PhNone /\ refs_of g t = [] /\ pa = p0 /\ plain p0
  | InPut e => refs_of g t = [] /\
      ((CircSpec.s_phase g t = CircSpec.PhCalled (CircSpec.OPut e) /\ pa = PPut e) \/
       (exists n, CircSpec.s_phase g t = CircSpec.PhPut n e /\ pa = PAdd n e) \/
       (CircSpec.s_phase g t = CircSpec.PhRefused /\ pa = FTas (KRetry e)))
  | Add i => CircSpec.s_phase g t = CircSpec.PhNone /\
      exists n e, refs_of g t = [CircSpec.mkRef t i n e] /\ pa = PAdd n e
  | Rel i => CircSpec.s_phase g t = CircSpec.PhNone /\
      exists n e, refs_of g t = [CircSpec.mkRef t i n e] /\ pa = PRel n e
  | InGet k => refs_of g t = [] /\
      ((CircSpec.s_phase g t = CircSpec.PhCalled CircSpec.OGet /\ pa = FGet k) \/
       (exists n e, CircSpec.s_phase g t = CircSpec.PhGot n e /\ pa = FSub k e) \/
       (CircSpec.s_phase g t = CircSpec.PhRefused /\ pa = after_none k))
  | Sub k i => CircSpec.s_phase g t = CircSpec.PhNone /\
      exists n e, refs_of g t = [CircSpec.mkRef t i n e] /\ pa = FSub k e
  | Free k e i => CircSpec.s_phase g t = CircSpec.PhNone /\
      exists n, refs_of g t = [CircSpec.mkRef t i n e] /\ pa = after_sub k e
  | InSize => refs_of g t = [] /\
      ((CircSpec.s_phase g t = CircSpec.PhCalled (CircSpec.OQuery CircSpec.QSize) /\ pa = WSize) \/
       (exists n, CircSpec.s_phase g t = CircSpec.PhNum n /\ pa = after_size n))
  end.

Definition key (x : entry E) : nat * E := (q_no x, q_ev x).
Definition working (a : state E) (n : nat) : Prop :=
  exists t e, nth_error (thr a) t = Some (PAdd n e) \/ nth_error (thr a) t = Some (PRel n e).

Record rel (s : fstate E) (a : state E) (g : sstate) : Prop := {
  r_inv : CircProofs.Inv (c_cap C) (ring s) g;
  r_rest : rest s = strip a;
  r_len : length (pcs s) = length (thr a);
  r_out : forall t, length (pcs s) <= t -> CircSpec.s_phase g t = CircSpec.PhNone /\ refs_of g t = [];
  r_thr : forall t p pa, nth_error (pcs s) t = Some p -> nth_error (thr a) t = Some pa -> prel g t p pa;
  r_items : map key (q a) = CircSpec.s_items g;
  r_next : CircSpec.s_next g = length (acc a);
  r_stage : forall x, In x (q a) -> q_stage x <> Published -> working a (q_no x)
}.

Lemma prel_frame g g' t p pa :
  CircSpec.s_phase g' t = CircSpec.s_phase g t -> refs_of g' t = refs_of g t -> prel g t p pa -> prel g' t p pa.
Proof. intros A B. destruct p; cbn; rewrite A, B; auto. Qed.

(** The questions of the destructor get the same answers. *)
Lemma prel_destroying g t p pa : prel g t p pa -> destroying (show p) = destroying pa.
Proof.
  destruct p; cbn [prel show].
  - intros (_ & _ & -> & _). reflexivity.
  - intros (_ & [[_ ->]|[(n & _ & ->)|[_ ->]]]); reflexivity.
  - intros (_ & n & e & _ & ->). reflexivity.
  - intros (_ & n & e & _ & ->). reflexivity.
  - intros (_ & [[_ ->]|[(n & e & _ & ->)|[_ ->]]]); unfold after_none; destruct k, (c_kind C); reflexivity.
  - intros (_ & n & e & _ & ->). destruct k; reflexivity.
  - intros (_ & n & _ & ->). unfold after_sub. destruct k, (c_kind C); reflexivity.
  - intros (_ & [[_ ->]|(n & _ & ->)]); unfold after_size; [|destruct (Nat.eqb n 0)]; reflexivity.
Qed.
Lemma prel_idle g t p pa : prel g t p pa -> is_idle (show p) = is_idle pa.
Proof.
  destruct p; cbn [prel show].
  - intros (_ & _ & -> & _). reflexivity.
  - intros (_ & [[_ ->]|[(n & _ & ->)|[_ ->]]]); reflexivity.
  - intros (_ & n & e & _ & ->). reflexivity.
  - intros (_ & n & e & _ & ->). reflexivity.
  - intros (_ & [[_ ->]|[(n & e & _ & ->)|[_ ->]]]); unfold after_none; destruct k, (c_kind C); reflexivity.
  - intros (_ & n & e & _ & ->). destruct k; reflexivity.
  - intros (_ & n & _ & ->). unfold after_sub. destruct k, (c_kind C); reflexivity.
  - intros (_ & [[_ ->]|(n & _ & ->)]); unfold after_size; [|destruct (Nat.eqb n 0)]; reflexivity.
Qed.

Lemma same_answers {X Y} (f : X -> bool) (h : Y -> bool) (l : list X) (m : list Y) :
  length l = length m ->
  (forall t x y, nth_error l t = Some x -> nth_error m t = Some y -> f x = h y) ->
  forallb f l = forallb h m.
Proof.
  revert m. induction l as [|x l IH]; intros [|y m] L H; try discriminate L; [reflexivity|].
  cbn. rewrite (H 0 x y eq_refl eq_refl). f_equal. apply IH; [now injection L|]. intros t. exact (H (S t)).
Qed.

Lemma tl_nth {X} (l : list X) t : nth_error (tl l) t = nth_error l (S t).
Proof. destruct l; [destruct t|]; reflexivity. Qed.

Lemma forallb_show (f : pc E -> bool) (l : list (fpc E)) : forallb f (map show l) = forallb (fun p => f (show p)) l.
Proof. induction l as [|x l IH]; cbn; [reflexivity|now rewrite IH]. Qed.

Lemma rel_alive s a g : rel s a g -> alive (outside s) = alive a.
Proof.
  intros R. unfold alive, outside. cbn [thr].
  assert (X : tl (map show (pcs s)) = map show (tl (pcs s))) by (destruct (pcs s); reflexivity).
  rewrite X, forallb_show. apply same_answers.
  - pose proof (r_len R). destruct (pcs s), (thr a); cbn in *; congruence.
  - intros t x y Hx Hy. rewrite tl_nth in Hx; rewrite tl_nth in Hy. f_equal. eapply prel_destroying; exact (r_thr R _ Hx Hy).
Qed.
Lemma rel_clients s a g : rel s a g -> clients_idle (outside s) = clients_idle a.
Proof.
  intros R. unfold clients_idle, outside. cbn [thr].
  assert (X : tl (map show (pcs s)) = map show (tl (pcs s))) by (destruct (pcs s); reflexivity).
  rewrite X, forallb_show. apply same_answers.
  - pose proof (r_len R). destruct (pcs s), (thr a); cbn in *; congruence.
  - intros t x y Hx Hy. rewrite tl_nth in Hx; rewrite tl_nth in Hy. eapply prel_idle; exact (r_thr R _ Hx Hy).
Qed.

Lemma fupd_id (l : list (fpc E)) t p : nth_error l t = Some p -> fupd l t p = l.
Proof. revert t. induction l as [|x l IH]; intros [|t] H; cbn in *; try discriminate; [congruence|]. now rewrite IH. Qed.

(** One step of thread [t]: what has to be checked. *)
Lemma rel_step s a g t p pa r y p' pa' a' g' tr :
  rel s a g -> nth_error (pcs s) t = Some p -> nth_error (thr a) t = Some pa ->
  CircSpec.sruns (c_cap C) g tr g' -> Forall (of_thread t) tr -> CircProofs.Inv (c_cap C) r g' ->
  y = strip a' -> thr a' = upd (thr a) t pa' -> prel g' t p' pa' ->
  map key (q a') = CircSpec.s_items g' -> CircSpec.s_next g' = length (acc a') ->
  (forall x, In x (q a') -> q_stage x <> Published -> working a' (q_no x)) ->
  rel (mkF r y (fupd (pcs s) t p')) a' g'.
Proof.
  intros R Hp Ha Hr Ht Hi -> Hth Hpr Hit Hn Hs. split; cbn [ring rest pcs]; auto.
  - rewrite fupd_length, Hth, upd_length. exact (r_len R).
  - intros u Hu. rewrite fupd_length in Hu. assert (N : u <> t) by (pose proof (some_lt _ _ Hp); lia).
    destruct (frame_run Hr Ht N) as [A B]. rewrite A, B. exact (r_out R Hu).
  - intros u p1 pa1 H1 H2. rewrite Hth in H2.
    destruct (Nat.eq_dec u t) as [->|N].
    + rewrite fupd_at in H1 by exact (some_lt _ _ Hp). rewrite upd_at in H2 by exact (some_lt _ _ Ha).
      injection H1 as <-. injection H2 as <-. exact Hpr.
    + rewrite fupd_other in H1 by exact N. rewrite upd_other in H2 by exact N.
      destruct (frame_run Hr Ht N) as [A B]. exact (@prel_frame g g' u p1 pa1 A B (r_thr R _ H1 H2)).
Qed.

Definition calm (p : pc E) : Prop := match p with PAdd _ _ | PRel _ _ => False | _ => True end.
Lemma stage_keep (a a' : state E) t pa pa' :
  nth_error (thr a) t = Some pa -> calm pa -> thr a' = upd (thr a) t pa' ->
  (forall x, In x (q a') -> In x (q a)) ->
  (forall x, In x (q a) -> q_stage x <> Published -> working a (q_no x)) ->
  forall x, In x (q a') -> q_stage x <> Published -> working a' (q_no x).
Proof.
  intros Ha Hc Ht Hq H x Hx Hp. destruct (H x (Hq x Hx) Hp) as (u & e & W). exists u, e. rewrite Ht.
  destruct (Nat.eq_dec u t) as [->|N]; [|rewrite upd_other by exact N; exact W].
  rewrite Ha in W. destruct W as [W|W]; injection W as ->; destruct Hc.
Qed.

Lemma set_stage_key n st (l : list (entry E)) : map key (set_stage n st l) = map key l.
Proof.
  unfold set_stage. rewrite map_map. apply map_ext. intros x. destruct (Nat.eqb (q_no x) n); reflexivity.
Qed.


(** ** The buffer, called by one thread *)
Lemma idle_pc cap (r : CircModel.state E) g t :
  CircProofs.Inv cap r g -> CircSpec.s_phase g t = CircSpec.PhNone ->
  CircModel.t_pc (CircModel.thr r t) = CircModel.Idle.
Proof.
  intros I P. pose proof (CircProofs.inv_phase I t) as H. unfold CircProofs.PC in H.
  destruct (CircModel.t_pc (CircModel.thr r t)); cbn in H; try reflexivity; rewrite P in H;
    try discriminate H; firstorder discriminate.
Qed.
Lemma busy_pc cap (r : CircModel.state E) g t :
  CircProofs.Inv cap r g -> CircSpec.s_phase g t <> CircSpec.PhNone ->
  CircModel.t_pc (CircModel.thr r t) <> CircModel.Idle.
Proof.
  intros I P X. pose proof (CircProofs.inv_phase I t) as H. unfold CircProofs.PC in H. rewrite X in H. exact (P H).
Qed.

Definition op_of (c : CircModel.choice E) : option (CircSpec.op E) :=
  match c with
  | CircModel.CPut e => Some (CircSpec.OPut e)
  | CircModel.CGet => Some CircSpec.OGet
  | CircModel.CQuery q => Some (CircSpec.OQuery q)
  | _ => None
  end.

Lemma runs_one cap (g g' : sstate) l : CircSpec.sruns cap g [l] g' -> CircSpec.sstep cap g l g'.
Proof. intros H. inversion H as [|? ? g2 ? ? St Rn]; subst. inversion Rn; subst. exact St. Qed.

Lemma ring_call cap (r : CircModel.state E) g t c o :
  CircProofs.Inv cap r g -> CircSpec.s_phase g t = CircSpec.PhNone -> op_of c = Some o ->
  exists r', CircModel.step cap r t c = CircModel.Ok r' [CircSpec.LInv t o] /\
    CircSpec.sruns cap g [CircSpec.LInv t o] (CircSpec.set_phase g t (CircSpec.PhCalled o)) /\
    CircProofs.Inv cap r' (CircSpec.set_phase g t (CircSpec.PhCalled o)).
Proof.
  intros I P O. destruct (CircProofs.step_sim t I c) as (r' & tr & g' & St & Rn & I').
  assert (T : tr = [CircSpec.LInv t o]).
  { unfold CircModel.step in St. rewrite (idle_pc _ I P) in St.
    destruct c; cbn in O; try discriminate O; injection O as <-; inversion St; reflexivity. }
  subst tr. exists r'. pose proof (runs_one Rn) as S1. inversion S1; subst. auto.
Qed.

Lemma ring_in cap (r : CircModel.state E) g t c :
  CircProofs.Inv cap r g -> CircSpec.s_phase g t <> CircSpec.PhNone ->
  exists r' tr g', CircModel.step cap r t c = CircModel.Ok r' tr /\ CircSpec.sruns cap g tr g' /\
    Forall (of_thread t) tr /\ CircProofs.Inv cap r' g' /\
    ((tr = [] /\ g' = g) \/
     (tr = [CircSpec.LLin t] /\ CircSpec.sstep cap g (CircSpec.LLin t) g' /\
        match CircModel.t_pc (CircModel.thr r' t) with
        | CircModel.PFullClear | CircModel.PInc _ _ | CircModel.GEmptyClear | CircModel.GDec _ | CircModel.QClear _ _ => True
        | _ => False
        end) \/
     (exists v, tr = [CircSpec.LRet t v] /\ CircSpec.sstep cap g (CircSpec.LRet t v) g')).
Proof.
  intros I P. destruct (CircProofs.step_sim t I c) as (r' & tr & g' & St & Rn & I').
  exists r', tr, g'. split; [exact St|]. split; [exact Rn|]. split; [exact (ring_trace _ _ _ _ St)|]. split; [exact I'|].
  destruct (ring_inside _ _ _ _ (busy_pc _ I P) St) as [->|[[-> X]|[v ->]]].
  - left. inversion Rn; subst. auto.
  - right. left. split; [reflexivity|]. split; [exact (runs_one Rn)|exact X].
  - right. right. exists v. split; [reflexivity|exact (runs_one Rn)].
Qed.

Lemma ref_live (g : sstate) t x : refs_of g t = [x] -> In x (CircSpec.s_live g).
Proof.
  intros H. assert (Y : In x (refs_of g t)) by (rewrite H; left; reflexivity).
  unfold refs_of in Y. apply filter_In in Y. tauto.
Qed.

Lemma ring_read cap (r : CircModel.state E) g t i n e :
  CircProofs.Inv cap r g -> CircSpec.s_phase g t = CircSpec.PhNone -> refs_of g t = [CircSpec.mkRef t i n e] ->
  CircModel.step cap r t (CircModel.CRead i) = CircModel.Ok r [CircSpec.LRead t i e].
Proof.
  intros I P R. unfold CircModel.step. rewrite (idle_pc _ I P).
  destruct (CircProofs.iv_live (CircProofs.inv_live I) _ (ref_live _ _ R)) as [A B]. cbn in A, B.
  unfold CircProofs.REFS in A. destruct (in_dec Nat.eq_dec i (CircModel.t_refs (CircModel.thr r t))); [|tauto].
  rewrite B. reflexivity.
Qed.

Lemma ring_rel cap (r : CircModel.state E) g t i n e :
  CircProofs.Inv cap r g -> CircSpec.s_phase g t = CircSpec.PhNone -> refs_of g t = [CircSpec.mkRef t i n e] ->
  exists r' g', CircModel.step cap r t (CircModel.CRel i) = CircModel.Ok r' [CircSpec.LRel t i] /\
    CircSpec.sruns cap g [CircSpec.LRel t i] g' /\ CircProofs.Inv cap r' g' /\
    CircSpec.s_phase g' t = CircSpec.PhNone /\ refs_of g' t = [] /\
    CircSpec.s_items g' = CircSpec.s_items g /\ CircSpec.s_next g' = CircSpec.s_next g.
Proof.
  intros I P R. destruct (CircProofs.step_sim t I (CircModel.CRel i)) as (r' & tr & g' & St & Rn & I').
  assert (T : tr = [CircSpec.LRel t i]).
  { unfold CircModel.step in St. rewrite (idle_pc _ I P) in St.
    destruct (CircProofs.iv_live (CircProofs.inv_live I) _ (ref_live _ _ R)) as [A B]. cbn in A, B.
    unfold CircProofs.REFS in A. destruct (in_dec Nat.eq_dec i (CircModel.t_refs (CircModel.thr r t))); [|tauto].
    inversion St; reflexivity. }
  subst tr. exists r', g'. split; [exact St|]. split; [exact Rn|]. split; [exact I'|].
  pose proof (runs_one Rn) as S1. inversion S1 as [| | | | | | | | | |? ? ? n' a' l1 l2 L]; subst. cbn.
  split; [exact P|]. split; [|auto].
  unfold refs_of in *. cbn. rewrite L in R. rewrite filter_app in R |- *. cbn in R. rewrite Nat.eqb_refl in R.
  destruct (filter _ l1) as [|z l1']; cbn in R |- *; [now injection R|].
  injection R as _ R. destruct l1'; discriminate R.
Qed.

(** ** One step *)
(** Where a thread can be that makes a step the other model does not see. *)
Definition between (s : fstate E) (p : fpc E) : bool :=
  match p with
  | At (PPut _) | At (FGet _) | At WSize | InPut _ | InGet _ | InSize | Free _ _ _ => true
  | At DJoin => match nth_error (pcs s) 0 with Some InSize => true | _ => false end
  | _ => false
  end.
Definition simulated (s : fstate E) (a : state E) (m : move E) : Prop :=
  exists s' ls a' g' ms, fstep C s m = Some (s', ls) /\ exec C a ms = (a', ls) /\ rel s' a' g' /\
    (ms = [m] \/ ms = [] /\ forall t c, m = MThread t c -> exists p, nth_error (pcs s) t = Some p /\ between s p = true).

Lemma exec_one a t c pa a' ls :
  nth_error (thr a) t = Some pa -> step_thread C a t c pa = (a', ls) -> exec C a [MThread t c] = (a', ls).
Proof. intros H H'. cbn. rewrite H, H', app_nil_r. reflexivity. Qed.

Section One.
Variables (s : fstate E) (a : state E) (g : sstate) (t : nat) (c : choice E).
Hypothesis R : rel s a g.
Variable pa : pc E.
Hypothesis Ha : nth_error (thr a) t = Some pa.

Let FS p : nth_error (pcs s) t = Some p -> fstep C s (MThread t c) = fstep_thread C s t c p.
Proof. intros H. cbn. now rewrite H. Qed.

(** A step of the buffer that the other model does not see. *)
Lemma sim_stutter p p' r g' tr :
  nth_error (pcs s) t = Some p ->
  fstep_thread C s t c p = Some (mkF r (rest s) (fupd (pcs s) t p'), []) ->
  CircSpec.sruns (c_cap C) g tr g' -> Forall (of_thread t) tr -> CircProofs.Inv (c_cap C) r g' ->
  prel g' t p' pa -> CircSpec.s_items g' = CircSpec.s_items g -> CircSpec.s_next g' = CircSpec.s_next g -> between s p = true ->
  simulated s a (MThread t c).
Proof.
  intros Hp St Rn Ft I' P It Nx NI. eexists _, [], a, g', []. split; [rewrite (FS Hp); exact St|]. split; [reflexivity|].
  split; [|right; split; [reflexivity|intros u x Eu; injection Eu as <- <-; exists p; split; assumption]].
  eapply (@rel_step s a g t p pa r (rest s) p' pa a g' tr); auto.
  - exact (r_rest R).
  - now rewrite upd_id.
  - rewrite It. exact (r_items R).
  - rewrite Nx. exact (r_next R).
  - exact (r_stage R).
Qed.

(** A step that both models make. *)
Lemma sim_both p p' pa' r g' tr a' ls :
  nth_error (pcs s) t = Some p ->
  fstep_thread C s t c p = Some (mkF r (strip a') (fupd (pcs s) t p'), ls) ->
  step_thread C a t c pa = (a', ls) ->
  CircSpec.sruns (c_cap C) g tr g' -> Forall (of_thread t) tr -> CircProofs.Inv (c_cap C) r g' ->
  thr a' = upd (thr a) t pa' -> prel g' t p' pa' ->
  map key (q a') = CircSpec.s_items g' -> CircSpec.s_next g' = length (acc a') ->
  (forall x, In x (q a') -> q_stage x <> Published -> working a' (q_no x)) ->
  simulated s a (MThread t c).
Proof.
  intros Hp St Sa Rn Ft I' Th P It Nx Sg. eexists _, ls, a', g', [MThread t c].
  split; [rewrite (FS Hp); exact St|]. split; [exact (exec_one _ _ _ Ha Sa)|]. split; [|left; reflexivity].
  eapply (@rel_step s a g t p pa r (strip a') p' pa' a' g' tr); auto.
Qed.

End One.

Lemma sim_at s a g t c p : rel s a g -> nth_error (thr a) t <> None ->
  nth_error (pcs s) t = Some (At p) -> simulated s a (MThread t c).
Proof.
  intros R Ha' Hp. destruct (nth_error (thr a) t) as [pa|] eqn:Ha; [clear Ha'|congruence]. pose proof (r_thr R _ Hp Ha) as (Ph & Rf & -> & Pl).
  assert (Call : forall cc o p', op_of cc = Some o -> between s (At p) = true ->
    fstep_thread C s t c (At p) = call C s t cc p' ->
    prel (CircSpec.set_phase g t (CircSpec.PhCalled o)) t p' p -> simulated s a (MThread t c)).
  { intros cc o p' Ho Hi Hf Hpr. destruct (ring_call _ cc (r_inv R) Ph Ho) as (r' & St & Rn & I').
    unfold call in Hf. rewrite St in Hf.
    eapply (@sim_stutter s a g t c R _ Ha _ p' r' _ _ Hp Hf Rn); auto. repeat constructor. }
  destruct (match p with PPut _ | FGet _ | WSize => true | _ => false end) eqn:Q.
  - destruct p; try discriminate Q.
    + eapply (Call (CircModel.CPut e) _ (InPut e) eq_refl eq_refl); [reflexivity|]. cbn. rewrite Nat.eqb_refl. split; [exact Rf|]. left. auto.
    + eapply (Call (@CircModel.CGet E) _ (InGet k) eq_refl eq_refl); [reflexivity|]. cbn. rewrite Nat.eqb_refl. split; [exact Rf|]. left. auto.
    + eapply (Call (@CircModel.CQuery E CircSpec.QSize) _ InSize eq_refl eq_refl); [reflexivity|]. cbn. rewrite Nat.eqb_refl. split; [exact Rf|]. left. auto.
  - assert (NQ : no_queue p) by (destruct p; cbn in Pl, Q |- *; auto; discriminate Q).
    assert (Hf : fstep_thread C s t c (At p) =
       let '(b, ls) := step_thread C (outside s) t c p in
       Some (mkF (ring s) (strip b) (fupd (pcs s) t (At (nth t (thr b) Idle))), ls)).
    { destruct p; try discriminate Q; reflexivity. }
    assert (Ho : outside s = refill (rest s) [] (map show (pcs s))) by reflexivity.
    assert (Hb : nth_error (map show (pcs s)) t = Some p) by exact (map_nth_error show _ _ Hp).
    assert (Hl : t < length (map show (pcs s))) by exact (some_lt _ _ Hb).
    assert (Cj : p = DJoin \/ p <> DJoin) by (destruct p; (left; reflexivity) || (right; discriminate)).
    destruct Cj as [->|ND].
    + (* join *)
      assert (Stay : fstep_thread C s t c (At DJoin) = Some (mkF (ring s) (rest s) (fupd (pcs s) t (At DJoin)), []) ->
        (forall pw, nth_error (pcs s) 0 = Some pw -> show pw <> WDone) -> simulated s a (MThread t c)).
      { intros Sf Nw. destruct (between s (At DJoin)) eqn:Y.
        - eapply (@sim_stutter s a g t c R _ Ha (At DJoin) (At DJoin) (ring s) g []); auto; [constructor|exact (r_inv R)|cbn; auto].
        - eapply (@sim_both s a g t c R _ Ha (At DJoin) (At DJoin) DJoin (ring s) g [] a []); auto.
          + rewrite Sf, (r_rest R). reflexivity.
          + cbn [step_thread]. destruct (nth_error (thr a) 0) as [aw|] eqn:Aw; [|reflexivity].
            destruct (nth_error (pcs s) 0) as [pw|] eqn:Pw.
            * pose proof (r_thr R _ Pw Aw) as Z. specialize (Nw pw eq_refl).
              destruct pw; cbn [prel show] in Z, Nw; cbn [between] in Y; rewrite Pw in Y; try discriminate Y.
              -- destruct Z as (_ & _ & -> & _). destruct p; try reflexivity. congruence.
              -- destruct Z as (_ & [[_ ->]|[(? & _ & ->)|[_ ->]]]); reflexivity.
              -- destruct Z as (_ & ? & ? & _ & ->). reflexivity.
              -- destruct Z as (_ & ? & ? & _ & ->). reflexivity.
              -- destruct Z as (_ & [[_ ->]|[(? & ? & _ & ->)|[_ ->]]]); try reflexivity. unfold after_none. destruct (c_kind C); reflexivity.
              -- destruct Z as (_ & ? & ? & _ & ->). reflexivity.
              -- destruct Z as (_ & ? & _ & ->). unfold after_sub. destruct (c_kind C); reflexivity.
            * apply nth_error_None in Pw. rewrite (r_len R) in Pw. apply some_lt in Aw. lia.
          + constructor.
          + exact (r_inv R).
          + now rewrite upd_id.
          + cbn. auto.
          + exact (r_items R).
          + exact (r_next R).
          + exact (r_stage R). }
      rewrite Ho in Hf. cbn [step_thread] in Hf. cbn [thr refill] in Hf.
      destruct (nth_error (map show (pcs s)) 0) as [w|] eqn:W.
      * destruct (match w with WDone => true | _ => false end) eqn:X.
        -- destruct w; try discriminate X.
           assert (Hw : nth_error (thr a) 0 = Some WDone).
           { destruct (nth_error (pcs s) 0) as [pw|] eqn:Pw; [|rewrite nth_error_map, Pw in W; discriminate W].
             rewrite (map_nth_error show _ _ Pw) in W.
             destruct (nth_error (thr a) 0) as [aw|] eqn:Aw.
             - pose proof (r_thr R _ Pw Aw) as Z.
               destruct pw; cbn in W; injection W as W; try discriminate W. destruct Z as (_ & _ & -> & _). congruence.
             - apply nth_error_None in Aw. rewrite <- (r_len R) in Aw. apply some_lt in Pw. lia. }
           eapply (@sim_both s a g t c R _ Ha (At DJoin) (At DClose) DClose (ring s) g [] (s_thr a t DClose) []); auto.
           ++ rewrite Hf. cbn [thr s_thr]. erewrite (nth_error_nth (upd _ t DClose)); [|apply upd_at; exact Hl].
              rewrite (r_rest R). reflexivity.
           ++ cbn [step_thread]. rewrite Hw. reflexivity.
           ++ constructor.
           ++ exact (r_inv R).
           ++ cbn. auto.
           ++ exact (r_items R).
           ++ exact (r_next R).
           ++ eapply (@stage_keep a _ t DJoin DClose); [exact Ha|exact I|reflexivity|auto|exact (r_stage R)].
        -- apply Stay; [|intros pw Pw Q1; rewrite nth_error_map, Pw in W; injection W as <-; rewrite Q1 in X; discriminate X].
           rewrite Hf. assert (Z : match w with WDone => (s_thr (refill (rest s) [] (map show (pcs s))) t DClose, [])
                    | _ => (refill (rest s) [] (map show (pcs s)), @nil (label E)) end = (refill (rest s) [] (map show (pcs s)), [])).
           { destruct w; try discriminate X; reflexivity. }
           rewrite Z. cbn [thr refill]. erewrite nth_error_nth; [|exact Hb].
           f_equal. f_equal. f_equal. rewrite (r_rest R). reflexivity.
      * apply Stay; [|intros pw Pw; rewrite nth_error_map, Pw in W; discriminate W].
        rewrite Hf. cbn [thr refill]. erewrite nth_error_nth; [|exact Hb].
        f_equal. f_equal. f_equal. rewrite (r_rest R). reflexivity.
    + assert (Ea : a = refill (rest s) (q a) (thr a)) by (rewrite (r_rest R); symmetry; apply refill_self).
      destruct (@outside_step (rest s) (q a) [] (thr a) (map show (pcs s)) t c p NQ ND) as (p' & y & ls & Pl' & Ac & D1 & D2).
      * rewrite <- Ea, <- Ho. symmetry. exact (rel_alive R).
      * rewrite <- Ea, <- Ho. symmetry. exact (rel_clients R).
      * exact Ha.
      * exact Hb.
      * rewrite <- Ea in D1. rewrite <- Ho in D2. unfold does in D1, D2. rewrite D2 in Hf. cbn [thr refill] in Hf.
        erewrite nth_error_nth in Hf; [|apply upd_at; exact Hl].
        eapply (@sim_both s a g t c R _ Ha (At p) (At p') p' (ring s) g [] (refill y (q a) (upd (thr a) t p')) ls Hp Hf D1).
        -- constructor.
        -- constructor.
        -- exact (r_inv R).
        -- reflexivity.
        -- cbn. auto.
        -- exact (r_items R).
        -- cbn. rewrite Ac, (r_rest R). exact (r_next R).
        -- eapply (@stage_keep a _ t p p'); [exact Ha|destruct p; cbn in *; tauto|reflexivity|auto|exact (r_stage R)].
Qed.


Lemma stay_pcs (s : fstate E) t p : nth_error (pcs s) t = Some p -> pcs s = fupd (pcs s) t p.
Proof. intros H. now rewrite fupd_id. Qed.

Lemma pinc_iff cap (r : CircModel.state E) g t :
  CircProofs.Inv cap r g ->
  match CircModel.t_pc (CircModel.thr r t) with
  | CircModel.PFullClear | CircModel.PInc _ _ | CircModel.GEmptyClear | CircModel.GDec _ | CircModel.QClear _ _ => True
  | _ => False
  end ->
  (forall n e, CircSpec.s_phase g t = CircSpec.PhPut n e -> exists b i, CircModel.t_pc (CircModel.thr r t) = CircModel.PInc b i) /\
  (CircSpec.s_phase g t = CircSpec.PhRefused ->
     CircModel.t_pc (CircModel.thr r t) = CircModel.PFullClear \/ CircModel.t_pc (CircModel.thr r t) = CircModel.GEmptyClear).
Proof.
  intros I X. pose proof (CircProofs.inv_phase I t) as H. unfold CircProofs.PC in H.
  destruct (CircModel.t_pc (CircModel.thr r t)); cbn in H; try contradiction; split; intros; auto; try congruence;
    try (eexists _, _; reflexivity); firstorder congruence.
Qed.

Lemma thr_some (s : fstate E) (a : state E) g t p : rel s a g -> nth_error (pcs s) t = Some p -> nth_error (thr a) t <> None.
Proof. intros R H. apply nth_error_Some. rewrite <- (r_len R). exact (some_lt _ _ H). Qed.

Lemma strip_s_thr (a : state E) t p : strip (s_thr a t p) = strip a.
Proof. reflexivity. Qed.

Lemma items_length (a : state E) (g : sstate) : map key (q a) = CircSpec.s_items g -> length (q a) = length (CircSpec.s_items g).
Proof. intros H. rewrite <- H. symmetry. apply map_length. Qed.

Lemma sim_input s a g t c e : rel s a g -> nth_error (pcs s) t = Some (InPut e) -> simulated s a (MThread t c).
Proof.
  intros R Hp. pose proof (thr_some _ R Hp) as Hn. destruct (nth_error (thr a) t) as [pa|] eqn:Ha; [clear Hn|congruence].
  pose proof (r_thr R _ Hp Ha) as (Rf & Cs). cbn in Rf.
  assert (NN : CircSpec.s_phase g t <> CircSpec.PhNone).
  { destruct Cs as [[X _]|[(n & X & _)|[X _]]]; rewrite X; discriminate. }
  destruct (ring_in _ (@CircModel.CGet E) (r_inv R) NN) as (r & tr & g' & St & Rn & Ft & I' & [[-> ->]|[(-> & S1 & X)|(v & -> & S1)]]).
  - eapply (@sim_stutter s a g t c R _ Ha (InPut e) (InPut e) r g []); auto.
    + cbn [fstep_thread]. rewrite St, <- (stay_pcs _ _ Hp). reflexivity.
    + cbn. auto.
  - destruct (pinc_iff _ I' X) as [Y1 Y2]. inversion S1; subst.
    + (* accepted *)
      assert (e = a0) by (destruct Cs as [[Z _]|[(n & Z & _)|[Z _]]]; congruence). subst a0.
      destruct Cs as [[_ ->]|[(n & Z & _)|[Z _]]]; try congruence.
      destruct (Y1 (CircSpec.s_next g) e) as (b & i & Y). { cbn. now rewrite Nat.eqb_refl. }
      eapply (@sim_both s a g t c R _ Ha (InPut e) (InPut e) (PAdd (length (acc a)) e) r _ _ _ _ Hp); [| |exact Rn|exact Ft|exact I'| | | | |].
      * cbn [fstep_thread]. rewrite St. unfold taken. rewrite Y, <- (stay_pcs _ _ Hp).
        instantiate (2 := s_thr (s_acc (s_q a (q a ++ [mkEntry (length (acc a)) e Reserved]) (size a)) (acc a ++ [(t, e)])) t (PAdd (length (acc a)) e)).
        instantiate (1 := [LAccept t e]). rewrite (r_rest R). reflexivity.
      * cbn [step_thread]. rewrite (items_length _ _ (r_items R)). destruct (Nat.ltb_spec (length (CircSpec.s_items g)) (c_cap C)); [reflexivity|lia].
      * reflexivity.
      * cbn. rewrite Nat.eqb_refl. split; [exact Rf|]. right. left. exists (length (acc a)). rewrite (r_next R). auto.
      * cbn. rewrite map_app, (r_items R), (r_next R). reflexivity.
      * cbn. rewrite app_length. cbn. rewrite (r_next R). lia.
      * cbn [q s_thr s_acc s_q]. intros x Hx Hs. apply in_app_or in Hx. destruct Hx as [Hx|[<-|[]]].
        -- destruct (r_stage R x Hx Hs) as (u & e' & W). exists u, e'. cbn [thr s_thr s_acc s_q].
           destruct (Nat.eq_dec u t) as [->|N]; [|rewrite upd_other by exact N; exact W].
           rewrite Ha in W. destruct W; discriminate.
        -- exists t, e. left. cbn. rewrite upd_at; [reflexivity|exact (some_lt _ _ Ha)].
    + (* refused *)
      assert (e = a0) by (destruct Cs as [[Z _]|[(n & Z & _)|[Z _]]]; congruence). subst a0.
      destruct Cs as [[_ ->]|[(n & Z & _)|[Z _]]]; try congruence.
      eapply (@sim_both s a g t c R _ Ha (InPut e) (InPut e) (FTas (KRetry e)) r _ _ (s_thr a t (FTas (KRetry e))) [] Hp); [| |exact Rn|exact Ft|exact I'| | | | |].
      * cbn [fstep_thread]. rewrite St. unfold taken. rewrite <- (stay_pcs _ _ Hp). rewrite (r_rest R).
        destruct Y2 as [Y|Y]; [cbn; now rewrite Nat.eqb_refl|rewrite Y; reflexivity|rewrite Y; reflexivity].
      * cbn [step_thread]. rewrite (items_length _ _ (r_items R)). destruct (Nat.ltb_spec (length (CircSpec.s_items g)) (c_cap C)); [lia|reflexivity].
      * reflexivity.
      * cbn. rewrite Nat.eqb_refl. split; [exact Rf|]. right. right. auto.
      * exact (r_items R).
      * exact (r_next R).
      * eapply (@stage_keep a _ t (PPut e)); [exact Ha|exact I|reflexivity|auto|exact (r_stage R)].
    + destruct Cs as [[Z _]|[(n0 & Z & _)|[Z _]]]; congruence.
    + destruct Cs as [[Z _]|[(n0 & Z & _)|[Z _]]]; congruence.
    + destruct Cs as [[Z _]|[(n0 & Z & _)|[Z _]]]; congruence.
  - inversion S1; subst.
    + destruct Cs as [[Z _]|[(n & Z & _)|[Z ->]]]; try congruence.
      eapply (@sim_stutter s a g t c R _ Ha (InPut e) (At (FTas (KRetry e))) r _ _ Hp); [|exact Rn|exact Ft|exact I'| | | |]; try reflexivity.
      * cbn [fstep_thread]. rewrite St. reflexivity.
      * cbn. rewrite Nat.eqb_refl. auto.
    + destruct Cs as [[Z _]|[(n0 & Z & _)|[Z _]]]; congruence.
    + destruct Cs as [[Z _]|[(n0 & Z & ->)|[Z _]]]; try (exfalso; destruct H2; congruence).
      assert (n0 = n /\ a0 = e) as [-> ->] by (destruct H2; split; congruence).
      eapply (@sim_stutter s a g t c R _ Ha (InPut e) (Add i) r _ _ Hp); [|exact Rn|exact Ft|exact I'| | | |]; try reflexivity.
      * cbn [fstep_thread]. rewrite St. reflexivity.
      * cbn. rewrite Nat.eqb_refl. split; [reflexivity|]. exists n, e. split; [|reflexivity].
        unfold refs_of in *. cbn. rewrite ?Nat.eqb_refl. f_equal. exact Rf.
Qed.

Lemma sim_inget s a g t c k : rel s a g -> nth_error (pcs s) t = Some (InGet k) -> simulated s a (MThread t c).
Proof.
  intros R Hp. pose proof (thr_some _ R Hp) as Hn. destruct (nth_error (thr a) t) as [pa|] eqn:Ha; [clear Hn|congruence].
  pose proof (r_thr R _ Hp Ha) as (Rf & Cs). cbn in Rf.
  assert (NN : CircSpec.s_phase g t <> CircSpec.PhNone).
  { destruct Cs as [[X _]|[(n & e & X & _)|[X _]]]; rewrite X; discriminate. }
  destruct (ring_in _ (@CircModel.CGet E) (r_inv R) NN) as (r & tr & g' & St & Rn & Ft & I' & [[-> ->]|[(-> & S1 & X)|(v & -> & S1)]]).
  - eapply (@sim_stutter s a g t c R _ Ha (InGet k) (InGet k) r g []); auto.
    + cbn [fstep_thread]. rewrite St, <- (stay_pcs _ _ Hp). reflexivity.
    + cbn. auto.
  - inversion S1; subst.
    + destruct Cs as [[Z _]|[(n0 & e & Z & _)|[Z _]]]; congruence.
    + destruct Cs as [[Z _]|[(n0 & e & Z & _)|[Z _]]]; congruence.
    + destruct Cs as [[_ ->]|[(n0 & e & Z & _)|[Z _]]]; try congruence.
      pose proof (r_items R) as Q. rewrite H1 in Q. destruct (q a) as [|x qs] eqn:Qa; [discriminate Q|].
      cbn in Q. injection Q as Q0 Q1 Q2.
      assert (Pub : q_stage x = Published).
      { destruct (q_stage x) eqn:Sx; [| |reflexivity]; exfalso;
        (destruct (r_stage R x) as (u & e' & W); [rewrite Qa; left; reflexivity|congruence|]).
        all: assert (Hu : exists pu, nth_error (pcs s) u = Some pu).
        1,3: destruct (nth_error (pcs s) u) as [pu|] eqn:U; [eauto|]; apply nth_error_None in U; rewrite (r_len R) in U;
             destruct W as [W|W]; apply some_lt in W; lia.
        all: destruct Hu as [pu Hu]; destruct W as [W|W]; pose proof (r_thr R _ Hu W) as Pr; rewrite Q0 in Pr;
             (destruct pu; cbn in Pr;
              [destruct Pr as (_ & _ & <- & []) 
              |destruct Pr as (_ & [[_ B]|[(m & Z & B)|[_ B]]]); try discriminate B; injection B as <- <-; exact (H2 u _ Z)
              |destruct Pr as (_ & m & e1 & Z & B); try discriminate B; injection B as <- <-; exact (H4 _ (ref_live _ _ Z) eq_refl)
              |destruct Pr as (_ & m & e1 & Z & B); try discriminate B; injection B as <- <-; exact (H4 _ (ref_live _ _ Z) eq_refl)
              |destruct Pr as (_ & [[_ B]|[(m & e1 & Z & B)|[_ B]]]); try discriminate B; unfold after_none in B; destruct (c_kind C); discriminate B
              |destruct Pr as (_ & m & e1 & Z & B); discriminate B
              |destruct Pr as (_ & m & Z & B); unfold after_sub in B; destruct (c_kind C); discriminate B
              |destruct Pr as (_ & [[_ B]|(m & Z & B)]); [discriminate B|unfold after_size in B; destruct (Nat.eqb m 0); discriminate B]]). }
      eapply (@sim_both s a g t c R _ Ha (InGet k) (InGet k) (FSub k (q_ev x)) r _ _ (s_thr (s_q a qs (size a)) t (FSub k (q_ev x))) [] Hp); [| |exact Rn|exact Ft|exact I'| | | | |].
      * cbn [fstep_thread]. rewrite St. rewrite <- (stay_pcs _ _ Hp), (r_rest R). reflexivity.
      * cbn [step_thread]. rewrite Qa, Pub. reflexivity.
      * reflexivity.
      * cbn. rewrite Nat.eqb_refl. split; [exact Rf|]. right. left. eexists _, _. split; [reflexivity|]. congruence.
      * exact Q2.
      * exact (r_next R).
      * eapply (@stage_keep a _ t (FGet k)); [exact Ha|exact I|reflexivity| |exact (r_stage R)].
        intros y Hy. rewrite Qa. right. exact Hy.
    + destruct Cs as [[_ ->]|[(n0 & e & Z & _)|[Z _]]]; try congruence.
      pose proof (r_items R) as Q. rewrite H2 in Q. destruct (q a) as [|x qs] eqn:Qa; [|discriminate Q].
      eapply (@sim_both s a g t c R _ Ha (InGet k) (InGet k) (after_none k) r _ _ (s_thr a t (after_none k)) [] Hp); [| |exact Rn|exact Ft|exact I'| | | | |].
      * cbn [fstep_thread]. rewrite St. rewrite <- (stay_pcs _ _ Hp), (r_rest R). reflexivity.
      * cbn [step_thread]. rewrite Qa. reflexivity.
      * reflexivity.
      * cbn. rewrite Nat.eqb_refl. split; [exact Rf|]. right. right. auto.
      * exact (r_items R).
      * exact (r_next R).
      * eapply (@stage_keep a _ t (FGet k)); [exact Ha|exact I|reflexivity|auto|exact (r_stage R)].
    + destruct Cs as [[Z _]|[(n0 & e & Z & _)|[Z _]]]; congruence.
  - inversion S1; subst.
    + destruct Cs as [[Z _]|[(n & e & Z & _)|[Z ->]]]; try congruence.
      eapply (@sim_stutter s a g t c R _ Ha (InGet k) (At (after_none k)) r _ _ Hp); [|exact Rn|exact Ft|exact I'| | | |]; try reflexivity.
      * cbn [fstep_thread]. rewrite St. reflexivity.
      * cbn. rewrite Nat.eqb_refl. unfold after_none. destruct (c_kind C); cbn; auto.
    + destruct Cs as [[Z _]|[(n0 & e & Z & _)|[Z _]]]; congruence.
    + destruct Cs as [[Z _]|[(n0 & e & Z & ->)|[Z _]]]; try (exfalso; destruct H2; congruence).
      assert (n0 = n /\ a0 = e) as [-> ->] by (destruct H2; split; congruence).
      eapply (@sim_stutter s a g t c R _ Ha (InGet k) (Sub k i) r _ _ Hp); [|exact Rn|exact Ft|exact I'| | | |]; try reflexivity.
      * cbn [fstep_thread]. rewrite St. reflexivity.
      * cbn. rewrite Nat.eqb_refl. split; [reflexivity|]. exists n, e. split; [|reflexivity].
        unfold refs_of in *. cbn. rewrite ?Nat.eqb_refl. f_equal. exact Rf.
Qed.

Lemma sim_insize s a g t c : rel s a g -> nth_error (pcs s) t = Some InSize -> simulated s a (MThread t c).
Proof.
  intros R Hp. pose proof (thr_some _ R Hp) as Hn. destruct (nth_error (thr a) t) as [pa|] eqn:Ha; [clear Hn|congruence].
  pose proof (r_thr R _ Hp Ha) as (Rf & Cs). cbn in Rf.
  assert (NN : CircSpec.s_phase g t <> CircSpec.PhNone).
  { destruct Cs as [[X _]|(n & X & _)]; rewrite X; discriminate. }
  destruct (ring_in _ (@CircModel.CGet E) (r_inv R) NN) as (r & tr & g' & St & Rn & Ft & I' & [[-> ->]|[(-> & S1 & X)|(v & -> & S1)]]).
  - eapply (@sim_stutter s a g t c R _ Ha InSize InSize r g []); auto.
    + cbn [fstep_thread]. rewrite St, <- (stay_pcs _ _ Hp). reflexivity.
    + cbn. auto.
  - inversion S1; subst; destruct Cs as [[Z ->]|(n0 & Z & _)]; try congruence.
    match goal with H : CircSpec.s_phase g t = CircSpec.PhCalled (CircSpec.OQuery ?x) |- _ =>
      match x with CircSpec.QSize => fail 1 | _ => assert (x = CircSpec.QSize) by congruence; subst x end end.
    eapply (@sim_both s a g t c R _ Ha InSize InSize (after_size (length (CircSpec.s_items g))) r _ _
       (s_thr a t (after_size (length (CircSpec.s_items g)))) [] Hp); [| |exact Rn|exact Ft|exact I'| | | | |].
    + cbn [fstep_thread]. rewrite St. rewrite <- (stay_pcs _ _ Hp), (r_rest R). reflexivity.
    + cbn [step_thread]. rewrite <- (items_length _ _ (r_items R)). destruct (q a); reflexivity.
    + reflexivity.
    + cbn. rewrite Nat.eqb_refl. split; [exact Rf|]. right. eexists. split; reflexivity.
    + exact (r_items R).
    + exact (r_next R).
    + eapply (@stage_keep a _ t WSize); [exact Ha|exact I|reflexivity|auto|exact (r_stage R)].
  - inversion S1; subst.
    + destruct Cs as [[Z _]|(n & Z & _)]; congruence.
    + destruct Cs as [[Z _]|(n0 & Z & ->)]; try congruence. assert (n0 = n) by congruence. subst n0.
      eapply (@sim_stutter s a g t c R _ Ha InSize (At (after_size n)) r _ _ Hp); [|exact Rn|exact Ft|exact I'| | | |]; try reflexivity.
      * cbn [fstep_thread]. rewrite St. reflexivity.
      * cbn. rewrite Nat.eqb_refl. unfold after_size. destruct (Nat.eqb n 0); cbn; auto.
    + destruct Cs as [[Z _]|(n0 & Z & _)]; destruct H2; congruence.
Qed.

Lemma run_read cap (g : sstate) t i n e : refs_of g t = [CircSpec.mkRef t i n e] -> CircSpec.sruns cap g [CircSpec.LRead t i e] g.
Proof. intros H. econstructor; [|constructor]. econstructor. exact (ref_live _ _ H). Qed.

Lemma sim_add s a g t c i : rel s a g -> nth_error (pcs s) t = Some (Add i) -> simulated s a (MThread t c).
Proof.
  intros R Hp. pose proof (thr_some _ R Hp) as Hn. destruct (nth_error (thr a) t) as [pa|] eqn:Ha; [clear Hn|congruence].
  pose proof (r_thr R _ Hp Ha) as (Ph & n & e & Rf & ->).
  eapply (@sim_both s a g t c R _ Ha (Add i) (Rel i) (PRel n e) (ring s) g [CircSpec.LRead t i e]
     (s_thr (s_q a (set_stage n Sized (q a)) ((size a + c_msize C e) mod M64)%N) t (PRel n e)) [] Hp);
    [| |exact (run_read _ _ Rf)|repeat constructor|exact (r_inv R)| | | | |].
  - cbn [fstep_thread]. rewrite (ring_read (r_inv R) Ph Rf), (r_rest R). reflexivity.
  - reflexivity.
  - reflexivity.
  - cbn. split; [exact Ph|]. eauto.
  - cbn. rewrite set_stage_key. exact (r_items R).
  - exact (r_next R).
  - intros x Hx Hs. cbn in Hx. unfold set_stage in Hx. apply in_map_iff in Hx. destruct Hx as (y & <- & Hy).
    destruct (Nat.eqb_spec (q_no y) n) as [En|Nn].
    + exists t, e. cbn. right. rewrite En. apply upd_at. exact (some_lt _ _ Ha).
    + destruct (r_stage R y Hy Hs) as (u & e' & W). exists u, e'. cbn.
      destruct (Nat.eq_dec u t) as [->|N]; [|rewrite upd_other by exact N; exact W].
      rewrite Ha in W. destruct W as [W|W]; [injection W as W1 _; congruence|discriminate W].
Qed.

Lemma sim_rel s a g t c i : rel s a g -> nth_error (pcs s) t = Some (Rel i) -> simulated s a (MThread t c).
Proof.
  intros R Hp. pose proof (thr_some _ R Hp) as Hn. destruct (nth_error (thr a) t) as [pa|] eqn:Ha; [clear Hn|congruence].
  pose proof (r_thr R _ Hp Ha) as (Ph & n & e & Rf & ->).
  destruct (ring_rel (r_inv R) Ph Rf) as (r & g' & St & Rn & I' & Ph' & Rf' & It & Nx).
  eapply (@sim_both s a g t c R _ Ha (Rel i) (At PDecide) PDecide r g' _
     (s_thr (s_q a (set_stage n Published (q a)) (size a)) t PDecide) [] Hp); [| |exact Rn|repeat constructor|exact I'| | | | |].
  - cbn [fstep_thread]. rewrite St, (r_rest R). reflexivity.
  - reflexivity.
  - reflexivity.
  - cbn. auto.
  - cbn. rewrite set_stage_key, It. exact (r_items R).
  - rewrite Nx. exact (r_next R).
  - intros x Hx Hs. cbn in Hx. unfold set_stage in Hx. apply in_map_iff in Hx. destruct Hx as (y & <- & Hy).
    destruct (Nat.eqb_spec (q_no y) n) as [En|Nn]; [cbn in Hs; congruence|].
    destruct (r_stage R y Hy Hs) as (u & e' & W). exists u, e'. cbn.
    destruct (Nat.eq_dec u t) as [->|N]; [|rewrite upd_other by exact N; exact W].
    rewrite Ha in W. destruct W as [W|W]; [discriminate W|injection W as W1 _; congruence].
Qed.

Lemma sim_sub s a g t c k i : rel s a g -> nth_error (pcs s) t = Some (Sub k i) -> simulated s a (MThread t c).
Proof.
  intros R Hp. pose proof (thr_some _ R Hp) as Hn. destruct (nth_error (thr a) t) as [pa|] eqn:Ha; [clear Hn|congruence].
  pose proof (r_thr R _ Hp Ha) as (Ph & n & e & Rf & ->).
  destruct (step_thread C a t c (FSub k e)) as [a' ls] eqn:Sa.
  eapply (@sim_both s a g t c R _ Ha (Sub k i) (Free k e i) (after_sub k e) (ring s) g [CircSpec.LRead t i e] a' ls Hp);
    [| exact Sa|exact (run_read _ _ Rf)|repeat constructor|exact (r_inv R)| | | | |].
  - cbn [fstep_thread]. rewrite (ring_read (r_inv R) Ph Rf), (r_rest R).
    cbn [step_thread] in Sa. destruct (c_kind C); injection Sa as <- <-; reflexivity.
  - cbn [step_thread] in Sa. unfold after_sub. destruct (c_kind C); injection Sa as <- <-; reflexivity.
  - cbn. split; [exact Ph|]. eauto.
  - cbn [step_thread] in Sa. destruct (c_kind C); injection Sa as <- <-; exact (r_items R).
  - cbn [step_thread] in Sa. destruct (c_kind C); injection Sa as <- <-; exact (r_next R).
  - eapply (@stage_keep a _ t (FSub k e) (after_sub k e)); [exact Ha|exact I| | |exact (r_stage R)];
    cbn [step_thread] in Sa; unfold after_sub; destruct (c_kind C); injection Sa as <- <-; auto.
Qed.

Lemma sim_free s a g t c k e i : rel s a g -> nth_error (pcs s) t = Some (Free k e i) -> simulated s a (MThread t c).
Proof.
  intros R Hp. pose proof (thr_some _ R Hp) as Hn. destruct (nth_error (thr a) t) as [pa|] eqn:Ha; [clear Hn|congruence].
  pose proof (r_thr R _ Hp Ha) as (Ph & n & Rf & ->).
  destruct (ring_rel (r_inv R) Ph Rf) as (r & g' & St & Rn & I' & Ph' & Rf' & It & Nx).
  eapply (@sim_stutter s a g t c R _ Ha (Free k e i) (At (after_sub k e)) r g' _ Hp); [|exact Rn|repeat constructor|exact I'| | | |]; auto.
  - cbn [fstep_thread]. rewrite St. reflexivity.
  - cbn. unfold after_sub. destruct (c_kind C); cbn; auto.
Qed.

Lemma sim_step s a g m : rel s a g -> simulated s a m.
Proof.
  intros R. destruct m as [t c|n].
  - destruct (nth_error (pcs s) t) as [p|] eqn:Hp.
    + destruct p.
      * exact (sim_at _ c R (thr_some _ R Hp) Hp).
      * exact (sim_input _ c R Hp).
      * exact (sim_add _ c R Hp).
      * exact (sim_rel _ c R Hp).
      * exact (sim_inget _ c R Hp).
      * exact (sim_sub _ c R Hp).
      * exact (sim_free _ c R Hp).
      * exact (sim_insize _ c R Hp).
    + exists s, [], a, g, [MThread t c]. cbn [fstep]. rewrite Hp. split; [reflexivity|]. split; [|split; [exact R|left; reflexivity]].
      cbn [exec step]. rewrite (proj2 (nth_error_None (thr a) t)); [reflexivity|]. rewrite <- (r_len R). now apply nth_error_None.
  - eexists _, [], _, g, [MDrain n]. split; [reflexivity|]. split; [reflexivity|].
    split; [|left; reflexivity]. destruct R. split; auto. cbn. rewrite r_rest0. reflexivity.
Qed.

Lemma sim_exec ms : forall s a g, rel s a g ->
  exists s' ls a' g' ms', fexec C s ms = Some (s', ls) /\ exec C a ms' = (a', ls) /\ rel s' a' g'.
Proof.
  induction ms as [|m ms IH]; intros s a g R.
  - exists s, [], a, g, []. auto.
  - destruct (sim_step m R) as (s1 & l1 & a1 & g1 & m1 & F1 & E1 & R1 & _).
    destruct (IH _ _ _ R1) as (s2 & l2 & a2 & g2 & m2 & F2 & E2 & R2).
    exists s2, (l1 ++ l2), a2, g2, (m1 ++ m2). cbn. rewrite F1, F2. split; [reflexivity|]. split; [|exact R2].
    rewrite SinkLabels.exec_app, E1, E2. reflexivity.
Qed.

Lemma rel_init op n : 1 <= c_cap C -> rel (finit C op n) (init C op n) CircSpec.s_init.
Proof.
  intros K. split; cbn; auto.
  - apply CircProofs.inv_init. exact K.
  - now rewrite map_length.
  - intros t p pa Hp Ha.
    change ((At (if c_lat0 C then WDone else if op then WWait else WDone) : fpc E) :: map At (repeat Idle n))
      with (map (@At E) ((if c_lat0 C then WDone else if op then WWait else WDone) :: repeat Idle n)) in Hp.
    rewrite (map_nth_error _ _ _ Ha) in Hp. injection Hp as <-. cbn. repeat split; auto.
    destruct t as [|t]; cbn in Ha.
    + injection Ha as <-. destruct (c_lat0 C), op; exact I.
    + apply nth_error_In, repeat_spec in Ha. subst. exact I.
  - intros x [].
Qed.

End Proofs.
