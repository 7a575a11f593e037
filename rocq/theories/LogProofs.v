(** * Proofs of C83-C85 *)
From Coq Require Import String List Arith Bool Lia.
From Verif Require Import Base LevelModel SysModel SysSpec SysBase SysInv SysSteps SysProps SysMore SysWitness LogModel LogSpec.
Import ListNotations.
Open Scope string_scope.

Lemma upd_same f t p : upd f t p t = p.
Proof. unfold upd. rewrite Nat.eqb_refl. reflexivity. Qed.
Lemma upd_other f t p u : u <> t -> upd f t p u = f u.
Proof. intros H. unfold upd. apply Nat.eqb_neq in H. rewrite H. reflexivity. Qed.

Lemma leqb_eq a b : leqb a b = true <-> a = b.
Proof. split; [destruct a, b; (reflexivity || discriminate)|intros ->; destruct b; reflexivity]. Qed.
Lemma passes_b l lv : lle lv l && (negb (leqb lv OFF) && negb (leqb lv IGNORE)) = true <-> passes l lv.
Proof.
  unfold passes, lle. rewrite !andb_true_iff, Nat.leb_le, !negb_true_iff. split.
  - intros (H & A & B). split; [exact H|]. split; intros ->; discriminate.
  - intros (H & A & B). split; [exact H|]. split; (destruct (leqb lv _) eqn:E; [apply leqb_eq in E; congruence|reflexivity]).
Qed.

Section L.
Variable ord : list nat -> list nat.
Variable dbg : bool.
Variable ok : sys -> call -> Prop.
Notation lstep := (lstep ord dbg ok).
Notation lreach := (lreach ord dbg ok).
Notation path := (path ord dbg ok).

(** What a step does to one thread. *)
Lemma step_pc a m b t : lstep a m b ->
  pc b t = pc a t \/
  (lsys b = lsys a /\ pc a t = LIdle /\ exists i lv, pc b t = LTest i lv) \/
  (lsys b = lsys a /\ m = Go t /\ pc b t = advance (lsys a) (pc a t)).
Proof.
  intros H. destruct H; cbn; auto.
  - destruct (Nat.eq_dec t t0) as [->|Ht]; [|rewrite upd_other by auto; auto].
    right; left. rewrite upd_same. eauto.
  - destruct (Nat.eq_dec t t0) as [->|Ht]; [|rewrite upd_other by auto; auto].
    right; right. rewrite upd_same. auto.
Qed.

Lemma path_last a sts b : path a sts b -> In b sts.
Proof. intros H. destruct H; [left; reflexivity|apply in_app_iff; right; left; reflexivity]. Qed.

Section During.
Variables t i : nat.
Variable lv : level.

Definition pushed (sts : list lst) : Prop := exists s k, In s sts /\ pushing s t i lv k.
Definition leveled (sts : list lst) (P : level -> Prop) : Prop := exists s l, In s sts /\ has_level s i l /\ P l.
Definition sunk (sts : list lst) (k : nat) : Prop := exists s, In s sts /\ has_sink s i (Some k).
Definition crit (l : level) : Prop := lcode CRITICAL <= lcode l.

Record dinv (sts : list lst) (b : lst) : Prop := {
  d_push : forall s j l k, In s sts -> pc s t = LPushing j l k ->
    j = i /\ l = lv /\ leveled sts (fun l => passes l lv) /\ sunk sts k;
  d_flush : forall s j k, In s sts -> pc s t = LFlushing j k ->
    j = i /\ pushed sts /\ leveled sts crit /\ sunk sts k;
  d_now : match pc b t with
          | LIdle => False
          | LTest j l => j = i /\ l = lv /\ ~ pushed sts /\ (forall s k, In s sts -> ~ flushing s t k)
          | LDeref j l => j = i /\ l = lv /\ leveled sts (fun l => passes l lv)
          | LPushing j l k => True
          | LTest2 j => j = i /\ pushed sts /\ (forall s k, In s sts -> ~ flushing s t k)
          | LDeref2 j => j = i /\ pushed sts /\ leveled sts crit
          | LFlushing j k => True
          | LNull j => True
          end;
  d_noflush : match pc b t with LDeref _ _ | LPushing _ _ _ => forall s k, In s sts -> ~ flushing s t k | _ => True end
}.

Lemma pushed_app sts l : pushed sts -> pushed (sts ++ l).
Proof. intros (s & k & H & P). exists s, k. split; [apply in_app_iff; auto|exact P]. Qed.
Lemma leveled_app sts l P : leveled sts P -> leveled (sts ++ l) P.
Proof. intros (s & k & H & Q). exists s, k. split; [apply in_app_iff; auto|exact Q]. Qed.
Lemma sunk_app sts l k : sunk sts k -> sunk (sts ++ l) k.
Proof. intros (s & H & Q). exists s. split; [apply in_app_iff; auto|exact Q]. Qed.
Hint Resolve pushed_app leveled_app sunk_app : core.

Lemma during_inv a sts b : during ord dbg ok t i lv a sts b -> dinv sts b.
Proof.
  intros (H & Ha & Hf). induction H as [|sts b m c H IH Hs].
  - constructor; rewrite ?Ha.
    + intros s j l k [<-|[]] E. congruence.
    + intros s j k [<-|[]] E. congruence.
    + split; [reflexivity|]. split; [reflexivity|]. split.
      * intros (s & k & [<-|[]] & P). red in P. congruence.
      * intros s k [<-|[]] (j & P). congruence.
    + exact I.
  - apply Forall_app in Hf. destruct Hf as (Hf & Hc). inversion Hc as [|? ? Hc1 _]; subst. specialize (IH Hf).
    destruct IH as [DP DF DN DX]. pose proof (path_last _ _ _ H) as Hb.
    assert (Hc' : In c (sts ++ [c])) by (apply in_app_iff; right; left; reflexivity).
    assert (Hb' : In b (sts ++ [c])) by (apply in_app_iff; left; exact Hb).
    pose proof (step_pc _ _ _ t Hs) as Hpc.
    (* old states *)
    assert (KP : forall s j l k, In s (sts ++ [c]) -> pc s t = LPushing j l k ->
              (In s sts) \/ s = c).
    { intros s j l k Hi _. apply in_app_iff in Hi. destruct Hi as [|[->|[]]]; auto. }
    destruct Hpc as [E|[(ES & E & _)|(ES & Em & E)]].
    + (* the thread did not move *)
      constructor.
      * intros s j l k Hi P. apply in_app_iff in Hi. destruct Hi as [Hi|[<-|[]]].
        -- destruct (DP _ _ _ _ Hi P) as (? & ? & ? & ?). repeat (split; [auto; fail|]); auto.
        -- rewrite E in P. destruct (DP _ _ _ _ Hb P) as (? & ? & ? & ?). repeat (split; [auto; fail|]); auto.
      * intros s j k Hi P. apply in_app_iff in Hi. destruct Hi as [Hi|[<-|[]]].
        -- destruct (DF _ _ _ Hi P) as (? & ? & ? & ?). repeat (split; [auto; fail|]); auto.
        -- rewrite E in P. destruct (DF _ _ _ Hb P) as (? & ? & ? & ?). repeat (split; [auto; fail|]); auto.
      * rewrite E. destruct (pc b t) eqn:Eb; auto.
        -- destruct DN as (-> & -> & N & F). split; [reflexivity|]. split; [reflexivity|]. split.
           ++ intros (s & k & Hi & P). apply in_app_iff in Hi. destruct Hi as [Hi|[<-|[]]]; [apply N; exists s, k; auto|]. red in P. congruence.
           ++ intros s k Hi P. apply in_app_iff in Hi. destruct Hi as [Hi|[<-|[]]]; [exact (F _ _ Hi P)|]. destruct P as (? & P). congruence.
        -- destruct DN as (-> & -> & N). auto.
        -- destruct DN as (-> & N & F). split; [reflexivity|]. split; [auto|].
           intros s k Hi P. apply in_app_iff in Hi. destruct Hi as [Hi|[<-|[]]]; [exact (F _ _ Hi P)|]. destruct P as (? & P). congruence.
        -- destruct DN as (-> & N & F). auto.
      * rewrite E. destruct (pc b t) eqn:Eb; auto;
          intros s k' Hi P; (apply in_app_iff in Hi; destruct Hi as [Hi|[<-|[]]]; [exact (DX _ _ Hi P)|]); destruct P as (? & P); congruence.
    + (* it was idle *)
      exfalso. rewrite E in DN. exact DN.
    + (* it moved *)
      destruct (pc b t) as [|j l|j l|j l k|j|j|j k|j] eqn:Eb; cbn [advance] in E.
      * destruct DN.
      * (* LTest *)
        destruct DN as (-> & -> & N & F).
        assert (NF : forall s k, In s (sts ++ [c]) -> pc c t <> LIdle -> (exists j l, pc c t = LDeref j l) \/ (exists j, pc c t = LNull j) -> ~ flushing s t k).
        { intros s k Hi _ D P. apply in_app_iff in Hi. destruct Hi as [Hi|[<-|[]]]; [exact (F _ _ Hi P)|]. destruct P as (? & P).
          destruct D as [(? & ? & D)|(? & D)]; congruence. }
        destruct (nth_error (loggers (lsys b)) i) as [L|] eqn:EL.
        -- destruct (lle lv (l_level L)) eqn:E1; [|congruence]. destruct (negb (leqb lv OFF) && negb (leqb lv IGNORE)) eqn:E2; [|congruence].
           assert (PL : leveled (sts ++ [c]) (fun l => passes l lv)).
           { exists b, (l_level L). split; [exact Hb'|]. split; [exists L; auto|]. apply passes_b. rewrite E1, E2. reflexivity. }
           constructor.
           ++ intros s j l k Hi P. apply in_app_iff in Hi. destruct Hi as [Hi|[<-|[]]]; [|congruence].
              exfalso. apply N. destruct (DP _ _ _ _ Hi P) as (-> & -> & _). exists s, k. auto.
           ++ intros s j k Hi P. exfalso. apply in_app_iff in Hi. destruct Hi as [Hi|[<-|[]]]; [|congruence]. apply (F s k Hi). exists j. exact P.
           ++ rewrite E. auto.
           ++ rewrite E. intros s k Hi. apply NF; eauto.
        -- constructor.
           ++ intros s j l k Hi P. apply in_app_iff in Hi. destruct Hi as [Hi|[<-|[]]]; [|congruence].
              exfalso. apply N. destruct (DP _ _ _ _ Hi P) as (-> & -> & _). exists s, k. auto.
           ++ intros s j k Hi P. exfalso. apply in_app_iff in Hi. destruct Hi as [Hi|[<-|[]]]; [|congruence]. apply (F s k Hi). exists j. exact P.
           ++ rewrite E. exact I.
           ++ rewrite E. exact I.
      * (* LDeref *)
        destruct DN as (-> & -> & N).
        assert (OP : forall s j l k, In s sts -> pc s t = LPushing j l k ->
           j = i /\ l = lv /\ leveled (sts ++ [c]) (fun l => passes l lv) /\ sunk (sts ++ [c]) k).
        { intros s j l k Hi P. destruct (DP _ _ _ _ Hi P) as (? & ? & ? & ?). repeat (split; [auto; fail|]); auto. }
        destruct (nth_error (loggers (lsys b)) i) as [L|] eqn:EL; [destruct (l_sink L) as [k0|] eqn:EK|].
        -- constructor.
           ++ intros s j l k Hi P. apply in_app_iff in Hi. destruct Hi as [Hi|[<-|[]]]; [eauto|].
              rewrite E in P. injection P as <- <- <-. split; [reflexivity|]. split; [reflexivity|]. split; [auto|].
              exists b. split; [exact Hb'|]. exists L. auto.
           ++ intros s j k Hi P. exfalso. apply in_app_iff in Hi. destruct Hi as [Hi|[<-|[]]]; [|congruence]. apply (DX s k Hi). exists j. exact P.
           ++ rewrite E. exact I.
           ++ rewrite E. intros s k Hi P. apply in_app_iff in Hi. destruct Hi as [Hi|[<-|[]]]; [exact (DX _ _ Hi P)|]. destruct P as (? & P). congruence.
        -- constructor; [| |rewrite E; exact I|rewrite E; exact I].
           ++ intros s j l k Hi P. apply in_app_iff in Hi. destruct Hi as [Hi|[<-|[]]]; [eauto|congruence].
           ++ intros s j k Hi P. exfalso. apply in_app_iff in Hi. destruct Hi as [Hi|[<-|[]]]; [|congruence]. apply (DX s k Hi). exists j. exact P.
        -- constructor; [| |rewrite E; exact I|rewrite E; exact I].
           ++ intros s j l k Hi P. apply in_app_iff in Hi. destruct Hi as [Hi|[<-|[]]]; [eauto|congruence].
           ++ intros s j k Hi P. exfalso. apply in_app_iff in Hi. destruct Hi as [Hi|[<-|[]]]; [|congruence]. apply (DX s k Hi). exists j. exact P.
      * (* LPushing *)
        assert (HP : j = i /\ l = lv) by (destruct (DP _ _ _ _ Hb Eb) as (? & ? & _); auto). destruct HP as (-> & ->).
        constructor.
        -- intros s j l k' Hi P. apply in_app_iff in Hi. destruct Hi as [Hi|[<-|[]]]; [|congruence].
           destruct (DP _ _ _ _ Hi P) as (? & ? & ? & ?). repeat (split; [auto; fail|]); auto.
        -- intros s j k' Hi P. exfalso. apply in_app_iff in Hi. destruct Hi as [Hi|[<-|[]]]; [|congruence]. apply (DX s k' Hi). exists j. exact P.
        -- rewrite E. split; [reflexivity|]. split; [exists b, k; split; [exact Hb'|exact Eb]|].
           intros s k' Hi P. apply in_app_iff in Hi. destruct Hi as [Hi|[<-|[]]]; [exact (DX _ _ Hi P)|]. destruct P as (? & P). congruence.
        -- rewrite E. exact I.
      * (* LTest2 *)
        destruct DN as (-> & N & F).
        assert (OP : forall s j l k, In s (sts ++ [c]) -> pc s t = LPushing j l k ->
           j = i /\ l = lv /\ leveled (sts ++ [c]) (fun l => passes l lv) /\ sunk (sts ++ [c]) k).
        { intros s j l k Hi P. apply in_app_iff in Hi. destruct Hi as [Hi|[<-|[]]].
          - destruct (DP _ _ _ _ Hi P) as (? & ? & ? & ?). repeat (split; [auto; fail|]); auto.
          - exfalso. rewrite P in E. destruct (nth_error (loggers (lsys b)) i) as [L|]; [destruct (lle CRITICAL (l_level L))|]; discriminate. }
        assert (OF : forall s j k, In s (sts ++ [c]) -> pc s t = LFlushing j k ->
           j = i /\ pushed (sts ++ [c]) /\ leveled (sts ++ [c]) crit /\ sunk (sts ++ [c]) k).
        { intros s j k Hi P. exfalso. apply in_app_iff in Hi. destruct Hi as [Hi|[<-|[]]]; [apply (F s k Hi); exists j; exact P|].
          rewrite P in E. destruct (nth_error (loggers (lsys b)) i) as [L|]; [destruct (lle CRITICAL (l_level L))|]; discriminate. }
        destruct (nth_error (loggers (lsys b)) i) as [L|] eqn:EL; [destruct (lle CRITICAL (l_level L)) eqn:EK|].
        -- constructor; [exact OP|exact OF| |rewrite E; exact I]. rewrite E. split; [reflexivity|]. split; [auto|].
           exists b, (l_level L). split; [exact Hb'|]. split; [exists L; auto|]. apply Nat.leb_le in EK. exact EK.
        -- congruence.
        -- constructor; [exact OP|exact OF|rewrite E; exact I|rewrite E; exact I].
      * (* LDeref2 *)
        destruct DN as (-> & N & F).
        assert (OP : forall s j l k, In s (sts ++ [c]) -> pc s t = LPushing j l k ->
           j = i /\ l = lv /\ leveled (sts ++ [c]) (fun l => passes l lv) /\ sunk (sts ++ [c]) k).
        { intros s j l k Hi P. apply in_app_iff in Hi. destruct Hi as [Hi|[<-|[]]].
          - destruct (DP _ _ _ _ Hi P) as (? & ? & ? & ?). repeat (split; [auto; fail|]); auto.
          - exfalso. rewrite P in E. destruct (nth_error (loggers (lsys b)) i) as [L|]; [destruct (l_sink L)|]; discriminate. }
        constructor; [exact OP| | |].
        -- intros s j k Hi P. apply in_app_iff in Hi. destruct Hi as [Hi|[<-|[]]].
           ++ destruct (DF _ _ _ Hi P) as (? & ? & ? & ?). repeat (split; [auto; fail|]); auto.
           ++ rewrite P in E. destruct (nth_error (loggers (lsys b)) i) as [L|] eqn:EL; [destruct (l_sink L) as [k0|] eqn:EK|]; try discriminate.
              injection E as -> ->. split; [reflexivity|]. split; [auto|]. split; [auto|]. exists b. split; [exact Hb'|]. exists L. auto.
        -- destruct (nth_error (loggers (lsys b)) i) as [L|]; [destruct (l_sink L)|]; rewrite E; exact I.
        -- destruct (nth_error (loggers (lsys b)) i) as [L|]; [destruct (l_sink L)|]; rewrite E; exact I.
      * (* LFlushing *) congruence.
      * (* LNull *)
        constructor; [| |rewrite E; exact I|rewrite E; exact I].
        -- intros s j' l k Hi P. apply in_app_iff in Hi. destruct Hi as [Hi|[<-|[]]]; [|congruence].
           destruct (DP _ _ _ _ Hi P) as (? & ? & ? & ?). repeat (split; [auto; fail|]); auto.
        -- intros s j' k Hi P. apply in_app_iff in Hi. destruct Hi as [Hi|[<-|[]]]; [|congruence].
           destruct (DF _ _ _ Hi P) as (? & ? & ? & ?). repeat (split; [auto; fail|]); auto.
Qed.

(** The end of a call. *)
Lemma end_cases a sts b m c : during ord dbg ok t i lv a sts b -> lstep b m c -> pc c t = LIdle ->
  (~ pushed sts /\ (forall s k, In s sts -> ~ flushing s t k) /\ exists l, has_level b i l /\ ~ passes l lv) \/
  (pushed sts /\ (forall s k, In s sts -> ~ flushing s t k) /\ exists l, has_level b i l /\ ~ crit l) \/
  (pushed sts /\ exists k, flushing b t k).
Proof.
  intros D Hs Hc. pose proof (during_inv _ _ _ D) as [DP DF DN DX]. destruct D as (Hp & _ & Hf). pose proof (path_last _ _ _ Hp) as Hb.
  destruct (step_pc _ _ _ t Hs) as [E|[(_ & _ & j & l & E)|(_ & _ & E)]]; [|congruence|].
  - exfalso. rewrite Hc in E. symmetry in E. rewrite E in DN. exact DN.
  - rewrite Hc in E. destruct (pc b t) as [|j l|j l|j l k|j|j|j k|j] eqn:Eb; cbn [advance] in E; try discriminate.
    + destruct DN.
    + left. destruct DN as (-> & -> & N & F). split; [exact N|]. split; [exact F|].
      destruct (nth_error (loggers (lsys b)) i) as [L|] eqn:EL; [|discriminate]. exists (l_level L). split; [exists L; auto|].
      intros P. apply passes_b in P. apply andb_true_iff in P. destruct P as (P1 & P2). rewrite P1, P2 in E. discriminate.
    + destruct (nth_error (loggers (lsys b)) j) as [L|]; [destruct (l_sink L)|]; discriminate.
    + right; left. destruct DN as (-> & N & F). split; [exact N|]. split; [exact F|].
      destruct (nth_error (loggers (lsys b)) i) as [L|] eqn:EL; [|discriminate]. exists (l_level L). split; [exists L; auto|].
      unfold crit. intros P. destruct (lle CRITICAL (l_level L)) eqn:Q; [discriminate|]. unfold lle in Q. apply Nat.leb_gt in Q. lia.
    + destruct (nth_error (loggers (lsys b)) j) as [L|]; [destruct (l_sink L)|]; discriminate.
    + right; right. destruct (DF _ _ _ Hb Eb) as (-> & N & _). split; [exact N|]. exists k, i. exact Eb.
Qed.
End During.

Lemma has_level_fun a i l l' : has_level a i l -> has_level a i l' -> l = l'.
Proof. intros (L & E & H) (L' & E' & H'). congruence. Qed.
Lemma has_sink_fun a i l l' : has_sink a i l -> has_sink a i l' -> l = l'.
Proof. intros (L & E & H) (L' & E' & H'). congruence. Qed.

Lemma as_configured t i lv a sts b k : during ord dbg ok t i lv a sts b -> inside b t k ->
  (exists s l, In s sts /\ has_level s i l /\ passes l lv) /\ (exists s, In s sts /\ has_sink s i (Some k)) /\
  (forall j l, pushing b t j l k -> j = i /\ l = lv).
Proof.
  intros D Hi. pose proof (during_inv _ _ _ _ _ _ D) as [DP DF _ _]. destruct D as (Hp & _). pose proof (path_last _ _ _ Hp) as Hb.
  destruct Hi as [(j & l & P)|(j & P)].
  - destruct (DP _ _ _ _ Hb P) as (-> & -> & H1 & H2). split; [exact H1|]. split; [exact H2|]. intros j l P'. red in P, P'. rewrite P in P'. injection P' as <- <-. auto.
  - destruct (DF _ _ _ Hb P) as (-> & (s & k' & Hs & Q) & H1 & H2). destruct (DP _ _ _ _ Hs Q) as (_ & _ & H3 & _).
    split; [exact H3|]. split; [exact H2|]. intros j l P'. red in P'. congruence.
Qed.

Lemma kept_back t i lv a sts b m c : during ord dbg ok t i lv a sts b -> lstep b m c -> pc c t = LIdle ->
  (forall s k, In s sts -> ~ pushing s t i lv k) -> exists s l, In s sts /\ has_level s i l /\ ~ passes l lv.
Proof.
  intros D Hs Hc Hn. destruct (end_cases _ _ _ _ _ _ _ _ D Hs Hc) as [(_ & _ & l & H1 & H2)|[((s & k & H1 & H2) & _)|((s & k & H1 & H2) & _)]].
  - exists b, l. split; [destruct D as (Hp & _); exact (path_last _ _ _ Hp)|auto].
  - destruct (Hn _ _ H1 H2).
  - destruct (Hn _ _ H1 H2).
Qed.

Lemma undisturbed t i lv a sts b m c l k : during ord dbg ok t i lv a sts b -> lstep b m c -> pc c t = LIdle ->
  (forall s, In s sts -> has_level s i l /\ has_sink s i (Some k)) ->
  ((exists s, In s sts /\ pushing s t i lv k) <-> passes l lv) /\
  ((exists s, In s sts /\ flushing s t k) <-> passes l lv /\ lcode CRITICAL <= lcode l) /\
  (forall s k', In s sts -> inside s t k' -> k' = k).
Proof.
  intros D Hs Hc Hk. pose proof (during_inv _ _ _ _ _ _ D) as [DP DF _ _].
  assert (Hb : In b sts) by (destruct D as (Hp & _); exact (path_last _ _ _ Hp)).
  assert (KP : forall s j l' k', In s sts -> pc s t = LPushing j l' k' -> j = i /\ l' = lv /\ k' = k /\ passes l lv).
  { intros s j l' k' Hi P. destruct (DP _ _ _ _ Hi P) as (-> & -> & (s1 & l1 & A1 & A2 & A3) & (s2 & B1 & B2)).
    destruct (Hk _ A1) as (C1 & _). destruct (Hk _ B1) as (_ & C2). pose proof (has_level_fun _ _ _ _ A2 C1) as ->. pose proof (has_sink_fun _ _ _ _ B2 C2) as E. injection E as ->. auto. }
  assert (KF : forall s j k', In s sts -> pc s t = LFlushing j k' -> k' = k /\ passes l lv /\ crit l).
  { intros s j k' Hi P. destruct (DF _ _ _ Hi P) as (-> & (s0 & k0 & Z1 & Z2) & (s1 & l1 & A1 & A2 & A3) & (s2 & B1 & B2)).
    destruct (KP _ _ _ _ Z1 Z2) as (_ & _ & _ & Z3).
    destruct (Hk _ A1) as (C1 & _). destruct (Hk _ B1) as (_ & C2). pose proof (has_level_fun _ _ _ _ A2 C1) as ->. pose proof (has_sink_fun _ _ _ _ B2 C2) as E. injection E as ->. auto. }
  assert (PU : pushed t i lv sts -> exists s, In s sts /\ pushing s t i lv k).
  { intros (s & k' & A1 & A2). destruct (KP _ _ _ _ A1 A2) as (_ & _ & -> & _). eauto. }
  destruct (Hk _ Hb) as (Lb & _).
  split; [|split].
  - split.
    + intros (s & A1 & A2). exact (proj2 (proj2 (proj2 (KP _ _ _ _ A1 A2)))).
    + intros P. destruct (end_cases _ _ _ _ _ _ _ _ D Hs Hc) as [(_ & _ & l' & H1 & H2)|[(H & _)|(H & _)]]; auto.
      pose proof (has_level_fun _ _ _ _ H1 Lb) as ->. contradiction.
  - split.
    + intros (s & A1 & (j & A2)). destruct (KF _ _ _ A1 A2) as (_ & ? & ?). auto.
    + intros (P & Q). destruct (end_cases _ _ _ _ _ _ _ _ D Hs Hc) as [(_ & _ & l' & H1 & H2)|[(_ & _ & l' & H1 & H2)|(_ & k' & j & H)]].
      * pose proof (has_level_fun _ _ _ _ H1 Lb) as ->. contradiction.
      * pose proof (has_level_fun _ _ _ _ H1 Lb) as ->. contradiction.
      * destruct (KF _ _ _ Hb H) as (-> & _). exists b. split; [exact Hb|]. exists j. exact H.
  - intros s k' Hi [(j & l' & P)|(j & P)]; [apply (KP _ _ _ _ Hi P)|apply (KF _ _ _ Hi P)].
Qed.

Lemma lreach_sys a : lreach a -> reachable ord dbg ok (lsys a).
Proof.
  intros H. induction H as [|a m b H IH Hs]; [constructor|]. destruct Hs; cbn; auto.
  - match goal with E : step _ _ _ _ _ = _ |- _ => apply (f_equal fst) in E; cbn in E; rewrite <- E end. apply reach_call; assumption.
  - apply reach_configure. exact IH.
Qed.
End L.

(** ** Sinks, their names, and loggers stay *)
Section Keep.
Variable ord : list nat -> list nat.

Definition kept (s s' : sys) : Prop := sinks s' = sinks s /\ smap s' = smap s /\ length (loggers s) <= length (loggers s').
Lemma kept_refl s : kept s s.
Proof. repeat split. auto. Qed.
Lemma kept_trans s1 s2 s3 : kept s1 s2 -> kept s2 s3 -> kept s1 s3.
Proof. intros (A & B & C) (A' & B' & C'). repeat split; [congruence|congruence|lia]. Qed.

Lemma spread_loggers_length lup gs q m : forall ls, length (fst (spread_loggers lup gs q ls m)) = length ls.
Proof.
  intros ls. unfold spread_loggers. match goal with |- context [fold_left ?f m (ls, ?e)] => change (length (fst (fold_left f m (ls, e))) = length ls); set (F := f); generalize e as m' end.
  revert ls. induction m as [|e m IH]; intros ls m'; cbn [fold_left fst]; [reflexivity|]. unfold F at 2.
  destruct (nth_error ls (snd e)) as [x|]; [|apply IH]. destruct (l_alive x); [|apply IH].
  destruct (assoc q (l_group x)) as [[?|]|]; try apply IH. destruct (nth_error gs (l_group x)); [|apply IH]. rewrite IH. apply set_at_length.
Qed.
Lemma spread_kept fuel ov up lup s g s' : spread ord fuel ov up lup s g = Some s' -> kept s s'.
Proof.
  unfold spread. destruct (scan fuel ov (groups s) g [] [] (gmap s)) as [[q st]|]; [|discriminate].
  match goal with |- context [spread_loggers lup ?gs q (loggers s) (lmap s)] => pose proof (spread_loggers_length lup gs q (lmap s) (loggers s)) as HL;
    destruct (spread_loggers lup gs q (loggers s) (lmap s)) as [ls lm] end.
  intros [= <-]. cbn in HL. repeat split. cbn. lia.
Qed.
Lemma mod_kept s g f : kept s (mod_group s g f).
Proof. unfold mod_group. destruct (nth_error (groups s) g); repeat split; auto. Qed.
Lemma mod_logger_kept s g f : kept s (mod_logger s g f).
Proof. unfold mod_logger. destruct (nth_error (loggers s) g); repeat split; cbn; rewrite ?set_at_length; lia. Qed.
Lemma level_kept fuel s g l s' : set_level_of_group ord fuel s g l = Some s' -> kept s s'.
Proof. unfold set_level_of_group. intros H. apply spread_kept in H. eapply kept_trans; [|exact H]. destruct l; apply mod_kept. Qed.
Lemma sink_kept fuel s g l s' : set_sink_of_group ord fuel s g l = Some s' -> kept s s'.
Proof. unfold set_sink_of_group. intros H. apply spread_kept in H. eapply kept_trans; [|exact H]. destruct l; apply mod_kept. Qed.
Lemma parent_kept fuel s g p s' : set_parent_of_group ord fuel s g p = Some s' -> kept s s'.
Proof.
  unfold set_parent_of_group. intros H. apply spread_kept in H. eapply kept_trans; [|exact H].
  eapply kept_trans; [|apply mod_kept]. destruct p as [p|]; [|apply kept_refl]. destruct (nth_error (groups s) p); [|apply kept_refl].
  destruct (oeqb _ _); [apply mod_kept|apply kept_refl].
Qed.

Lemma step_kept fuel dbg s c : (forall n, c <> MakeSink n) -> kept s (fst (step ord fuel dbg s c)).
Proof.
  intros Hc. destruct c; cbn [step].
  1: destruct (Hc name eq_refl).
  1: { unfold construct. destruct (g_construct _ _ _ _); cbn; repeat split; auto. }
  all: repeat first [ match goal with |- context [match ?x with _ => _ end] =>
         lazymatch x with
         | set_parent_of_group _ _ _ _ _ => let E := fresh in destruct x eqn:E; [apply parent_kept in E|]
         | set_sink_of_group _ _ _ _ _ => let E := fresh in destruct x eqn:E; [apply sink_kept in E|]
         | set_level_of_group _ _ _ _ _ => let E := fresh in destruct x eqn:E; [apply level_kept in E|]
         | _ => destruct x
         end end
       | progress unfold ret, get_logger | progress cbn [fst] ];
    try apply kept_refl; try assumption; try apply mod_logger_kept;
    try (repeat split; cbn; rewrite ?app_length; cbn; lia).
Qed.
Lemma step_loggers fuel dbg s c : length (loggers s) <= length (loggers (fst (step ord fuel dbg s c))).
Proof. destruct c; first [apply (fun H => proj2 (proj2 (step_kept fuel dbg s _ H))); discriminate|cbn; lia]. Qed.

(** Loggers stay alive. *)
Definition lasting (ls ls' : list logger) : Prop :=
  forall i L, nth_error ls i = Some L -> exists L', nth_error ls' i = Some L' /\ l_alive L' = l_alive L.
Lemma lasting_refl ls : lasting ls ls.
Proof. intros i L E. eauto. Qed.
Lemma lasting_trans a b c : lasting a b -> lasting b c -> lasting a c.
Proof. intros H H' i L E. destruct (H _ _ E) as (L1 & E1 & A1). destruct (H' _ _ E1) as (L2 & E2 & A2). exists L2. split; congruence. Qed.
Lemma lasting_set ls i x y : nth_error ls i = Some x -> l_alive y = l_alive x -> lasting ls (set_at ls i y).
Proof.
  intros E A j L EL. destruct (Nat.eq_dec j i) as [->|Hj].
  - exists y. split; [apply nth_set_at; eapply nth_some_lt; eauto|congruence].
  - exists L. rewrite nth_set_at_other by auto. auto.
Qed.
Definition keeps_alive (f : logger -> logger) : Prop := forall x, l_alive (f x) = l_alive x.
Lemma spread_loggers_lasting lup gs q m : (forall i y, keeps_alive (lup i y)) -> forall ls, lasting ls (fst (spread_loggers lup gs q ls m)).
Proof.
  intros Hk ls. unfold spread_loggers. match goal with |- context [fold_left ?f m (ls, ?e)] => change (lasting ls (fst (fold_left f m (ls, e)))); set (F := f); generalize e as m' end.
  revert ls. induction m as [|e m IH]; intros ls m'; cbn [fold_left fst]; [apply lasting_refl|]. unfold F at 2.
  destruct (nth_error ls (snd e)) as [x|] eqn:E; [|apply IH]. destruct (l_alive x); [|apply IH].
  destruct (assoc q (l_group x)) as [[?|]|]; try apply IH. destruct (nth_error gs (l_group x)); [|apply IH].
  eapply lasting_trans; [|apply IH]. eapply lasting_set; [exact E|apply Hk].
Qed.
Lemma spread_lasting fuel ov up lup s g s' : (forall i y, keeps_alive (lup i y)) -> spread ord fuel ov up lup s g = Some s' -> lasting (loggers s) (loggers s').
Proof.
  intros Hk. unfold spread. destruct (scan fuel ov (groups s) g [] [] (gmap s)) as [[q st]|]; [|discriminate].
  match goal with |- context [spread_loggers lup ?gs q (loggers s) (lmap s)] => pose proof (spread_loggers_lasting lup gs q (lmap s) Hk (loggers s)) as HL;
    destruct (spread_loggers lup gs q (loggers s) (lmap s)) as [ls lm] end.
  intros [= <-]. exact HL.
Qed.
Lemma mod_loggers s g f : loggers (mod_group s g f) = loggers s.
Proof. unfold mod_group. destruct (nth_error (groups s) g); auto. Qed.
Lemma ka_level i y : keeps_alive (l_level_from i y).
Proof. intros x. reflexivity. Qed.
Lemma ka_sink i y : keeps_alive (l_sink_from i y).
Proof. intros x. unfold l_sink_from. destruct (g_sink y); reflexivity. Qed.
Lemma ka_group i y : keeps_alive (l_set_group i y).
Proof.
  intros x. unfold l_set_group. cbn. destruct (l_sov x) eqn:E; cbn; [destruct (l_lov x); reflexivity|].
  match goal with |- context [l_lov ?z] => destruct (l_lov z) end; rewrite ?ka_level, ?ka_sink; reflexivity.
Qed.
Lemma level_lasting fuel s g l s' : set_level_of_group ord fuel s g l = Some s' -> lasting (loggers s) (loggers s').
Proof.
  unfold set_level_of_group. intros H. apply spread_lasting in H; [|intros i y x; unfold lup_level; destruct (l_lov x); [reflexivity|apply ka_level]].
  destruct l; rewrite mod_loggers in H; exact H.
Qed.
Lemma sink_lasting fuel s g l s' : set_sink_of_group ord fuel s g l = Some s' -> lasting (loggers s) (loggers s').
Proof.
  unfold set_sink_of_group. intros H. apply spread_lasting in H; [|intros i y x; unfold lup_sink; destruct (l_sov x); [reflexivity|apply ka_sink]].
  destruct l; rewrite mod_loggers in H; exact H.
Qed.
Lemma parent_lasting fuel s g p s' : set_parent_of_group ord fuel s g p = Some s' -> lasting (loggers s) (loggers s').
Proof.
  unfold set_parent_of_group. intros H. apply spread_lasting in H; [|intros i y; apply ka_group].
  rewrite mod_loggers in H. destruct p as [p|]; [|exact H]. destruct (nth_error (groups s) p); [|exact H].
  destruct (oeqb _ _); [rewrite mod_loggers in H; exact H|exact H].
Qed.
Lemma mod_logger_lasting s i f : keeps_alive f -> lasting (loggers s) (loggers (mod_logger s i f)).
Proof. intros Hk. unfold mod_logger. destruct (nth_error (loggers s) i) eqn:E; [|apply lasting_refl]. cbn. eapply lasting_set; [exact E|apply Hk]. Qed.
Lemma app_lasting ls l : lasting ls (ls ++ l)%list.
Proof. intros i L E. exists L. split; [|reflexivity]. rewrite nth_error_app1; [exact E|]. eapply nth_some_lt; eauto. Qed.

Lemma step_lasting fuel dbg s c : (forall i, c <> LDrop i) -> lasting (loggers s) (loggers (fst (step ord fuel dbg s c))).
Proof.
  intros Hc. destruct c; cbn [step].
  2: { unfold construct. destruct (g_construct _ _ _ _); cbn; apply lasting_refl. }
  all: repeat first [ match goal with |- context [match ?x with _ => _ end] =>
         lazymatch x with
         | set_parent_of_group _ _ _ _ _ => let E := fresh in destruct x eqn:E; [apply parent_lasting in E|]
         | set_sink_of_group _ _ _ _ _ => let E := fresh in destruct x eqn:E; [apply sink_lasting in E|]
         | set_level_of_group _ _ _ _ _ => let E := fresh in destruct x eqn:E; [apply level_lasting in E|]
         | _ => destruct x
         end end
       | progress unfold ret, get_logger | progress cbn [fst] ];
    try apply lasting_refl; try assumption; try (apply app_lasting);
    try (apply mod_logger_lasting; first [apply ka_level|apply ka_sink|apply ka_group|intros x0; reflexivity]).
  destruct (Hc i eq_refl).
Qed.
Lemma drop_lasting fuel dbg s i j L : j <> i -> nth_error (loggers s) j = Some L ->
  nth_error (loggers (fst (step ord fuel dbg s (LDrop i)))) j = Some L.
Proof.
  intros Hj E. cbn. unfold mod_logger. destruct (nth_error (loggers s) i); [|exact E]. cbn. rewrite nth_set_at_other by auto. exact E.
Qed.
End Keep.

(** ** C84 *)
Lemma in_snd (n : string) (k : nat) m : In k (map snd m) -> exists n : string, In (n, k) m.
Proof. intros H. apply in_map_iff in H. destruct H as ([n' k'] & E & H). cbn in E. subst. eauto. Qed.

Lemma assign_new m (n : string) v : find m n = None -> map snd (assign m n v) = (map snd m ++ [v])%list.
Proof.
  induction m as [|[k w] m IH]; cbn; [reflexivity|]. destruct (String.eqb k n) eqn:E; [discriminate|]. intros H. cbn. rewrite IH by exact H. reflexivity.
Qed.

Section Alive.
Variable ord : list nat -> list nat.
Hypothesis Hord : rearranges ord.
Variable dbg : bool.

Lemma names_all a : lreach ord dbg usual_new a ->
  (forall k, k < length (sinks (lsys a)) -> In k (map snd (smap (lsys a)))) /\
  (forall t k, inside a t k -> k < length (sinks (lsys a))).
Proof.
  intros H. induction H as [|a m b H (IH1 & IH2) Hs].
  - split; [cbn; intros k Hk; left; lia|]. intros t k [(i & lv & P)|(i & P)]; discriminate.
  - assert (Hi : Inv (lsys a)) by (eapply (reachable_inv ord (rearranges_in _ Hord) dbg usual_new); [intros s c Hc; apply Hc|eapply lreach_sys; eauto]).
    destruct Hs as [c s o E O1 O2 Hok Hfair| |n k F|k|t i lv L P E A|t]; cbn.
    + destruct Hok as (Hu & Hn). split.
      * destruct c; try (match goal with |- context [sinks s] => idtac end;
          match type of E with step _ _ _ _ ?c = _ => destruct (step_kept ord (enough (lsys a)) dbg (lsys a) c) as (K1 & K2 & _); [discriminate|] end;
          rewrite E in K1, K2; cbn [fst] in K1, K2; rewrite K1, K2; exact IH1).
        cbn in E. injection E as <- <-. cbn. cbn in Hn. rewrite assign_new by exact Hn. rewrite app_length. cbn. intros k Hk. apply in_app_iff.
        destruct (Nat.eq_dec k (length (sinks (lsys a)))) as [->|Hne]; [right; left; reflexivity|left; apply IH1; lia].
      * intros t k P. assert (k < length (sinks (lsys a))) by (apply (IH2 t); exact P).
        destruct c; try (match type of E with step _ _ _ _ ?c = _ => destruct (step_kept ord (enough (lsys a)) dbg (lsys a) c) as (K1 & K2 & _); [discriminate|] end;
          rewrite E in K1; cbn [fst] in K1; rewrite K1; assumption).
        cbn in E. injection E as <- <-. cbn. rewrite app_length. lia.
    + split; [exact IH1|exact IH2].
    + split; [exact IH1|exact IH2].
    + split; [exact IH1|exact IH2].
    + split; [exact IH1|]. intros u k Q. apply (IH2 u). destruct (Nat.eq_dec u t) as [->|Hu].
      * destruct Q as [(j & l & Q)|(j & Q)]; [red in Q|]; cbn in Q; rewrite upd_same in Q; discriminate.
      * destruct Q as [(j & l & Q)|(j & Q)]; [left; exists j, l; red; red in Q|right; exists j]; cbn in Q; rewrite upd_other in Q by auto; exact Q.
    + split; [exact IH1|]. intros u k Q. destruct (Nat.eq_dec u t) as [->|Hu].
      * destruct Q as [(j & l & Q)|(j & Q)]; [red in Q|]; cbn in Q; rewrite upd_same in Q;
          (destruct (pc a t) as [|j0 l0|j0 l0|j0 l0 k0|j0|j0|j0 k0|j0] eqn:Ea; cbn [advance] in Q; try discriminate;
           (destruct (nth_error (loggers (lsys a)) j0) as [L|] eqn:EL; [|discriminate]);
           first [destruct (lle _ _); [|discriminate]|idtac];
           first [destruct (_ && _); discriminate|discriminate|idtac]);
          (destruct (l_sink L) as [k1|] eqn:EK; [|discriminate]); first [discriminate|injection Q as <- <- <-|injection Q as <- <-]; exact (V_lsnk _ Hi _ _ _ EL EK).
      * apply (IH2 u). destruct Q as [(j & l & Q)|(j & Q)]; [left; exists j, l; red; red in Q|right; exists j]; cbn in Q; rewrite upd_other in Q by auto; exact Q.
Qed.

Lemma alive_inside a t k : lreach ord dbg usual_new a -> inside a t k -> sink_owned a k.
Proof.
  intros H P. destruct (names_all _ H) as (H1 & H2). destruct (in_snd "" k _ (H1 _ (H2 _ _ P))) as (n & Hn). eapply so_name; eauto.
Qed.

(** The logger of a call is alive; so is the sink it has. *)
Lemma logger_alive (ok : sys -> call -> Prop) a : lreach ord dbg ok a -> forall t i, in_logger (pc a t) = Some i ->
  exists L, nth_error (loggers (lsys a)) i = Some L /\ l_alive L = true.
Proof.
  clear Hord. intros H. induction H as [|a m b H IH Hs]; intros t i Hi; [discriminate|].
  destruct Hs as [c s o E O1 O2 Hok Hfair| |n k F|k|u j lv L P E A|u]; cbn [lsys pc] in *; try (apply (IH t); exact Hi).
  - destruct (IH _ _ Hi) as (L & EL & AL).
    assert (D : (exists j, c = LDrop j) \/ forall j, c <> LDrop j) by (destruct c; eauto; right; discriminate).
    destruct D as [(j & ->)|D].
    + cbn in Hfair. assert (Hj : i <> j) by (intros ->; exact (Hfair _ Hi)).
      pose proof (drop_lasting ord (enough (lsys a)) dbg (lsys a) j i L Hj EL) as K. rewrite E in K. eauto.
    + destruct (step_lasting ord (enough (lsys a)) dbg (lsys a) c D _ _ EL) as (L' & E' & A'). rewrite E in E'. cbn in E'. exists L'. split; congruence.
  - destruct (Nat.eq_dec t u) as [->|Hu]; [|rewrite upd_other in Hi by auto; apply (IH t); exact Hi]. rewrite upd_same in Hi. injection Hi as <-. eauto.
  - destruct (Nat.eq_dec t u) as [->|Hu]; [|rewrite upd_other in Hi by auto; apply (IH t); exact Hi]. rewrite upd_same in Hi. apply (IH u).
    destruct (pc a u) as [|i0 l|i0 l|i0 l k|i0|i0|i0 k|i0] eqn:Ea; cbn [advance in_logger] in *; try exact Hi; try discriminate;
      (destruct (nth_error (loggers (lsys a)) i0) as [L|]; [|exact Hi]); repeat (match goal with Hi : context [match ?x with _ => _ end] |- _ => destruct x end; try discriminate; try exact Hi).
Qed.
Lemma sink_kept_alive (ok : sys -> call -> Prop) a t i k : lreach ord dbg ok a -> in_logger (pc a t) = Some i -> has_sink a i (Some k) -> sink_owned a k.
Proof.
  intros H Hi (L & E & K). destruct (logger_alive ok _ H _ _ Hi) as (L' & E' & A). assert (L' = L) by congruence. subst. eapply so_logger; eauto.
Qed.

(** ** C85 *)
Lemma never_null a : lreach ord dbg usual_sinks a -> forall t,
  (forall i, in_logger (pc a t) = Some i -> i < length (loggers (lsys a))) /\ (forall i, pc a t <> LNull i).
Proof.
  intros H. induction H as [|a m b H IH Hs]; intros t.
  - split; cbn; discriminate.
  - destruct (sinks_inv ord Hord dbg _ (lreach_sys _ _ _ _ H)) as (_ & _ & HS).
    destruct Hs as [c s o E O1 O2 Hok Hfair| |n k F|k|u i lv L P E A|u]; cbn [lsys pc]; try exact (IH t).
    + destruct (IH t) as (I1 & I2). split; [|exact I2]. intros i Hi. specialize (I1 _ Hi).
      pose proof (step_loggers ord (enough (lsys a)) dbg (lsys a) c) as K. rewrite E in K. cbn in K. lia.
    + destruct (Nat.eq_dec t u) as [->|Hu]; [|rewrite upd_other by auto; exact (IH t)]. rewrite upd_same.
      split; [|discriminate]. cbn. intros j [= <-]. eapply nth_some_lt; eauto.
    + destruct (Nat.eq_dec t u) as [->|Hu]; [|rewrite upd_other by auto; exact (IH t)]. rewrite upd_same.
      destruct (IH u) as (I1 & I2). destruct (pc a u) as [|i l|i l|i l k|i|i|i k|i] eqn:Ea; cbn [advance in_logger] in *.
      * split; discriminate.
      * specialize (I1 _ eq_refl). destruct (lt_nth_some _ _ I1) as (L & EL). rewrite EL.
        destruct (lle _ _); [destruct (_ && _)|]; (split; [|discriminate]); cbn; intros j [= <-]; assumption.
      * specialize (I1 _ eq_refl). destruct (lt_nth_some _ _ I1) as (L & EL). rewrite EL.
        specialize (HS _ _ EL). destruct (l_sink L); [|congruence]. (split; [|discriminate]); cbn; intros j [= <-]; assumption.
      * (split; [|discriminate]); cbn; intros j [= <-]; apply I1; reflexivity.
      * specialize (I1 _ eq_refl). destruct (lt_nth_some _ _ I1) as (L & EL). rewrite EL.
        destruct (lle _ _); (split; [|discriminate]); cbn; intros j [= <-]; assumption.
      * specialize (I1 _ eq_refl). destruct (lt_nth_some _ _ I1) as (L & EL). rewrite EL.
        specialize (HS _ _ EL). destruct (l_sink L); [|congruence]. (split; [|discriminate]); cbn; intros j [= <-]; assumption.
      * split; discriminate.
      * destruct (I2 _ eq_refl).
Qed.
End Alive.
