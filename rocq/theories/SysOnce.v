(** * C51 over histories *)
From Coq Require Import String List Arith Bool Lia Permutation.
From Verif Require Import Base LevelModel SysModel SysSpec SysBase SysSpread SysInv SysOps SysSteps SysProps SysMore SysFuel.
Import ListNotations.

Section Once.
Variable ord : list nat -> list nat.
Variable dbg : bool.
Variable fuel : nat.

Lemma perform_configured s a : configured (perform ord dbg fuel s a) = configured s || configures a.
Proof.
  destruct a as [c|sc]; cbn [perform configures].
  - rewrite step_configured, orb_false_r. reflexivity.
  - rewrite orb_true_r. destruct (configured s) eqn:Hc.
    + unfold configure. rewrite Hc. exact Hc.
    + exact (proj1 (configure_twice ord dbg fuel fuel s sc sc Hc)).
Qed.

Lemma after_configured h : configured (after ord dbg fuel h) = existsb configures h.
Proof.
  unfold after. induction h as [|a h IH] using rev_ind; [reflexivity|].
  rewrite fold_left_app. cbn [fold_left]. rewrite perform_configured, IH, existsb_app. cbn [existsb]. rewrite orb_false_r. reflexivity.
Qed.

Theorem once_history h :
  let s := after ord dbg fuel h in
  (Forall (fun a => configures a = false) h ->
     (forall x g k lv, step ord fuel dbg s (GetLogger x g k lv) = (s, RThrow)) /\
     (forall sc, snd (snd (configure ord fuel dbg s sc)) <> RThrow)) /\
  (Exists (fun a => configures a = true) h ->
     (forall x g k lv, g <> "*"%string -> snd (step ord fuel dbg s (GetLogger x g k lv)) <> RThrow) /\
     (forall sc, configure ord fuel dbg s sc = (s, (None, RThrow)))).
Proof.
  intros s. split; intros H.
  - assert (C : configured s = false).
    { unfold s. rewrite after_configured. clear s. induction H as [|a h Ha Hh IH]; [reflexivity|]. cbn [existsb]. rewrite Ha. exact IH. }
    split; [intros; apply get_unconfigured; exact C|intros; apply no_throw; exact C].
  - assert (C : configured s = true).
    { unfold s. rewrite after_configured. apply existsb_exists. apply Exists_exists. exact H. }
    split.
    + intros x g k lv Hg. cbn [step]. unfold get_logger. rewrite C. cbn [negb].
      destruct (live s x); [discriminate|]. apply String.eqb_neq in Hg. rewrite Hg.
      destruct (find (gmap s) g); [|destruct (find (gmap s) "*"); [|discriminate]];
        destruct (nth_error (groups s) _); try discriminate; cbn [andb]; try discriminate.
      destruct (negb (can_warn g0)); discriminate.
    + intros sc. unfold configure. rewrite C. reflexivity.
Qed.
End Once.
