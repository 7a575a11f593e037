(** * Property C66: level names and order (finite, proved for every level).
    [documented_order] is the list OFF, CRITICAL, ..., IGNORE (LevelProofs.v). *)
From Coq Require Import Ascii String NArith Arith List Lia.
From Verif Require Import Base LevelModel LevelProofs.
Import ListNotations.


(** [a <= b] exactly if [a] does not come after [b] in the list; [<] is strict. *)
Theorem C66_order :
  forall i j a b, nth_error documented_order i = Some a -> nth_error documented_order j = Some b ->
    (lle a b = true <-> i <= j) /\ (llt a b = true <-> i < j) /\ (leqb a b = true <-> a = b) /\
    (a = b <-> i = j).
Proof. exact level_order. Qed.
Print Assumptions C66_order.

Theorem C66_complete : forall l, In l documented_order.
Proof. exact level_complete. Qed.
Print Assumptions C66_complete.

Theorem C66_names :
  forall a b,
    (levelToStr a = levelToStr b -> a = b) /\
    1 <= length (levelToStr a) <= 8 /\ ~ In nul (levelToStr a) /\
    hd_error (levelToStr a) = Some (levelToChar a).
Proof. exact level_names. Qed.
Print Assumptions C66_names.

Theorem C66_letters :
  forall a b, In a [CRITICAL; ERROR; WARN; INFO; VERBOSE; DEBUG; TRACE] ->
    In b [CRITICAL; ERROR; WARN; INFO; VERBOSE; DEBUG; TRACE] ->
    levelToChar a = levelToChar b -> a = b.
Proof. exact level_letters. Qed.
Print Assumptions C66_letters.

Example C66_nonvacuous :
  lle ERROR DEBUG = true /\ levelToStr CRITICAL = bs "Critical" /\ levelToChar VERBOSE = "V"%char.
Proof. vm_compute. auto. Qed.
