(** C39: sorted-set operations compute set union and intersection. *)
From Coq Require Import List NArith Lia Bool Sorted.
From Verif Require Import SetOpsModel SetOpsProofs.
Import ListNotations.
Open Scope N_scope.

(** The intersection of two sorted duplicate-free sequences, in place or not, is sorted
    and duplicate-free and has exactly the common elements. *)
Theorem C39_intersect : forall xs ys, ascending xs -> ascending ys ->
  inplace_intersect xs ys = intersect xs ys /\ ascending (intersect xs ys) /\
  forall z, In z (intersect xs ys) <-> In z xs /\ In z ys.
Proof.
  intros xs ys Hx Hy. split; [apply inplace_intersect_eq|]. split; [now apply intersect_ascending|]. intros z. now apply intersect_in.
Qed.
(** The same for the union. *)
Theorem C39_unify : forall xs ys, ascending xs -> ascending ys ->
  inplace_unify xs ys = unify xs ys /\ ascending (unify xs ys) /\
  forall z, In z (unify xs ys) <-> In z xs \/ In z ys.
Proof.
  intros xs ys Hx Hy. split; [|split; [now apply unify_ascending|intros z; apply unify_in]].
  apply ascending_ext; [now apply inplace_unify_ascending|now apply unify_ascending|].
  intros z. rewrite inplace_unify_in, unify_in. reflexivity.
Qed.
(** A sorted duplicate-free sequence is determined by its elements, so both are the only
    possible answers. *)
Theorem C39_unique_answer : forall xs ys, ascending xs -> ascending ys -> (forall z, In z xs <-> In z ys) -> xs = ys.
Proof. exact ascending_ext. Qed.
(** The in-place union of sequences with duplicates is still duplicate-free. *)
Theorem C39_unify_sorted : forall xs ys, sorted xs -> sorted ys ->
  ascending (inplace_unify xs ys) /\ forall z, In z (inplace_unify xs ys) <-> In z xs \/ In z ys.
Proof. intros xs ys Hx Hy. split; [apply unique_ascending; now apply merge_sorted|]. intros z. apply inplace_unify_in. Qed.

Example C39_example : ascending [1; 4; 9] /\ ascending [2; 4; 10] /\
  inplace_intersect [1; 4; 9] [2; 4; 10] = [4] /\ inplace_unify [1; 4; 9] [2; 4; 10] = [1; 2; 4; 9; 10] /\
  sorted [1; 1; 4] /\ inplace_unify [1; 1; 4] [4; 4] = [1; 4].
Proof. repeat split; try reflexivity; repeat constructor; discriminate. Qed.

(** Without sortedness elements are lost. *)
Theorem C39_unsorted_refuted : exists xs ys z, In z xs /\ In z ys /\ ~ In z (inplace_intersect xs ys).
Proof. exists [2; 1], [1; 2], 1. cbn. repeat split; auto. intros [H|[]]. discriminate. Qed.

Definition assumptions_set_ops := (C39_intersect, C39_unify, C39_unique_answer, C39_unify_sorted, C39_unsorted_refuted).
Print Assumptions assumptions_set_ops.
