(** Model of libvast/vast/detail/set_operations.hpp over vectors of identifiers. An
    identifier (uuid, 16 bytes compared lexicographically) is the number these bytes
    denote. Iterators and erasing in the middle are replaced by lists. *)
From Coq Require Import List NArith Bool.
Import ListNotations.
Open Scope N_scope.

(** [std::set_intersection] (used at set_operations.hpp:16-21). *)
Fixpoint intersect (xs : list N) {struct xs} : list N -> list N :=
  fix go (ys : list N) :=
    match xs, ys with
    | x :: xs', y :: ys' =>
      if x <? y then intersect xs' ys else if y <? x then go ys' else x :: intersect xs' ys'
    | _, _ => []
    end.
(** [inplace_intersect] (set_operations.hpp:24-39): [kept] is the part of the first
    sequence before the iterator [i], [xs] the part from it on. Skipped elements are
    erased, and at the end all elements from [i] on. *)
Fixpoint intersect_from (kept xs : list N) {struct xs} : list N -> list N :=
  fix go (ys : list N) :=
    match xs, ys with
    | x :: xs', y :: ys' =>
      if x <? y then intersect_from kept xs' ys
      else if y <? x then go ys' else intersect_from (kept ++ [x]) xs' ys'
    | _, _ => kept
    end.
Definition inplace_intersect (xs ys : list N) : list N := intersect_from [] xs ys.
(** [std::set_union] (used at set_operations.hpp:42-48). *)
Fixpoint unify (xs : list N) {struct xs} : list N -> list N :=
  fix go (ys : list N) :=
    match xs, ys with
    | [], _ => ys
    | _, [] => xs
    | x :: xs', y :: ys' =>
      if x <? y then x :: unify xs' ys else if y <? x then y :: go ys' else x :: unify xs' ys'
    end.
(** [std::inplace_merge] of two ranges: stable, the first range first. *)
Fixpoint merge (xs : list N) {struct xs} : list N -> list N :=
  fix go (ys : list N) :=
    match xs, ys with
    | [], _ => ys
    | _, [] => xs
    | x :: xs', y :: ys' => if y <? x then y :: go ys' else x :: merge xs' ys
    end.
(** [std::unique]: drops elements equal to the one kept last. *)
Fixpoint unique_after (x : N) (ys : list N) : list N :=
  match ys with
  | [] => []
  | y :: ys' => if x =? y then unique_after x ys' else y :: unique_after y ys'
  end.
Definition unique (xs : list N) : list N := match xs with [] => [] | x :: xs' => x :: unique_after x xs' end.
(** [inplace_unify] (set_operations.hpp:51-59). *)
Definition inplace_unify (xs ys : list N) : list N := unique (merge xs ys).
