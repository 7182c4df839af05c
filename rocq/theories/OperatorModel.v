(** Model of relational operators: libvast/vast/operator.hpp and libvast/src/operator.cpp. *)
From Coq Require Import NArith Bool.

(** [relational_operator] (operator.hpp:37-50). *)
Inductive relop :=
| op_match | op_not_match | op_in | op_not_in | op_ni | op_not_ni
| op_eq | op_ne | op_lt | op_le | op_gt | op_ge.

(** Equality of enumerators (built into C++). *)
Definition relop_eqb (a b : relop) : bool :=
  match a, b with
  | op_match, op_match | op_not_match, op_not_match | op_in, op_in | op_not_in, op_not_in
  | op_ni, op_ni | op_not_ni, op_not_ni | op_eq, op_eq | op_ne, op_ne | op_lt, op_lt
  | op_le, op_le | op_gt, op_gt | op_ge, op_ge => true
  | _, _ => false
  end.

(** [is_negated] (operator.cpp:35-53). *)
Definition is_negated (op : relop) : bool :=
  match op with
  | op_eq | op_match | op_lt | op_le | op_gt | op_ge | op_in | op_ni => false
  | op_not_ni | op_not_in | op_ne | op_not_match => true
  end.

(** [negate] (operator.cpp:55-83). *)
Definition negate_op (op : relop) : relop :=
  match op with
  | op_match => op_not_match
  | op_not_match => op_match
  | op_eq => op_ne
  | op_ne => op_eq
  | op_lt => op_ge
  | op_le => op_gt
  | op_gt => op_le
  | op_ge => op_lt
  | op_in => op_not_in
  | op_not_in => op_in
  | op_ni => op_not_ni
  | op_not_ni => op_ni
  end.

(** [flip] (operator.cpp:85-110). *)
Definition flip_op (op : relop) : relop :=
  match op with
  | op_match | op_not_match | op_eq | op_ne => op
  | op_lt => op_gt
  | op_le => op_ge
  | op_gt => op_lt
  | op_ge => op_le
  | op_in => op_ni
  | op_not_in => op_not_ni
  | op_ni => op_in
  | op_not_ni => op_not_in
  end.

Lemma relop_eqb_spec : forall a b, reflect (a = b) (relop_eqb a b).
Proof. destruct a, b; constructor; congruence. Qed.
