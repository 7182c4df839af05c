(** Model of [data] (libvast/vast/data.hpp, libvast/src/data.cpp), of [data_view]
    (libvast/vast/view.hpp, libvast/src/view.cpp) and of the evaluation of
    relational operators on both.

    A [data_view] refers to the same value as the [data] it was made from, so one
    type stands for both; the comparison functions differ and are modelled
    separately. Null container handles (view.hpp:186-190 without a pointer), which
    [make_data_view] never creates, are left out. The ordering of [caf::variant]
    compares the position of the alternative first and then the values. *)
From Coq Require Import List ZArith NArith Bool.
From Verif Require Import OperatorModel OrderModel AddressModel.
Import ListNotations.
Open Scope N_scope.

(** [data::types] (data.hpp:92-109). Strings and patterns are byte sequences, a
    real is an IEEE bit pattern, durations and times count nanoseconds. Maps and
    records are insertion-ordered vectors of pairs (aliases.hpp:26-29). *)
Inductive data :=
| DNone
| DBool (b : bool)
| DInt (z : Z)
| DCount (n : N)
| DReal (p : N)
| DDuration (z : Z)
| DTime (z : Z)
| DString (s : list N)
| DPattern (s : list N)
| DAddress (a : address)
| DSubnet (s : subnet)
| DEnum (n : N)
| DList (xs : list data)
| DMap (xs : list (data * data))
| DRecord (xs : list (list N * data)).

(** [variant::index] for the alternatives of data.hpp:92-109. *)
Definition d_index (x : data) : N :=
  match x with
  | DNone => 0 | DBool _ => 1 | DInt _ => 2 | DCount _ => 3 | DReal _ => 4 | DDuration _ => 5
  | DTime _ => 6 | DString _ => 7 | DPattern _ => 8 | DAddress _ => 9 | DSubnet _ => 10
  | DEnum _ => 11 | DList _ => 12 | DMap _ => 13 | DRecord _ => 14
  end.

(** Comparison of two values in both directions: [(x < y, y < x)]. Computing both
    at once keeps the recursion on the first value. *)
Notation both := (bool * bool)%type.

(** [<] of [std::pair] and of [std::tie]: by the first components, then the second. *)
Definition then_by (a b : both) : both :=
  (fst a || (negb (snd a) && fst b), snd a || (negb (fst a) && snd b)).

(** [std::lexicographical_compare], which is [<] of [std::vector] and [std::string]. *)
Section Lex.
  Context {A : Type} (f : A -> A -> both).
  Fixpoint lex (xs ys : list A) {struct xs} : both :=
    match xs, ys with
    | [], [] => (false, false)
    | [], _ :: _ => (true, false)
    | _ :: _, [] => (false, true)
    | x :: xs', y :: ys' => then_by (f x y) (lex xs' ys')
    end.
End Lex.

Definition lt_N (x y : N) : both := (x <? y, y <? x).
Definition lt_Z (x y : Z) : both := ((x <? y)%Z, (y <? x)%Z).
Definition lt_bool (x y : bool) : both := (negb x && y, x && negb y).
(** [<] and [==] of [double]: false if one side is NaN. *)
Definition lt_real (p q : N) : both :=
  let ok := negb (d_nan p) && negb (d_nan q) in
  (ok && (d_value p <? d_value q)%Z, ok && (d_value q <? d_value p)%Z).
Definition real_eqb (p q : N) : bool := negb (d_nan p) && negb (d_nan q) && (d_value p =? d_value q)%Z.
(** [operator<] of subnets (subnet.cpp:62-64). *)
Definition lt_subnet (s t : subnet) : both := then_by (lex lt_N (sn_net s) (sn_net t)) (lt_N (sn_bits s) (sn_bits t)).

(** [operator<] of [data] (data.cpp:41-43), in both directions. *)
Fixpoint data_cmp (x y : data) {struct x} : both :=
  match x, y with
  | DBool a, DBool b => lt_bool a b
  | DInt a, DInt b => lt_Z a b
  | DCount a, DCount b => lt_N a b
  | DReal a, DReal b => lt_real a b
  | DDuration a, DDuration b => lt_Z a b
  | DTime a, DTime b => lt_Z a b
  | DString a, DString b => lex lt_N a b
  | DPattern a, DPattern b => lex lt_N a b
  | DAddress a, DAddress b => lex lt_N a b
  | DSubnet a, DSubnet b => lt_subnet a b
  | DEnum a, DEnum b => lt_N a b
  | DList a, DList b => lex data_cmp a b
  | DMap a, DMap b => lex (fun p q => then_by (data_cmp (fst p) (fst q)) (data_cmp (snd p) (snd q))) a b
  | DRecord a, DRecord b => lex (fun p q => then_by (lex lt_N (fst p) (fst q)) (data_cmp (snd p) (snd q))) a b
  | _, _ => lt_N (d_index x) (d_index y)
  end.
Definition data_lt (x y : data) : bool := fst (data_cmp x y).

(** [==] of [std::vector]. *)
Section Eqs.
  Context {A : Type} (f : A -> A -> bool).
  Fixpoint eqs (xs ys : list A) {struct xs} : bool :=
    match xs, ys with
    | [], [] => true
    | x :: xs', y :: ys' => f x y && eqs xs' ys'
    | _, _ => false
    end.
End Eqs.

(** [operator==] of [data] (data.cpp:37-39). *)
Fixpoint data_eqb (x y : data) {struct x} : bool :=
  match x, y with
  | DNone, DNone => true
  | DBool a, DBool b => Bool.eqb a b
  | DInt a, DInt b => (a =? b)%Z
  | DCount a, DCount b => a =? b
  | DReal a, DReal b => real_eqb a b
  | DDuration a, DDuration b => (a =? b)%Z
  | DTime a, DTime b => (a =? b)%Z
  | DString a, DString b => bytes_eqb a b
  | DPattern a, DPattern b => bytes_eqb a b
  | DAddress a, DAddress b => bytes_eqb a b
  | DSubnet a, DSubnet b => sn_eqb a b
  | DEnum a, DEnum b => a =? b
  | DList a, DList b => eqs data_eqb a b
  | DMap a, DMap b => eqs (fun p q => data_eqb (fst p) (fst q) && data_eqb (snd p) (snd q)) a b
  | DRecord a, DRecord b => eqs (fun p q => bytes_eqb (fst p) (fst q) && data_eqb (snd p) (snd q)) a b
  | _, _ => false
  end.

(** [operator==] of container views (view.hpp:329-337): equal sizes and no position
    with different elements. *)
Section ViewEqs.
  Context {A : Type} (f : A -> A -> bool).
  Fixpoint no_difference (xs ys : list A) {struct xs} : bool :=
    match xs, ys with
    | x :: xs', y :: ys' => f x y && no_difference xs' ys'
    | _, _ => true
    end.
  Definition view_eqs (xs ys : list A) : bool := Nat.eqb (length xs) (length ys) && no_difference xs ys.
End ViewEqs.

(** [operator<] of container views (view.hpp:339-347): by size, and for equal sizes
    whether some position is smaller. *)
Section ViewLex.
  Context {A : Type} (f : A -> A -> both).
  Fixpoint some_smaller (xs ys : list A) {struct xs} : both :=
    match xs, ys with
    | x :: xs', y :: ys' => (fst (f x y) || fst (some_smaller xs' ys'), snd (f x y) || snd (some_smaller xs' ys'))
    | _, _ => (false, false)
    end.
  Definition view_lex (xs ys : list A) : both :=
    if Nat.eqb (length xs) (length ys) then some_smaller xs ys
    else (Nat.ltb (length xs) (length ys), Nat.ltb (length ys) (length xs)).
End ViewLex.

(** [operator==] of [data_view], a [caf::variant] (view.hpp:145-161). *)
Fixpoint view_eqb (x y : data) {struct x} : bool :=
  match x, y with
  | DNone, DNone => true
  | DBool a, DBool b => Bool.eqb a b
  | DInt a, DInt b => (a =? b)%Z
  | DCount a, DCount b => a =? b
  | DReal a, DReal b => real_eqb a b
  | DDuration a, DDuration b => (a =? b)%Z
  | DTime a, DTime b => (a =? b)%Z
  | DString a, DString b => bytes_eqb a b
  | DPattern a, DPattern b => bytes_eqb a b
  | DAddress a, DAddress b => bytes_eqb a b
  | DSubnet a, DSubnet b => sn_eqb a b
  | DEnum a, DEnum b => a =? b
  | DList a, DList b => view_eqs view_eqb a b
  | DMap a, DMap b => view_eqs (fun p q => view_eqb (fst p) (fst q) && view_eqb (snd p) (snd q)) a b
  | DRecord a, DRecord b => view_eqs (fun p q => bytes_eqb (fst p) (fst q) && view_eqb (snd p) (snd q)) a b
  | _, _ => false
  end.

(** [operator<] of [data_view], in both directions. *)
Fixpoint view_cmp (x y : data) {struct x} : both :=
  match x, y with
  | DBool a, DBool b => lt_bool a b
  | DInt a, DInt b => lt_Z a b
  | DCount a, DCount b => lt_N a b
  | DReal a, DReal b => lt_real a b
  | DDuration a, DDuration b => lt_Z a b
  | DTime a, DTime b => lt_Z a b
  | DString a, DString b => lex lt_N a b
  | DPattern a, DPattern b => lex lt_N a b
  | DAddress a, DAddress b => lex lt_N a b
  | DSubnet a, DSubnet b => lt_subnet a b
  | DEnum a, DEnum b => lt_N a b
  | DList a, DList b => view_lex view_cmp a b
  | DMap a, DMap b => view_lex (fun p q => then_by (view_cmp (fst p) (fst q)) (view_cmp (snd p) (snd q))) a b
  | DRecord a, DRecord b => view_lex (fun p q => then_by (lex lt_N (fst p) (fst q)) (view_cmp (snd p) (snd q))) a b
  | _, _ => lt_N (d_index x) (d_index y)
  end.
Definition view_lt (x y : data) : bool := fst (view_cmp x y).

(** [std::string::find(needle) != npos]. *)
Fixpoint starts_with (xs w : list N) : bool :=
  match xs, w with
  | [], _ => true
  | x :: xs', y :: w' => (x =? y) && starts_with xs' w'
  | _, [] => false
  end.
Fixpoint finds (xs w : list N) : bool :=
  starts_with xs w || match w with [] => false | _ :: w' => finds xs w' end.

(** The regular expression engine of the C++ standard library: whether a pattern
    matches, or is found in, a string. *)
Record regex := { re_match : list N -> list N -> bool; re_search : list N -> list N -> bool }.

Section Evaluate.
  Variable re : regex.

  (** [eval_match] (data.cpp:58-66). *)
  Definition eval_match (x y : data) : bool :=
    match x, y with
    | DString s, DPattern p => re_match re p s
    | _, _ => false
    end.
  (** [eval_in] (data.cpp:67-84). [None] is the failed assertion of
      [address::compare] (see [sn_contains]). *)
  Definition eval_in (x y : data) : option bool :=
    match x, y with
    | _, DList ys => Some (existsb (fun e => data_eqb e x) ys)
    | DString s, DString t => Some (finds s t)
    | DString s, DPattern p => Some (re_search re p s)
    | DAddress a, DSubnet s => sn_contains s a
    | DSubnet a, DSubnet s => sn_includes s a
    | _, _ => Some false
    end.
  (** [eval_string_and_pattern] (data.cpp:46-57). *)
  Definition eval_string_and_pattern (x y : data) : option bool :=
    match x, y with
    | DString s, DPattern p => Some (re_match re p s)
    | DPattern p, DString s => Some (re_match re p s)
    | _, _ => None
    end.

  (** [evaluate] (data.cpp:45-118); [!=], [>], [<=], [>=] of [data] come from
      [totally_ordered] (operators.hpp:14-34). *)
  Definition evaluate (x : data) (op : relop) (y : data) : option bool :=
    match op with
    | op_match => Some (eval_match x y)
    | op_not_match => Some (negb (eval_match x y))
    | op_in => eval_in x y
    | op_not_in => option_map negb (eval_in x y)
    | op_ni => eval_in y x
    | op_not_ni => option_map negb (eval_in y x)
    | op_eq => Some (match eval_string_and_pattern x y with Some b => b | None => data_eqb x y end)
    | op_ne => Some (match eval_string_and_pattern x y with Some b => negb b | None => negb (data_eqb x y) end)
    | op_lt => Some (data_lt x y)
    | op_le => Some (negb (data_lt y x))
    | op_gt => Some (data_lt y x)
    | op_ge => Some (negb (data_lt x y))
    end.

  (** [contains_predicate] (view.cpp:242-280): list elements are compared by [==] of
      the alternative if it is the same one. *)
  Definition view_in (x y : data) : option bool :=
    match x, y with
    | _, DList ys => Some (existsb (fun e => (d_index e =? d_index x) && view_eqb x e) ys)
    | DString s, DString t => Some (finds s t)
    | DString s, DPattern p => Some (re_search re p s)
    | DAddress a, DSubnet s => sn_contains s a
    | DSubnet a, DSubnet s => sn_includes s a
    | _, _ => Some false
    end.
  (** [check_match] (view.cpp:286-294): the views are passed as constants, which a
      parameter [view<std::string>&] does not accept, so the first lambda, which
      returns [false], is chosen for every pair of alternatives. *)
  Definition view_match (x y : data) : bool := false.

  (** [evaluate_view] (view.cpp:284-327); the comparisons of [caf::variant] are
      derived from [==] and [<] as in [totally_ordered]. *)
  Definition evaluate_view (x : data) (op : relop) (y : data) : option bool :=
    match op with
    | op_match => Some (view_match x y)
    | op_not_match => Some (negb (view_match x y))
    | op_in => view_in x y
    | op_not_in => option_map negb (view_in x y)
    | op_ni => view_in y x
    | op_not_ni => option_map negb (view_in y x)
    | op_eq => Some (view_eqb x y)
    | op_ne => Some (negb (view_eqb x y))
    | op_lt => Some (view_lt x y)
    | op_le => Some (negb (view_lt y x))
    | op_gt => Some (view_lt y x)
    | op_ge => Some (negb (view_lt x y))
    end.
End Evaluate.
