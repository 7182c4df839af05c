(** Model of query expressions: libvast/vast/expression.hpp, libvast/src/expression.cpp,
    libvast/vast/expression_visitors.hpp and libvast/src/expression_visitors.cpp. *)
From Coq Require Import List ZArith NArith Bool Arith.
From Verif Require Import OperatorModel AddressModel DataModel TypeModel.
Import ListNotations.
Open Scope nat_scope.

(** [meta_extractor::kind] (expression.hpp:36). *)
Inductive meta_kind := MType | MField.

(** [predicate::operand] (expression.hpp:120-121). *)
Inductive operand :=
| OMeta (k : meta_kind)
| OField (name : list N)
| OType (t : ty)
| OData (t : ty) (o : list nat)
| OVal (d : data).

(** [predicate] (expression.hpp:117-130). *)
Record predicate := { p_lhs : operand; p_op : relop; p_rhs : operand }.

(** [expression::types] (expression.hpp:230-236). A [conjunction] and a [disjunction]
    are vectors of expressions. *)
Inductive expr :=
| ENone
| EAnd (es : list expr)
| EOr (es : list expr)
| ENot (e : expr)
| EPred (p : predicate).

(** Equality (expression.cpp:22-28, 36-38, 49-51, 63-65, 78-80, 145-147, 165-167). *)
Definition meta_kind_eqb (a b : meta_kind) : bool :=
  match a, b with MType, MType | MField, MField => true | _, _ => false end.
Definition operand_eqb (x y : operand) : bool :=
  match x, y with
  | OMeta a, OMeta b => meta_kind_eqb a b
  | OField a, OField b => bytes_eqb a b
  | OType a, OType b => ty_eqb a b
  | OData a o, OData b q => ty_eqb a b && eqs Nat.eqb o q
  | OVal a, OVal b => data_eqb a b
  | _, _ => false
  end.
Definition pred_eqb (p q : predicate) : bool :=
  operand_eqb (p_lhs p) (p_lhs q) && relop_eqb (p_op p) (p_op q) && operand_eqb (p_rhs p) (p_rhs q).
Fixpoint expr_eqb (x y : expr) {struct x} : bool :=
  match x, y with
  | ENone, ENone => true
  | EAnd a, EAnd b => eqs expr_eqb a b
  | EOr a, EOr b => eqs expr_eqb a b
  | ENot a, ENot b => expr_eqb a b
  | EPred p, EPred q => pred_eqb p q
  | _, _ => false
  end.

(** * Normalisation *)

(** [hoisted.size() == 1 ? hoisted[0] : hoisted]. *)
Definition single (con : list expr -> expr) (es : list expr) : expr :=
  match es with [e] => e | _ => con es end.

(** [hoister] (expression_visitors.cpp:79-114): the elements of a child of the same
    kind are visited and put in its place; the result is not looked at again. *)
Fixpoint hoist (e : expr) : expr :=
  match e with
  | EAnd es => single EAnd (flat_map (fun x => match x with EAnd ys => map hoist ys | _ => [hoist x] end) es)
  | EOr es => single EOr (flat_map (fun x => match x with EOr ys => map hoist ys | _ => [hoist x] end) es)
  | ENot x => ENot (hoist x)
  | _ => e
  end.

(** [aligner] on predicates (expression_visitors.cpp:138-145). *)
Definition is_extractor (o : operand) : bool := match o with OVal _ => false | _ => true end.
Definition align_pred (p : predicate) : predicate :=
  if is_extractor (p_lhs p) || negb (is_extractor (p_rhs p)) then p
  else {| p_lhs := p_rhs p; p_op := flip_op (p_op p); p_rhs := p_lhs p |}.
(** [aligner] (expression_visitors.cpp:116-145). *)
Fixpoint align (e : expr) : expr :=
  match e with
  | EAnd es => EAnd (map align es)
  | EOr es => EOr (map align es)
  | ENot x => ENot (align x)
  | EPred p => EPred (align_pred p)
  | ENone => ENone
  end.

(** A predicate with another operator. *)
Definition with_op (p : predicate) (op : relop) : predicate := {| p_lhs := p_lhs p; p_op := op; p_rhs := p_rhs p |}.
(** [denegator] (expression_visitors.cpp:147-182). *)
Fixpoint denegate (neg : bool) (e : expr) : expr :=
  match e with
  | ENone => ENone
  | EAnd es => (if neg then EOr else EAnd) (map (denegate neg) es)
  | EOr es => (if neg then EAnd else EOr) (map (denegate neg) es)
  | ENot (ENot x) => denegate neg x
  | ENot x => denegate (negb neg) x
  | EPred p => EPred (with_op p (if neg then negate_op (p_op p) else p_op p))
  end.

(** The loop of [deduplicator] (expression_visitors.cpp:188-206). *)
Definition push_new (acc : list expr) (e : expr) : list expr :=
  if existsb (fun x => expr_eqb x e) acc then acc else acc ++ [e].
(** [deduplicator] (expression_visitors.cpp:184-214): negations are dropped. *)
Fixpoint dedup (e : expr) : expr :=
  match e with
  | EAnd es => EAnd (fold_left push_new (map dedup es) [])
  | EOr es => EOr (fold_left push_new (map dedup es) [])
  | ENot x => dedup x
  | _ => e
  end.

(** [normalize] (expression.cpp:183-190). *)
Definition normalize (e : expr) : expr := hoist (dedup (denegate false (align (hoist e)))).

(** [meta_pruner] (expression_visitors.cpp:34-77). *)
Definition is_meta (o : operand) : bool := match o with OMeta _ => true | _ => false end.
Definition is_none (e : expr) : bool := match e with ENone => true | _ => false end.
Definition prune_list (con : list expr -> expr) (es : list expr) : expr :=
  match filter (fun e => negb (is_none e)) es with
  | [] => ENone
  | [e] => e
  | es' => con es'
  end.
Fixpoint prune_meta (e : expr) : expr :=
  match e with
  | ENone => ENone
  | EAnd es => prune_list EAnd (map prune_meta es)
  | EOr es => prune_list EOr (map prune_meta es)
  | ENot x => match prune_meta x with ENone => ENone | y => ENot y end
  | EPred p => if is_meta (p_lhs p) || is_meta (p_rhs p) then ENone else e
  end.

(** * Validation *)

(** [validator] on a predicate (expression_visitors.cpp:279-338). [regex_ok] tells
    whether [std::regex] accepts a pattern. *)
Definition validate_pred (regex_ok : list N -> bool) (p : predicate) : bool :=
  match p_rhs p with OVal (DPattern s) => regex_ok s | _ => true end &&
  match p_lhs p, p_rhs p with
  | OMeta _, OVal (DString _) | OMeta _, OVal (DPattern _) => true
  | OType (TNull as t), OVal d | OType (TNone _ as t), OVal d => true
  | OType t, OVal d => compatible t (p_op p) d
  | OField _, OVal _ => true
  | _, _ => false
  end.
(** [validator] (expression_visitors.cpp:257-277). *)
Fixpoint validate (regex_ok : list N -> bool) (e : expr) : bool :=
  match e with
  | ENone => false
  | EAnd es | EOr es => forallb (validate regex_ok) es
  | ENot x => validate regex_ok x
  | EPred p => validate_pred regex_ok p
  end.
(** [normalize_and_validate] (expression.cpp:192-197). *)
Definition normalize_and_validate (regex_ok : list N -> bool) (e : expr) : option expr :=
  if validate regex_ok (normalize e) then Some (normalize e) else None.

(** * Resolving extractors against a type *)

(** A result, an error, or undefined behaviour. *)
Inductive res (A : Type) := ok (a : A) | fail | ub.
Arguments ok {A}. Arguments fail {A}. Arguments ub {A}.
Definition res_bind {A B} (r : res A) (f : A -> res B) : res B :=
  match r with ok a => f a | fail => fail | ub => ub end.

(** All leaves of a record as [record_type::each] yields them, [None] if the
    iteration runs out of bounds. *)
Definition each_list (fs : list field) : option (list leaf) :=
  match each_begin fs with None => None | Some st => each_run (flat_size (TRecord no_meta fs)) st end.

(** The four operators that turn several resolved predicates into a conjunction. *)
Definition conjoined (op : relop) : bool :=
  match op with op_ne | op_not_match | op_not_in | op_not_ni => true | _ => false end.
(** The end of [resolve_extractor] and of [type_resolver] on fields
    (expression_visitors.hpp:132-145, expression_visitors.cpp:480-490). *)
Definition connect (op : relop) (ps : list predicate) : expr :=
  match map EPred ps with
  | [] => ENone
  | [e] => e
  | es => if conjoined op then EAnd es else EOr es
  end.
(** [resolve_extractor] (expression_visitors.hpp:114-146). *)
Definition resolve_extractor (t : ty) (op : relop) (f : ty -> bool) (d : data) : res expr :=
  let mk l o := {| p_lhs := OData l o; p_op := op; p_rhs := OVal d |} in
  match t with
  | TRecord _ fs =>
      match each_list fs with
      | None => ub
      | Some ls => ok (connect op (map (fun l => mk (l_type l) (l_offset l)) (filter (fun l => f (l_type l)) ls)))
      end
  | _ => ok (connect op (if f t then [mk t []] else []))
  end.

(** [matches] for named types (expression_visitors.cpp:423-434): the first alias of
    that name, or the type behind all aliases. *)
Fixpoint named (name : list N) (op : relop) (d : data) (t : ty) : bool :=
  match t with
  | TAlias m v => if bytes_eqb (m_name m) name then compatible t op d else named name op d v
  | _ => if bytes_eqb (ty_name t) name then compatible t op d else false
  end.
(** "timestamp". *)
Definition timestamp_name : list N := [116; 105; 109; 101; 115; 116; 97; 109; 112]%N.
(** [has_attribute(t, "timestamp")]. *)
Definition has_timestamp (t : ty) : bool := existsb (fun a => bytes_eqb (fst a) timestamp_name) (m_attrs (ty_meta t)).

(** [type_resolver] on (type extractor, data) (expression_visitors.cpp:419-452). *)
Definition resolve_type (t : ty) (op : relop) (x : ty) (d : data) : res expr :=
  match x with
  | TNull | TNone _ =>
      let name := ty_name x in
      if bytes_eqb name timestamp_name
      then match d with
           | DTime _ => res_bind (resolve_extractor t op (named name op d) d) (fun a =>
                        res_bind (resolve_extractor t op has_timestamp d) (fun b => ok (EOr [a; b])))
           | _ => fail
           end
      else resolve_extractor t op (named name op d) d
  | _ => resolve_extractor t op (fun u => congruent u x) d
  end.
(** [type_resolver] on (field extractor, data) (expression_visitors.cpp:459-491). *)
Definition resolve_field (glob : list N -> list N -> bool) (t : ty) (op : relop) (name : list N) (d : data) : res expr :=
  match t with
  | TRecord _ fs =>
      ok (connect op (flat_map (fun o => match at_offset fs o with
                                         | Some (_, u) => if compatible u op d then [{| p_lhs := OData u o; p_op := op; p_rhs := OVal d |}] else []
                                         | None => []
                                         end) (find_suffix glob t name)))
  | _ => if bytes_eqb name (ty_name t)
         then if compatible t op d then ok (connect op [{| p_lhs := OData t []; p_op := op; p_rhs := OVal d |}]) else fail
         else ok ENone
  end.
(** [type_resolver] on predicates (expression_visitors.cpp:406-417, 454-457, 493-496):
    with the data on the left the operands are swapped and the operator is kept. *)
Definition resolve_pred (glob : list N -> list N -> bool) (t : ty) (p : predicate) : res expr :=
  match p_lhs p, p_rhs p with
  | OType x, OVal d | OVal d, OType x => resolve_type t (p_op p) x d
  | OField x, OVal d | OVal d, OField x => resolve_field glob t (p_op p) x d
  | _, _ => ok (EPred p)
  end.

(** The loops of [type_resolver] on conjunctions and disjunctions
    (expression_visitors.cpp:357-394). *)
Definition connect_exprs (con : list expr -> expr) (es : list expr) : expr :=
  match es with [] => ENone | [e] => e | _ => con es end.
Section ResolveLoops.
  Variable rec : expr -> res expr.
  Fixpoint resolve_and (es : list expr) (acc : list expr) : res expr :=
    match es with
    | [] => ok (connect_exprs EAnd acc)
    | e :: es' => match rec e with
                  | ok ENone => ok ENone
                  | ok r => resolve_and es' (acc ++ [r])
                  | other => other
                  end
    end.
  Fixpoint resolve_or (es : list expr) (acc : list expr) : res expr :=
    match es with
    | [] => ok (connect_exprs EOr acc)
    | e :: es' => match rec e with
                  | ok ENone => resolve_or es' acc
                  | ok r => resolve_or es' (acc ++ [r])
                  | other => other
                  end
    end.
End ResolveLoops.
(** [type_resolver] (expression_visitors.cpp:350-417). *)
Fixpoint resolve_types (glob : list N -> list N -> bool) (t : ty) (e : expr) {struct e} : res expr :=
  match e with
  | ENone => ok ENone
  | EAnd es => resolve_and (resolve_types glob t) es []
  | EOr es => resolve_or (resolve_types glob t) es []
  | ENot x => match resolve_types glob t x with ok ENone => ok ENone | ok r => ok (ENot r) | other => other end
  | EPred p => resolve_pred glob t p
  end.
(** [tailor] (expression.cpp:199-205). *)
Definition tailor (glob : list N -> list N -> bool) (e : expr) (t : ty) : res expr :=
  match e with ENone => fail | _ => resolve_types glob t e end.

(** * Positions of predicates *)

(** [at] (expression.cpp:211-241): the root has the offset [[0]]. *)
Definition child (e : expr) (i : nat) : option expr :=
  match e with
  | EAnd es | EOr es => nth_error es i
  | ENot x => match i with O => Some x | _ => None end
  | _ => None
  end.
Fixpoint descend_expr (e : expr) (o : list nat) : option expr :=
  match o with
  | [] => Some e
  | i :: o' => match child e i with None => None | Some x => descend_expr x o' end
  end.
Definition expr_at (e : expr) (o : list nat) : option expr :=
  match o with
  | [] => None
  | [O] => Some e
  | [_] => None
  | _ :: o' => descend_expr e o'
  end.

(** [predicatizer] (expression_visitors.cpp:226-255). The code sorts the predicates and
    drops equal ones; the order and repetitions have no effect on the results, which
    are united per position, and are kept here. *)
Fixpoint predicatize (e : expr) : list predicate :=
  match e with
  | ENone => []
  | EAnd es | EOr es => flat_map predicatize es
  | ENot x => predicatize x
  | EPred p => [p]
  end.
Section ResolvePositions.
  Variable rec : list nat -> expr -> res (list (list nat * predicate)).
  Fixpoint resolve_children (o : list nat) (i : nat) (es : list expr) : res (list (list nat * predicate)) :=
    match es with
    | [] => ok []
    | e :: es' => res_bind (rec (o ++ [i]) e) (fun a => res_bind (resolve_children o (S i) es') (fun b => ok (a ++ b)))
    end.
End ResolvePositions.
(** [resolve_impl] (expression.cpp:245-288); a missing expression fails an assertion. *)
Fixpoint resolve_positions (glob : list N -> list N -> bool) (t : ty) (o : list nat) (e : expr) {struct e}
  : res (list (list nat * predicate)) :=
  match e with
  | EAnd es | EOr es => resolve_children (resolve_positions glob t) o 0 es
  | ENot x => resolve_positions glob t (o ++ [0]) x
  | EPred p => res_bind (resolve_pred glob t p) (fun r => ok (map (fun q => (o, q)) (predicatize r)))
  | ENone => ub
  end.
(** [resolve] (expression.cpp:292-299): no predicates at all after an error. *)
Definition resolve (glob : list N -> list N -> bool) (e : expr) (t : ty) : res (list (list nat * predicate)) :=
  match resolve_positions glob t [0] e with fail => ok [] | r => r end.
