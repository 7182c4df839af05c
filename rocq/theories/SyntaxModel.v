(** Model of the text form of types and of query expressions:
    libvast/src/concept/parseable/vast/type.cpp, libvast/src/concept/parseable/vast/expression.cpp,
    libvast/vast/concept/printable/vast/{type,expression,operator}.hpp.

    Rules that refer to themselves take the depth of the recursion as an argument; when it is
    used up, the result is [Bad]. *)
From Coq Require Import String Ascii List ZArith NArith Bool Arith.
From Coq Require Import Init.Datatypes.
From Verif Require Import OperatorModel EscapeModel AddressModel DataModel TypeModel ExpressionModel LiteralModel.
Import ListNotations.
Open Scope N_scope.

(** ** Types *)

(** [type_parser::comment] and [type_parser::skp] (parseable/vast/type.hpp:26-31). *)
Definition comment : parser unit := then_ (lit (chars "//")) (act (fun _ => tt) (kleene (sat (fun c => negb (c =? 10))))).
Definition skp : parser unit := act (fun _ => tt) (kleene (alt (act (fun _ => tt) (sat isspace)) comment)).

(** The value of an attribute and an attribute (type.cpp:31-40). *)
Definition attr_char (c : N) : bool := isprint c && negb (isspace c || (c =? 44) || (c =? 62) || (c =? 125)).
Definition attr_p : parser (list N * option (list N)) :=
  bind (then_ (ch (chr "#")) identifier) (fun k => act (pair k) (maybe (then_ (ch (chr "=")) (alt (quoted c_quote) (plus (sat attr_char)))))).
Definition attrs_p : parser (list (list N * option (list N))) := kleene (then_ skp attr_p).

(** [type::update_attributes] (src/type.cpp:93-106). *)
Fixpoint update_attr (attrs : list (list N * option (list N))) (x : list N * option (list N)) : list (list N * option (list N)) :=
  match attrs with
  | [] => [x]
  | a :: r => if bytes_eqb (fst a) (fst x) then (fst a, snd x) :: r else a :: update_attr r x
  end.
Definition with_attrs (t : ty) (xs : list (list N * option (list N))) : ty :=
  let up m := {| m_name := m_name m; m_attrs := fold_left update_attr xs (m_attrs m) |} in
  match t with
  | TNull => TNull
  | TNone m => TNone (up m)
  | TBasic m b => TBasic (up m) b
  | TEnum m fs => TEnum (up m) fs
  | TList m v => TList (up m) v
  | TMap m k v => TMap (up m) k v
  | TRecord m fs => TRecord (up m) fs
  | TAlias m v => TAlias (up m) v
  end.

(** The names of the basic types, in the order they are tried (type.cpp:44-55). *)
Definition basics : list (basic * text) :=
  [(BBool, chars "bool"); (BInteger, chars "int"); (BCount, chars "count"); (BReal, chars "real"); (BDuration, chars "duration");
   (BTime, chars "time"); (BString, chars "string"); (BPattern, chars "pattern"); (BAddress, chars "addr"); (BSubnet, chars "subnet")].
Definition basic_p : parser ty :=
  skip_ (any_of (map (fun x => act (fun _ => TBasic no_meta (fst x)) (lit (snd x))) basics)) (not_ (sat identifier_char)).
(** [enum_type_parser] (type.cpp:60-64). *)
Definition trailing_comma : parser (option unit) := maybe (then_ (ch (chr ",")) skp).
Definition enum_p : parser ty :=
  then_ (lit (chars "enum")) (then_ skp (then_ (ch (chr "{"))
    (bind (list_ (then_ skp (skip_ identifier skp)) (ch (chr ","))) (fun l =>
     then_ trailing_comma (then_ (ch (chr "}")) (ret (TEnum no_meta l))))))).
(** [placeholder_parser] (type.cpp:107-112): a [none_type] with a name. *)
Definition named_none (x : list N) : ty := TNone {| m_name := x; m_attrs := [] |}.
Definition placeholder_p : parser ty := act named_none identifier.
(** [list_type_parser], [map_type_parser] and [record_type_parser] (type.cpp:71-106), over the rule
    for types. *)
Definition list_type_p (t : parser ty) : parser ty :=
  then_ (lit (chars "list")) (then_ skp (then_ (ch (chr "<")) (then_ skp
    (bind t (fun v => then_ skp (then_ (ch (chr ">")) (ret (TList no_meta v)))))))).
Definition map_type_p (t : parser ty) : parser ty :=
  then_ (lit (chars "map")) (then_ skp (then_ (ch (chr "<")) (then_ skp
    (bind t (fun k => then_ skp (then_ (ch (chr ",")) (then_ skp
      (bind t (fun v => then_ skp (then_ (ch (chr ">")) (ret (TMap no_meta k v)))))))))))).
Definition field_p (t : parser ty) : parser (list N * ty) :=
  bind (alt identifier (quoted c_quote)) (fun k => then_ skp (then_ (ch (chr ":")) (then_ skp (act (pair k) t)))).
Definition record_p (t : parser ty) : parser ty :=
  then_ (lit (chars "record")) (then_ skp (then_ (ch (chr "{"))
    (bind (list_ (then_ skp (skip_ (field_p t) skp)) (ch (chr ","))) (fun l =>
     then_ trailing_comma (then_ (ch (chr "}")) (ret (TRecord no_meta l))))))).
(** The operators of the type algebra (type.cpp:122-148), over the rule for operands. *)
Definition word_char (c : N) : bool := isalnum c || (c =? 95).
Definition algebra_p (operand : parser ty) : parser (list N * ty) :=
  any_of [
    then_ (lit (chars "+>")) (then_ skp (act (pair (chars "+>")) operand));
    then_ (ch (chr "+")) (then_ skp (act (pair (chars "+")) operand));
    then_ (lit (chars "<+")) (then_ skp (act (pair (chars "<+")) operand));
    then_ (ch (chr "-")) (then_ skp (act (fun path => (chars "-", TRecord no_meta (map (fun k => (k, TBasic no_meta BBool)) path)))
      (list_ (alt (plus (sat word_char)) (quoted c_quote)) (ch (chr ".")))))].
(** [type_type] and [type_expr_parser] (type.cpp:113-121, 149-178). An operand that is neither a
    record nor an identifier is a type expression again, which starts with an operand. *)
Fixpoint type_p (n : nat) : parser ty :=
  match n with
  | O => fun _ => Bad
  | S n' => fun s => bind (any_of [type_expr_p n'; basic_p; enum_p; list_type_p (type_p n'); map_type_p (type_p n'); record_p (type_p n'); placeholder_p])
      (fun t => act (with_attrs t) attrs_p) s
  end
with type_expr_p (n : nat) : parser ty :=
  match n with
  | O => fun _ => Bad
  | S n' => fun s =>
      let operand := any_of [record_p (type_p n'); placeholder_p; type_expr_p n'] in
      bind operand (fun t => then_ skp (act (fun l => TRecord {| m_name := []; m_attrs := [(chars "$algebra", None)] |} (([], t) :: l))
        (plus (then_ skp (algebra_p operand))))) s
  end.

(** ** Predicates *)

Section Queries.
  Variable A : arith.

  (** [parsers::data]; the recursion never goes deeper than the text is long. *)
  Definition data_ : parser data := fun s => data_p A (S (length s)) s.

  (** [field_char] and [field] (expression.cpp:112-117). *)
  Definition field_char (c : N) : bool := isalnum c || (c =? 95) || (c =? 45) || (c =? 58).
  Definition field_ : parser text :=
    then_ (not_ (alt (ch (chr ":")) (ch (chr "-")))) (act (join_text (chars ".")) (list_ (plus (sat field_char)) (ch (chr ".")))).
  (** [operand] (expression.cpp:118-124). *)
  Definition operand_p (n : nat) : parser operand :=
    any_of [
      act OVal (skip_ data_ (not_ (alt (sat field_char) (ch (chr ".")))));
      act (fun _ => OMeta MType) (lit (chars "#type"));
      act (fun _ => OMeta MField) (lit (chars "#field"));
      then_ (ch (chr ":")) (act OType (type_p n));
      act OField field_].
  (** [operation] (expression.cpp:125-142). *)
  Definition operations : list (text * relop) :=
    [(chars "~", op_match); (chars "!~", op_not_match); (chars "==", op_eq); (chars "!=", op_ne); (chars "<=", op_le); (chars "<", op_lt);
     (chars ">=", op_ge); (chars ">", op_gt); (chars "in", op_in); (chars "!in", op_not_in); (chars "ni", op_ni); (chars "!ni", op_not_ni);
     (chars "[+", op_in); (chars "[-", op_not_in); (chars "+]", op_ni); (chars "-]", op_not_ni)].
  Definition operation_p : parser relop := any_of (map (fun x => act (fun _ => snd x) (lit (fst x))) operations).
  (** [pred] (expression.cpp:143-147, 28-31). *)
  Definition predicate_p (n : nat) : parser predicate :=
    bind (operand_p n) (fun l => then_ ws (bind operation_p (fun op => then_ ws (act (fun r => {| p_lhs := l; p_op := op; p_rhs := r |}) (operand_p n))))).

  (** ** Expressions *)

  (** [data_to_type] (type.hpp) as used in [expand] (expression.cpp:104-106). *)
  Definition data_type (d : data) : ty :=
    match d with
    | DNone => TNone no_meta
    | DBool _ => TBasic no_meta BBool
    | DInt _ => TBasic no_meta BInteger
    | DCount _ => TBasic no_meta BCount
    | DReal _ => TBasic no_meta BReal
    | DDuration _ => TBasic no_meta BDuration
    | DTime _ => TBasic no_meta BTime
    | DString _ => TBasic no_meta BString
    | DPattern _ => TBasic no_meta BPattern
    | DAddress _ => TBasic no_meta BAddress
    | DSubnet _ => TBasic no_meta BSubnet
    | DEnum _ => TEnum no_meta []
    | DList _ => TList no_meta TNull
    | DMap _ => TMap no_meta TNull TNull
    | DRecord _ => TRecord no_meta []
    end.
  (** [expand] and [expander] on the predicate that it makes (expression.cpp:78-114). *)
  Definition expand (d : data) : expr :=
    let p := {| p_lhs := OType (data_type d); p_op := op_eq; p_rhs := OVal d |} in
    match d with
    | DSubnet _ => EOr [EPred p; EPred {| p_lhs := OType (TBasic no_meta BAddress); p_op := op_in; p_rhs := OVal d |}]
    | _ => EPred p
    end.

  (** [to_expr] (expression.cpp:203-233). *)
  Inductive connective := CAnd | COr.
  Fixpoint to_expr_loop (dis con : list expr) (xs : list (connective * expr)) : expr :=
    match xs with
    | [] => single EOr (dis ++ [single EAnd con])
    | (CAnd, e) :: r => to_expr_loop dis (con ++ [e]) r
    | (COr, e) :: r => to_expr_loop (dis ++ [single EAnd con]) [e] r
    end.
  Definition to_expr (x : expr) (xs : list (connective * expr)) : expr :=
    match xs with [] => x | _ => to_expr_loop [] [x] xs end.

  (** [pred_expr], [group], [and_or] and [expr] (expression.cpp:234-265). *)
  Definition pred_expr_p (n : nat) : parser expr := alt (act EPred (predicate_p n)) (act expand data_).
  Definition group_p (n : nat) (e : parser expr) : parser expr :=
    any_of [
      then_ (ch (chr "(")) (then_ ws (bind e (fun x => then_ ws (then_ (ch (chr ")")) (ret x)))));
      then_ (ch (chr "!")) (then_ ws (act ENot (pred_expr_p n)));
      then_ (ch (chr "!")) (then_ ws (then_ (ch (chr "(")) (then_ ws (bind e (fun x => then_ ws (then_ (ch (chr ")")) (ret (ENot x))))))));
      pred_expr_p n].
  Definition and_or_p : parser connective := alt (act (fun _ => COr) (lit (chars "||"))) (act (fun _ => CAnd) (lit (chars "&&"))).
  Fixpoint expr_p (n : nat) : parser expr :=
    match n with
    | O => fun _ => Bad
    | S n' =>
        let g := group_p n' (expr_p n') in
        bind g (fun x => bind (kleene (then_ ws (bind and_or_p (fun c => then_ ws (act (pair c) g))))) (fun xs => then_ ws (ret (to_expr x xs))))
    end.
  (** [expr >> eoi] (expression.cpp:267). *)
  Definition query_p (n : nat) (s : text) : res expr :=
    match expr_p n s with Ok e [] => Ok e [] | Ok _ _ => No | No => No | Bad => Bad end.

  (** ** Printing *)

  (** [relational_operator_printer] (printable/vast/operator.hpp:54-86). *)
  Definition op_text (op : relop) : text :=
    match op with
    | op_match => chars "~" | op_not_match => chars "!~" | op_in => chars "in" | op_not_in => chars "!in" | op_ni => chars "ni" | op_not_ni => chars "!ni"
    | op_eq => chars "==" | op_ne => chars "!=" | op_lt => chars "<" | op_le => chars "<=" | op_gt => chars ">" | op_ge => chars ">="
    end.
  (** [attribute_printer] (printable/vast/attribute.hpp:22-30) and [make_attr_printer]
      (printable/vast/type.hpp:19-24). *)
  Definition show_attr (x : list N * option (list N)) : text := chr "#" :: fst x ++ match snd x with Some v => chr "=" :: v | None => [] end.
  Definition show_attrs (xs : list (list N * option (list N))) : text :=
    match xs with [] => [] | _ => 32 :: join_text [32] (map show_attr xs) end.
  (** The printers for the types (printable/vast/type.hpp:26-92, 157-219). *)
  Definition basic_text (b : basic) : text :=
    match b with
    | BBool => chars "bool" | BInteger => chars "int" | BCount => chars "count" | BReal => chars "real" | BDuration => chars "duration"
    | BTime => chars "time" | BString => chars "string" | BPattern => chars "pattern" | BAddress => chars "addr" | BSubnet => chars "subnet"
    end.
  (** [type_printer<type_only>] (printable/vast/type.hpp:114-153): what the type is made of; its
      parts are shown by [name], which is [type_printer<name_only>]. A default [type] is shown as
      a [none_type] (type.cpp:126-128). *)
  Definition show_kind (name : ty -> text) (t : ty) : text :=
    match t with
    | TNull => chars "none"
    | TNone m => chars "none" ++ show_attrs (m_attrs m)
    | TBasic m b => basic_text b ++ show_attrs (m_attrs m)
    | TEnum m fs => chars "enum {" ++ join_text (chars ", ") fs ++ chr "}" :: show_attrs (m_attrs m)
    | TList m v => chars "list<" ++ name v ++ chr ">" :: show_attrs (m_attrs m)
    | TMap m k v => chars "map<" ++ name k ++ chars ", " ++ name v ++ chr ">" :: show_attrs (m_attrs m)
    | TRecord m fs => chars "record{" ++ join_text (chars ", ") (map (fun f => fst f ++ chars ": " ++ name (snd f)) fs) ++ chr "}" :: show_attrs (m_attrs m)
    | TAlias m v => name v ++ show_attrs (m_attrs m)
    end.
  (** [type_printer<name_only>]: the name if there is one, or else what the type is made of. *)
  Fixpoint show_type (t : ty) : text := match ty_name t with [] => show_kind show_type t | x => x end.
  (** [expression_printer] (printable/vast/expression.hpp:27-83). *)
  Definition show_operand (o : operand) : option text :=
    match o with
    | OMeta MType => Some (chars "#type")
    | OMeta MField => Some (chars "#field")
    | OField x => Some x
    | OType t => Some (chr ":" :: show_type t)
    | OVal d => show A d
    | OData _ _ => None
    end.
  Definition show_pred (p : predicate) : option text :=
    match show_operand (p_lhs p), show_operand (p_rhs p) with
    | Some l, Some r => Some (l ++ 32 :: op_text (p_op p) ++ 32 :: r)
    | _, _ => None
    end.
  Fixpoint show_expr (e : expr) : option text :=
    match e with
    | ENone => Some (chars "nil")
    | EAnd es => option_map (fun l => chr "(" :: join_text (chars " && ") l ++ [chr ")"]) (all_some (map show_expr es))
    | EOr es => option_map (fun l => chr "(" :: join_text (chars " || ") l ++ [chr ")"]) (all_some (map show_expr es))
    | ENot x => option_map (fun t => chars "! " ++ t) (show_expr x)
    | EPred p => show_pred p
    end.
End Queries.
