(** Model of Sigma rules: libvast/src/detail/sigma.cpp, with the symbol table of
    libvast/vast/concept/parseable/string/symbol_table.hpp and [split] of
    libvast/src/detail/string.cpp. A rule names searches and combines them by a condition; the
    result is a query expression.

    A rule arrives as data, as the YAML parser made it. *)
From Coq Require Import String Ascii List ZArith NArith Bool Arith.
From Coq Require Import Init.Datatypes.
From Verif Require Import OperatorModel EscapeModel AddressModel DataModel TypeModel ExpressionModel LiteralModel SyntaxModel.
Import ListNotations.
Open Scope N_scope.
Local Notation length := List.length.

(** [caf::expected<expression>], or undefined behaviour. *)
Inductive outcome (A : Type) := Rule (a : A) | Err | Undef.
Arguments Rule {A}. Arguments Err {A}. Arguments Undef {A}.
(** What follows a step that may fail, as the early returns in sigma.cpp:238-371. *)
Definition after {A B} (x : outcome A) (f : A -> outcome B) : outcome B :=
  match x with Rule a => f a | Err => Err | Undef => Undef end.

(** ** Strings *)

(** [split(key, "|")] (string.cpp:96-146 for a separator of one character and no escape): the
    piece behind the last separator is left out if it is empty. [acc] is the current piece,
    backwards. *)
Fixpoint split_bar (acc : text) (s : text) : list text :=
  match s with
  | [] => match acc with [] => [] | _ => [rev acc] end
  | c :: r => if c =? chr "|" then rev acc :: split_bar [] r else split_bar (c :: acc) r
  end.

(** The regular expression that [make_pattern] writes (sigma.cpp:187-228). *)
Fixpoint make_rx (s : text) : text :=
  match s with
  | [] => []
  | c :: r =>
      if c =? chr "\" then
        match r with
        | [] => [chr "\"]
        | w :: r' =>
            if w =? chr "*" then chr "*" :: make_rx r'
            else if w =? chr "?" then chr "?" :: make_rx r'
            else if w =? chr "\" then chr "\" :: match r' with [] => [chr "\"] | _ => make_rx r' end
            else chr "\" :: w :: make_rx r'
        end
      else if c =? chr "*" then chr "." :: chr "*" :: make_rx r
      else if c =? chr "?" then chr "." :: make_rx r
      else c :: make_rx r
  end.
(** Equality of strings (sigma.cpp:231, 268-297). *)
Definition same (a b : text) : bool := if list_eq_dec N.eq_dec a b then true else false.
(** [make_pattern] (sigma.cpp:187-234). *)
Definition make_pattern (s : text) : option text := if same s (make_rx s) then None else Some (make_rx s).

(** ** Searches *)

(** The modifiers that are not implemented (sigma.cpp:277-296). *)
Definition unimplemented (m : text) : bool :=
  existsb (same m) [chars "base64"; chars "base64offset"; chars "utf16le"; chars "wide"; chars "utf16be"; chars "utf16"].
(** The operator behind all modifiers (sigma.cpp:244, 267-300). *)
Definition op_step (op : relop) (m : text) : relop :=
  if same m (chars "contains") || same m (chars "endswith") || same m (chars "startswith") then op_ni
  else if same m (chars "re") then op_match else op.
Definition op_of (mods : list text) : relop := fold_left op_step mods op_eq.
(** [make_predicate] (sigma.cpp:249-265). *)
Definition make_predicate (field : text) (op : relop) (re : bool) (d : data) : predicate :=
  let p op x := {| p_lhs := OField field; p_op := op; p_rhs := OVal x |} in
  match d with
  | DString s =>
      if re then p op_match (DPattern s)
      else match s with
           | [] => p op d
           | _ => match make_pattern s with Some rx => p op_match (DPattern rx) | None => p op d end
           end
  | _ => p op d
  end.
(** [holds_alternative<list>] and [holds_alternative<record>] (sigma.cpp:308-311). *)
Definition nested (d : data) : bool := match d with DList _ | DRecord _ => true | _ => false end.
(** One field of a search (sigma.cpp:241-319). [keys[0]] is undefined if there is no key. *)
Definition field_expr (f : text * data) : outcome expr :=
  match split_bar [] (fst f) with
  | [] => Undef
  | name :: mods =>
      let pred := make_predicate name (op_of mods) (existsb (same (chars "re")) mods) in
      if existsb unimplemented mods then Err
      else match snd f with
           | DRecord _ => Err
           | DList vs =>
               if existsb nested vs then Err
               else let es := map (fun v => EPred (pred v)) vs in
                    Rule (hoist (if existsb (same (chars "all")) mods then EAnd es else EOr es))
           | v => Rule (EPred (pred v))
           end
  end.
(** The loops that end with the first error (sigma.cpp:241-320, 324-328, 349-356). *)
Definition each {A B} (f : A -> outcome B) : list A -> outcome (list B) :=
  fix go (xs : list A) := match xs with [] => Rule [] | x :: r => after (f x) (fun y => after (go r) (fun ys => Rule (y :: ys))) end.
(** [parse_search_id] (sigma.cpp:238-333). *)
Fixpoint parse_search_id (y : data) : outcome expr :=
  match y with
  | DRecord fs => after (each field_expr fs) (fun es => Rule (single EAnd es))
  | DList ys => after (each parse_search_id ys) (fun es => Rule (single EOr es))
  | _ => Err
  end.

(** ** Conditions *)

Section Conditions.
  (** [expression_map] (sigma.cpp:32): the searches by name, in the order of their names. *)
  Variable table : list (text * expr).

  (** [std::mismatch(k.begin(), k.end(), f, l).first == k.end()] (symbol_table.hpp:42). *)
  Fixpoint starts (k s : text) : bool :=
    match k with [] => true | c :: k' => match s with d :: s' => (c =? d) && starts k' s' | [] => false end end.
  (** The search for the longest symbol (symbol_table.hpp:37-48). *)
  Fixpoint longest (best : option (text * expr)) (xs : list (text * expr)) (s : text) : option (text * expr) :=
    match xs with
    | [] => best
    | (k, e) :: r =>
        let len := match best with Some (b, _) => length b | None => 0%nat end in
        longest (if starts k s && (len <? length k)%nat then Some (k, e) else best) r s
    end.
  (** [symbol_table::parse] (symbol_table.hpp:33-54). A name without characters violates an
      assertion. *)
  Definition id_p : parser expr :=
    fun s => if existsb (fun x => match fst x with [] => true | _ => false end) table then Bad
             else match longest None table s with Some (k, e) => Ok e (skipn (length k) s) | None => No end.

  (** The characters that stand for themselves in a regular expression and that the names of
      searches consist of: letters, digits, underscores and dashes. *)
  Definition word (c : N) : bool :=
    ((48 <=? c) && (c <=? 57)) || ((65 <=? c) && (c <=? 90)) || ((97 <=? c) && (c <=? 122)) || (c =? chr "_") || (c =? chr "-").
  (** What [.] matches in a regular expression of the ECMAScript grammar. *)
  Definition dot (c : N) : bool := negb ((c =? 10) || (c =? 13)).
  (** Whether the expression that [search] makes of [pat] (sigma.cpp:78-79) matches at the
      beginning of [s]: [*] stands for [.*]. *)
  Fixpoint glob_at (pat : text) : text -> bool :=
    match pat with
    | [] => fun _ => true
    | p :: pat' =>
        if p =? chr "*" then
          fix any (s : text) : bool := glob_at pat' s || match s with c :: r => dot c && any r | [] => false end
        else fun s => match s with c :: r => (p =? c) && glob_at pat' r | [] => false end
    end.
  (** [std::regex_search] (sigma.cpp:82): anywhere. *)
  Fixpoint glob_search (pat s : text) : bool :=
    glob_at pat s || match s with _ :: r => glob_search pat r | [] => false end.
  (** [search] (sigma.cpp:77-85). For a pattern with other characters than words and stars the
      model gives up; if that is a parenthesis without its counterpart, [std::regex] throws. *)
  Definition search (pat : text) : parser (list expr) :=
    fun s => if forallb (fun c => word c || (c =? chr "*")) pat then Ok (map snd (filter (fun x => glob_search pat (fst x)) table)) s
             else Bad.

  (** [join] and [force] (sigma.cpp:51-74). *)
  Definition join_all (xs : list expr) : expr := hoist (EAnd xs).
  Definition join_any (xs : list expr) : expr := hoist (EOr xs).
  Definition force_all (e : expr) : expr := match e with EOr es => EAnd es | _ => e end.
  Definition force_any (e : expr) : expr := match e with EAnd es => EOr es | _ => e end.

  (** [pattern] and [selection] (sigma.cpp:92-96). *)
  Definition pattern_p : parser text := plus (sat (fun c => negb (isspace c))).
  Definition selection_p : parser (list expr) := alt (then_ (lit (chars "them")) (search (chars "*"))) (bind pattern_p search).
  (** [search_id_symbol_table::parse] (sigma.cpp:97-104). *)
  Definition search_id_p : parser expr :=
    any_of [
      then_ (lit (chars "all of")) (then_ ws (act force_all id_p));
      then_ (lit (chars "1 of")) (then_ ws (act force_any id_p));
      then_ (lit (chars "all of")) (then_ ws (act join_all selection_p));
      then_ (lit (chars "1 of")) (then_ ws (act join_any selection_p));
      id_p;
      act join_all selection_p].

  (** [group], [and_or] and [expr] (sigma.cpp:158-170); [to_expr] (sigma.cpp:120-148) is that of
      queries, from which the code was copied (sigma.cpp:26-28). *)
  Definition s_group_p (e : parser expr) : parser expr :=
    any_of [
      then_ (ch (chr "(")) (then_ ws (bind e (fun x => then_ ws (then_ (ch (chr ")")) (ret x)))));
      then_ (lit (chars "not")) (then_ ws (then_ (ch (chr "(")) (then_ ws (bind e (fun x => then_ ws (then_ (ch (chr ")")) (ret (ENot x))))))));
      then_ (lit (chars "not")) (then_ ws (act ENot search_id_p));
      search_id_p].
  Definition s_and_or_p : parser connective := alt (act (fun _ => COr) (lit (chars "or"))) (act (fun _ => CAnd) (lit (chars "and"))).
  Fixpoint s_expr_p (n : nat) : parser expr :=
    match n with
    | O => fun _ => Bad
    | S n' =>
        let g := s_group_p (s_expr_p n') in
        bind g (fun x => bind (kleene (then_ ws (bind s_and_or_p (fun c => then_ ws (act (pair c) g))))) (fun xs => then_ ws (ret (to_expr x xs))))
    end.
  (** [detection_parser] (sigma.cpp:172-173, 366-369). Parentheses are not nested deeper than the
      text is long. *)
  Definition condition_expr (s : text) : outcome expr :=
    match s_expr_p (S (length s)) s with Ok e [] => Rule e | Ok _ _ => Err | No => Err | Bad => Undef end.
End Conditions.

(** ** Rules *)

(** [record::find] (sigma.cpp:341, 359). *)
Fixpoint lookup (k : text) (fs : list (text * data)) : option data :=
  match fs with [] => None | (x, d) :: r => if same x k then Some d else lookup k r end.
(** [exprs[key] = ...] in a [std::map] (sigma.cpp:353), which is in the order of its keys. *)
Fixpoint text_lt (a b : text) : bool :=
  match a, b with
  | _, [] => false
  | [], _ :: _ => true
  | x :: a', y :: b' => (x <? y) || ((x =? y) && text_lt a' b')
  end.
Fixpoint put (k : text) (e : expr) (m : list (text * expr)) : list (text * expr) :=
  match m with
  | [] => [(k, e)]
  | (x, y) :: r => if same k x then (k, e) :: r else if text_lt k x then (k, e) :: m else (x, y) :: put k e r
  end.
(** The loop over the detection (sigma.cpp:348-356). *)
Definition searches (fs : list (text * data)) : outcome (list (text * expr)) :=
  after (each (fun f => after (parse_search_id (snd f)) (fun e => Rule (fst f, e))) (filter (fun f => negb (same (fst f) (chars "condition"))) fs))
    (fun xs => Rule (fold_left (fun m x => put (fst x) (snd x) m) xs [])).
(** [parse_rule] (sigma.cpp:335-371). *)
Definition parse_rule (y : data) : outcome expr :=
  match y with
  | DRecord fs =>
      match lookup (chars "detection") fs with
      | Some (DRecord ds) =>
          after (searches ds) (fun table =>
            match lookup (chars "condition") ds with
            | Some (DString s) => condition_expr table s
            | _ => Err
            end)
      | _ => Err
      end
  | _ => Err
  end.
