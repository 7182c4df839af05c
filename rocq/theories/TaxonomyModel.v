(** Model of concepts and models: libvast/src/taxonomies.cpp, libvast/vast/taxonomies.hpp and
    [predicate_transformer] (libvast/vast/expression.hpp:268-327). *)
From Coq Require Import List NArith Bool Arith.
From Verif Require Import OperatorModel AddressModel DataModel TypeModel ExpressionModel.
Import ListNotations.
Open Scope nat_scope.

Notation name := (list N) (only parsing).

(** [concept_] (taxonomies.hpp:24-43); descriptions are left out. *)
Record concept := { c_fields : list name; c_concepts : list name }.
(** [concepts_map], [models_map] (taxonomies.hpp:46, 75): stable maps, in order of insertion. A
    [model] (taxonomies.hpp:58-73) is its definition. *)
Definition concepts_map : Type := list (name * concept).
Definition models_map : Type := list (name * list name).
(** [taxonomies] (taxonomies.hpp:88-100). *)
Record taxonomies := { t_concepts : concepts_map; t_models : models_map }.

(** [find] of [stable_map]. *)
Fixpoint find_key {A} (k : name) (m : list (name * A)) : option A :=
  match m with
  | [] => None
  | (k', a) :: m' => if bytes_eqb k' k then Some a else find_key k m'
  end.

(** * Definitions in schema files *)

(** The keys of a definition: name, fields, concepts, concept. *)
Definition k_name : name := [110; 97; 109; 101]%N.
Definition k_fields : name := [102; 105; 101; 108; 100; 115]%N.
Definition k_concepts : name := [99; 111; 110; 99; 101; 112; 116; 115]%N.
Definition k_concept : name := [99; 111; 110; 99; 101; 112; 116]%N.

Definition mem_name (x : name) (xs : list name) : bool := existsb (bytes_eqb x) xs.
(** [out\[name\]]: changes a value, or adds one at the end that starts out empty. *)
Fixpoint update {A} (empty : A) (k : name) (f : A -> A) (m : list (name * A)) : list (name * A) :=
  match m with
  | [] => [(k, f empty)]
  | (k', a) :: m' => if bytes_eqb k' k then (k', f a) :: m' else (k', a) :: update empty k f m'
  end.
(** All elements as strings, or an error. *)
Fixpoint strings (ds : list data) : option (list name) :=
  match ds with
  | [] => Some []
  | DString s :: ds' => match strings ds' with Some l => Some (s :: l) | None => None end
  | _ => None
  end.
(** The loops over the fields and over the concepts of a definition (taxonomies.cpp:46-56,
    64-74). Both compare with the fields. *)
Definition add_fields (fs : list name) (c : concept) : concept :=
  fold_left (fun c f => if mem_name f (c_fields c) then c else {| c_fields := c_fields c ++ [f]; c_concepts := c_concepts c |}) fs c.
Definition add_concepts (ns : list name) (c : concept) : concept :=
  fold_left (fun c n => if mem_name n (c_fields c) then c else {| c_fields := c_fields c; c_concepts := c_concepts c ++ [n] |}) ns c.
(** A list of strings at a key; [Some \[\]] if the key is missing. *)
Definition strings_at (k : name) (xs : list (name * data)) : option (list name) :=
  match find_key k xs with
  | None => Some []
  | Some (DList ds) => strings ds
  | Some _ => None
  end.
(** [convert] to a concept (taxonomies.cpp:28-88). [None] is an error; what a definition with an
    error leaves behind in the map is left out, the callers discard it. *)
Definition convert_concept (d : data) (out : concepts_map) : option concepts_map :=
  match d with
  | DRecord xs =>
    match find_key k_name xs with
    | Some (DString n) =>
      match strings_at k_fields xs, strings_at k_concepts xs with
      | Some fs, Some ns => Some (update {| c_fields := []; c_concepts := [] |} n (fun c => add_concepts ns (add_fields fs c)) out)
      | _, _ => None
      end
    | _ => None
    end
  | _ => None
  end.
(** [extract_concepts] (taxonomies.cpp:90-110). *)
Fixpoint extract_items (ds : list data) (out : concepts_map) : option concepts_map :=
  match ds with
  | [] => Some out
  | DRecord xs :: ds' =>
    match find_key k_concept xs with
    | None => extract_items ds' out
    | Some d => match convert_concept d out with Some out' => extract_items ds' out' | None => None end
    end
  | _ :: ds' => extract_items ds' out
  end.
Definition extract_concepts (d : data) : option concepts_map :=
  match d with DList ds => extract_items ds [] | _ => Some [] end.

(** * [resolve_concepts] *)

(** [defaults::max_recursion] (defaults.hpp:28). *)
Definition max_recursion : nat := 100.
(** [try_resolve_concept] (taxonomies.cpp:193-216). The state is [resolved_concepts_cache], as
    names, and [fields_or_concepts]. *)
Fixpoint try_resolve (cs : concepts_map) (limit : nat) (n : name) (st : list name * list name) : list name * list name :=
  match limit with
  | 0 => st
  | S l =>
    match find_key n cs with
    | None => (fst st, snd st ++ [n])
    | Some c => if mem_name n (fst st) then st
                else fold_left (fun st n' => try_resolve cs l n' st) (c_concepts c) (n :: fst st, snd st ++ c_fields c)
    end
  end.
(** [resolve_concepts] (taxonomies.cpp:189-220). *)
Definition resolve_concepts (cs : concepts_map) (ns : list name) : list name :=
  snd (fold_left (fun st n => try_resolve cs max_recursion n st) ns ([], [])).

(** * [resolve] *)

(** [push_back] if it is not in there ([std::find], [stable_set_policy::add]). *)
Definition push_name (xs : list name) (x : name) : list name := if mem_name x xs then xs else xs ++ [x].
(** [load_definition] (taxonomies.cpp:267-276); the state is [log] and [target_fields]. *)
Definition load (st : list name * list name) (c : concept) : list name * list name :=
  (fold_left push_name (c_concepts c) (fst st), fold_left push_name (c_fields c) (snd st)).
(** The loop over the log (taxonomies.cpp:277-282). [for (auto current : log)] reads the end of
    the log once, before the loop; so it visits the concepts that were logged for the first
    definition. If the loop appends to the log, all iterators are invalid by the standard
    ([appends] below); with libstdc++ and up to 16 entries it goes on as modelled. *)
Definition load_logged (cs : concepts_map) (st : list name * list name) (n : name) : list name * list name :=
  match find_key n cs with Some c => load st c | None => st end.
Definition load_all (cs : concepts_map) (c : concept) : list name * list name :=
  let st := load ([], []) c in fold_left (load_logged cs) (fst st) st.
Definition target_fields (cs : concepts_map) (c : concept) : list name := snd (load_all cs c).
Definition appends (cs : concepts_map) (c : concept) : bool :=
  negb (length (fst (load_all cs c)) =? length (fst (load ([], []) c))).

(** [contains] (taxonomies.cpp:222-244): the first prefix in front of a dot that is the name of a
    known layout decides. *)
Fixpoint contains_from (seen : list (name * list ty)) (pre x : name) (op : relop) (d : data) : bool :=
  match x with
  | [] => false
  | c :: x' =>
    if N.eqb c dot then
      match find_key pre seen with
      | Some ts => existsb (fun t => match t with
                                     | TRecord _ fs => match find_field x' (flatten_fields fs) with Some ft => compatible ft op d | None => false end
                                     | _ => false
                                     end) ts
      | None => contains_from seen (pre ++ [c]) x' op d
      end
    else contains_from seen (pre ++ [c]) x' op d
  end.
Definition contains (seen : list (name * list ty)) (x : name) (op : relop) (d : data) : bool := contains_from seen [] x op d.

(** What [resolve] returns: an expression, an error, or nothing because it does not end or its
    behaviour is undefined. *)
Inductive outcome := Resolved (e : expr) | Refused | Undefined.

Section Resolve.
  Variable ts : taxonomies.
  (** [seen], or [None] for the overload without it ([prune] is false). *)
  Variable seen : option (list (name * list ty)).
  Definition keeps (op : relop) (d : data) (x : name) : bool :=
    match seen with None => true | Some s => contains s x op d end.

  (** The inner [resolve_concepts] (taxonomies.cpp:251-298) for a predicate, the name of a
      concept, an operator, a value and a way to make predicates. *)
  Definition substitute (p : predicate) (n : name) (op : relop) (d : data) (make : relop -> data -> name -> predicate) : expr :=
    match find_key n (t_concepts ts) with
    | None => EPred p
    | Some c => match map (fun x => EPred (make op d x)) (filter (keeps op d) (target_fields (t_concepts ts) c)) with
                | [] => EPred p
                | [e] => e
                | es => EOr es
                end
    end.

  (** The cursor in the tree of a model: the levels, innermost first, each with the components
      from the current one on. [descend] (taxonomies.cpp:323-330): [None] when the first component of an
      empty model is read, or when the fuel does not suffice. *)
  Fixpoint descend (fuel : nat) (levels : list (list name)) : option (list (list name)) :=
    match fuel with
    | 0 => None
    | S f =>
      match levels with
      | (x :: r) :: up => match find_key x (t_models ts) with
                          | None => Some levels
                          | Some def => descend f (def :: levels)
                          end
      | _ => None
      end
    end.
  (** The loop in [next_leaf] (taxonomies.cpp:335-336). *)
  Fixpoint advance (levels : list (list name)) : list (list name) :=
    match levels with
    | (_ :: y :: r) :: up => (y :: r) :: up
    | _ :: up => advance up
    | [] => []
    end.
  (** The components that the loops over the levels visit (taxonomies.cpp:332-342, 366-376,
      378-396), from a cursor that stands at a leaf. *)
  Fixpoint walk (fuel : nat) (levels : list (list name)) : option (list name) :=
    match fuel with
    | 0 => None
    | S f =>
      match levels with
      | (x :: _) :: _ =>
        match advance levels with
        | [] => Some [x]
        | next => match descend f next with
                  | None => None
                  | Some l => match walk f l with Some xs => Some (x :: xs) | None => None end
                  end
        end
      | _ => None
      end
    end.
  Definition leaves (fuel : nat) (def : list name) : option (list name) :=
    match descend fuel [def] with
    | None => None
    | Some l => walk fuel l
    end.

  (** [insert_meta_field_predicate] (taxonomies.cpp:349-360). *)
  Definition meta_predicate (op : relop) (_ : data) (x : name) : predicate :=
    {| p_lhs := OMeta MField; p_op := op; p_rhs := OVal (DString x) |}.
  Definition unrestricted_leaf (p : predicate) (x : name) : expr := substitute p x op_eq DNone meta_predicate.

  (** The loops over the leaves: [restricted] and [unrestricted] (taxonomies.cpp:361-409). The
      leaves are taken to be enumerated before. *)
  Fixpoint named_parts (p : predicate) (op : relop) make (r : list (name * data)) (ls : list name) : list expr * list expr :=
    match ls with
    | [] => ([], [])
    | x :: ls' => let (res, unres) := named_parts p op make r ls' in
                  match find_key x r with
                  | None => (res, unrestricted_leaf p x :: unres)
                  | Some v => (substitute p x op v make :: res, unres)
                  end
    end.
  Fixpoint unnamed_parts (p : predicate) (op : relop) make (r : list (name * data)) (ls : list name) : option (list expr * list expr) :=
    match ls, r with
    | [], [] => Some ([], [])
    | x :: ls', (_, v) :: r' =>
      match unnamed_parts p op make r' ls' with
      | None => None
      | Some (res, unres) => match v with
                             | DNone => Some (res, unrestricted_leaf p x :: unres)
                             | _ => Some (substitute p x op v make :: res, unres)
                             end
      end
    | _, _ => None
    end.
  (** The end of [resolve_models] (taxonomies.cpp:410-429). *)
  Definition assemble (op : relop) (parts : list expr * list expr) : expr :=
    match fst parts with
    | [] => EAnd (snd parts)
    | restricted =>
      let e := single EAnd restricted in
      let e := if is_negated op then ENot e else e in
      match snd parts with
      | [] => e
      | unres => EAnd (unres ++ [e])
      end
    end.
  (** [resolve_models] (taxonomies.cpp:299-430). *)
  Definition resolve_models (fuel : nat) (p : predicate) (n : name) (op : relop) (d : data) (make : relop -> data -> name -> predicate) : outcome :=
    match d with
    | DRecord [] => Resolved ENone
    | DRecord (((k, _) :: _) as r) =>
      match find_key n (t_models ts) with
      | None => Resolved (substitute p n op d make)
      | Some def =>
        match leaves fuel def with
        | None => Undefined
        | Some ls =>
          let abs_op := if is_negated op then negate_op op else op in
          match k with
          | _ :: _ => Resolved (assemble op (named_parts p abs_op make r ls))
          | [] => match unnamed_parts p abs_op make r ls with
                  | None => Refused
                  | Some parts => Resolved (assemble op parts)
                  end
          end
        end
      end
    | _ => Resolved (substitute p n op d make)
    end.
  (** The function given to [for_each_predicate] (taxonomies.cpp:431-453). *)
  Definition make_left (op : relop) (d : data) (x : name) : predicate := {| p_lhs := OField x; p_op := op; p_rhs := OVal d |}.
  Definition make_right (op : relop) (d : data) (x : name) : predicate := {| p_lhs := OVal d; p_op := op; p_rhs := OField x |}.
  Definition resolve_pred (fuel : nat) (p : predicate) : outcome :=
    match p_lhs p, p_rhs p with
    | OField n, OVal d => resolve_models fuel p n (p_op p) d make_left
    | OVal d, OField n => resolve_models fuel p n (p_op p) d make_right
    | _, _ => Resolved (EPred p)
    end.
  (** The results for the operands of a connective, up to the first that is not an expression. *)
  Fixpoint collect (os : list outcome) : outcome + list expr :=
    match os with
    | [] => inr []
    | Resolved e :: os' => match collect os' with inr es => inr (e :: es) | inl o => inl o end
    | o :: _ => inl o
    end.
  (** [predicate_transformer] (expression.hpp:268-315). A negation uses the result without a
      check. *)
  Fixpoint resolve (fuel : nat) (e : expr) : outcome :=
    match e with
    | ENone => Resolved ENone
    | EAnd es => match collect (map (resolve fuel) es) with inr es' => Resolved (EAnd es') | inl o => o end
    | EOr es => match collect (map (resolve fuel) es) with inr es' => Resolved (EOr es') | inl o => o end
    | ENot x => match resolve fuel x with Resolved y => Resolved (ENot y) | _ => Undefined end
    | EPred p => resolve_pred fuel p
    end.
End Resolve.
