(** Model of the meta index: libvast/src/partition_synopsis.cpp,
    libvast/vast/qualified_record_field.hpp, libvast/src/system/meta_index.cpp.

    Hash maps are association lists; the order of their entries does not matter for the
    results below. Partition identifiers are numbers, see SetOpsModel.v. *)
From Coq Require Import List ZArith NArith Bool Arith.
From Verif Require Import OperatorModel AddressModel DataModel TypeModel ExpressionModel TableSliceModel SetOpsModel
  BloomModel SynopsisModel.
Import ListNotations.
Open Scope nat_scope.

(** * Partition synopses *)

(** [qualified_record_field] (qualified_record_field.hpp:27-65). *)
Record qfield := { q_layout : list N; q_key : list N; q_type : ty }.
(** [fqn] (qualified_record_field.hpp:58-60). *)
Definition fqn (q : qfield) : list N := q_layout q ++ dot :: q_key q.
(** [operator==] (qualified_record_field.cpp:16-20). *)
Definition qfield_eqb (a b : qfield) : bool :=
  bytes_eqb (q_layout a) (q_layout b) && bytes_eqb (q_key a) (q_key b) && ty_eqb (q_type a) (q_type b).

(** [partition_synopsis] (partition_synopsis.hpp:32-35); [None] is the null pointer. *)
Record psyn := { field_syns : list (qfield * option synopsis); type_syns : list (ty * option synopsis) }.
Definition empty_psyn : psyn := {| field_syns := []; type_syns := [] |}.

(** Finding and replacing or adding an entry. *)
Section Assoc.
  Context {K V : Type} (eqb : K -> K -> bool).
  Fixpoint find_entry (k : K) (m : list (K * V)) : option V :=
    match m with
    | [] => None
    | (k', v) :: m' => if eqb k' k then Some v else find_entry k m'
    end.
  Fixpoint put_entry (k : K) (v : V) (m : list (K * V)) : list (K * V) :=
    match m with
    | [] => [(k, v)]
    | (k', v') :: m' => if eqb k' k then (k', v) :: m' else (k', v') :: put_entry k v m'
    end.
End Assoc.

(** [has_skip_attribute] (type.cpp:1043-1045). *)
Definition skip_name : list N := [115; 107; 105; 112]%N.
Definition has_skip (t : ty) : bool := existsb (fun a => bytes_eqb (fst a) skip_name) (m_attrs (ty_meta t)).
(** [type::attributes({})]: the attributes of the outermost type are removed. *)
Definition clean_meta (m : meta) : meta := {| m_name := m_name m; m_attrs := [] |}.
Definition cleaned (t : ty) : ty :=
  match t with
  | TNull => TNull
  | TNone m => TNone (clean_meta m)
  | TBasic m b => TBasic (clean_meta m) b
  | TEnum m fs => TEnum (clean_meta m) fs
  | TList m v => TList (clean_meta m) v
  | TMap m k v => TMap (clean_meta m) k v
  | TRecord m fs => TRecord (clean_meta m) fs
  | TAlias m v => TAlias (clean_meta m) v
  end.

(** The cells of a column. *)
Fixpoint column (rows : list (list data)) (col : nat) : option (list data) :=
  match rows with
  | [] => Some []
  | r :: rows' => match nth_error r col, column rows' col with
                  | Some x, Some xs => Some (x :: xs)
                  | _, _ => None
                  end
  end.

Section Hash.
  Variable hash : N -> data -> N.
  Variable opts : syn_options.

  (** [make_synopsis] (partition_synopsis.cpp:39-42). *)
  Definition new_synopsis (t : ty) : option (option synopsis) :=
    if has_skip t then Some None else make_synopsis opts t.
  (** The entry for a key with the column added: the synopsis is made for the first
      column, and a null pointer stays (partition_synopsis.cpp:60-68, 75-79). *)
  Definition with_column (found : option (option synopsis)) (t : ty) (xs : list data) : option (option synopsis) :=
    match match found with Some s => Some s | None => new_synopsis t end with
    | None => None
    | Some None => Some None
    | Some (Some s) => option_map Some (syn_add_all hash s xs)
    end.
  (** One column in [partition_synopsis::add] (partition_synopsis.cpp:46-80). The
      constructor of the qualified field requires names (qualified_record_field.hpp:45-53). *)
  Definition add_column (name : list N) (ps : psyn) (l : leaf) (xs : list data) : option psyn :=
    match name, l_key l with
    | [], _ | _, [] => None
    | _, _ =>
      let q := {| q_layout := name; q_key := l_key l; q_type := l_type l |} in
      if is_string_type (l_type l) then
        let ct := cleaned (l_type l) in
        match with_column (find_entry ty_eqb ct (type_syns ps)) (l_type l) xs with
        | None => None
        | Some s => Some {| field_syns := put_entry qfield_eqb q None (field_syns ps); type_syns := put_entry ty_eqb ct s (type_syns ps) |}
        end
      else
        match with_column (find_entry qfield_eqb q (field_syns ps)) (l_type l) xs with
        | None => None
        | Some s => Some {| field_syns := put_entry qfield_eqb q s (field_syns ps); type_syns := type_syns ps |}
        end
    end.
  Fixpoint add_columns (name : list N) (rows : list (list data)) (ps : psyn) (ls : list leaf) (col : nat) : option psyn :=
    match ls with
    | [] => Some ps
    | l :: ls' =>
      match column rows col with
      | None => None
      | Some xs => match add_column name ps l xs with
                   | None => None
                   | Some ps' => add_columns name rows ps' ls' (S col)
                   end
      end
    end.
  (** [partition_synopsis::add] (partition_synopsis.cpp:37-82). *)
  Definition psyn_add (ps : psyn) (s : slice) : option psyn :=
    match each_list (la_fields (s_layout s)) with
    | None => None
    | Some ls => add_columns (m_name (la_meta (s_layout s))) (s_rows s) ps ls 0
    end.
  Fixpoint psyn_add_all (ps : psyn) (ss : list slice) : option psyn :=
    match ss with
    | [] => Some ps
    | s :: ss' => match psyn_add ps s with Some ps' => psyn_add_all ps' ss' | None => None end
    end.

  (** [partition_synopsis::shrink] (partition_synopsis.cpp:17-35). *)
  Definition shrink_entry (s : option synopsis) : option (option synopsis) :=
    match s with
    | None => Some None
    | Some x => match shrink hash opts x with
                | None => None
                | Some None => Some (Some x)
                | Some (Some y) => Some (Some y)
                end
    end.
  Fixpoint shrink_entries {K : Type} (m : list (K * option synopsis)) : option (list (K * option synopsis)) :=
    match m with
    | [] => Some []
    | (k, s) :: m' => match shrink_entry s, shrink_entries m' with
                      | Some s', Some m'' => Some ((k, s') :: m'')
                      | _, _ => None
                      end
    end.
  Definition psyn_shrink (ps : psyn) : option psyn :=
    match shrink_entries (field_syns ps), shrink_entries (type_syns ps) with
    | Some f, Some t => Some {| field_syns := f; type_syns := t |}
    | _, _ => None
    end.

  (** * The meta index *)

  (** [meta_index_state::synopses], a sorted vector (meta_index.hpp, flat_map.hpp). *)
  Notation meta_index := (list (N * psyn)).

  (** [merge] (meta_index.cpp:43-45): [emplace] keeps an existing entry. *)
  Fixpoint mi_merge (id : N) (ps : psyn) (m : meta_index) : meta_index :=
    match m with
    | [] => [(id, ps)]
    | (i, p) :: m' => if (i <? id)%N then (i, p) :: mi_merge id ps m'
                      else if (id <? i)%N then (id, ps) :: m else m
    end.
  (** [erase] (meta_index.cpp:39-41, vector_map.hpp:157-164). *)
  Definition mi_erase (id : N) (m : meta_index) : meta_index := filter (fun e => negb (fst e =? id)%N) m.
  (** ** Pruning *)

  (** The string that a predicate compares with, unless it has a meta extractor
      (meta_index.cpp:89-100). *)
  Definition pred_string (p : predicate) : option (list N) :=
    match p_lhs p, p_rhs p with
    | OMeta _, _ => None
    | _, OVal (DString s) => Some s
    | _, _ => None
    end.
  Definition expr_string (e : expr) : option (list N) := match e with EPred p => pred_string p | _ => None end.
  (** [pruner::run] (meta_index.cpp:84-106). *)
  Section Run.
    Variable rec : expr -> expr.
    Fixpoint prune_operands (memo : list (list N)) (es : list expr) : list expr :=
      match es with
      | [] => []
      | e :: es' =>
        match expr_string e with
        | Some s => if existsb (bytes_eqb s) memo then prune_operands memo es' else e :: prune_operands (s :: memo) es'
        | None => rec e :: prune_operands memo es'
        end
      end.
  End Run.
  (** [pruner] (meta_index.cpp:67-107). *)
  Fixpoint prune (e : expr) : expr :=
    match e with
    | ENone => ENone
    | EAnd es => EAnd (prune_operands prune [] es)
    | EOr es => EOr (prune_operands prune [] es)
    | ENot x => ENot (prune x)
    | EPred p => EPred p
    end.
  (** The loop of [prune_all] (meta_index.cpp:110-117); [None] means that it is still
      running after [fuel] rounds. *)
  Fixpoint prune_loop (fuel : nat) (result e : expr) : option expr :=
    if expr_eqb result e then Some result
    else match fuel with
         | O => None
         | S fuel' => prune_loop fuel' (hoist (prune result)) result
         end.
  Definition prune_all (fuel : nat) (e : expr) : option expr := prune_loop fuel (prune e) e.

  (** ** Lookups *)

  Variable re : regex.

  (** The check of one column (meta_index.cpp:203-231): whether it keeps the partition. *)
  Definition column_check (ps : psyn) (op : relop) (d : data) (e : qfield * option synopsis) : option bool :=
    match snd e with
    | Some s => option_map (fun r => match r with Some b => b | None => true end) (syn_lookup hash s op d)
    | None => match find_entry ty_eqb (cleaned (q_type (fst e))) (type_syns ps) with
              | Some (Some s) => option_map (fun r => match r with Some b => b | None => true end) (syn_lookup hash s op d)
              | _ => Some true
              end
    end.
  (** [search] on one partition (meta_index.cpp:197-241). *)
  Fixpoint search_fields (matches : qfield -> bool) (ps : psyn) (op : relop) (d : data) (es : list (qfield * option synopsis)) : option bool :=
    match es with
    | [] => Some false
    | e :: es' =>
      if matches (fst e)
      then match column_check ps op d e with
           | None => None
           | Some true => Some true
           | Some false => search_fields matches ps op d es'
           end
      else search_fields matches ps op d es'
    end.
  (** The search for a layout name (meta_index.cpp:244-262). *)
  Fixpoint search_layouts (op : relop) (d : data) (es : list (qfield * option synopsis)) : option bool :=
    match es with
    | [] => Some false
    | e :: es' => match evaluate re (DString (q_layout (fst e))) op d with
                  | None => None
                  | Some true => Some true
                  | Some false => search_layouts op d es'
                  end
    end.
  (** The columns that match a type extractor (meta_index.cpp:304-322). *)
  Definition type_matches (t : ty) (op : relop) (d : data) (q : qfield) : bool :=
    match t with
    | TNone m => named (m_name m) op d (q_type q)
    | _ => congruent (q_type q) t
    end.
  (** Whether a predicate keeps a partition (meta_index.cpp:242-339): [None]
      is a violated assertion. *)
  Definition keeps (p : predicate) (ps : psyn) : option bool :=
    match p_lhs p, p_rhs p with
    | OMeta MType, OVal d => search_layouts (p_op p) d (field_syns ps)
    | OMeta MField, OVal d =>
      match d with
      | DString s => let matching := existsb (fun e => ends_with (fqn (fst e)) s) (field_syns ps) in
                     Some (Bool.eqb (negb (is_negated (p_op p))) matching)
      | _ => Some false
      end
    | OField name, OVal d => search_fields (fun q => ends_with (fqn q) name) ps (p_op p) d (field_syns ps)
    | OType t, OVal d =>
      match t with
      | TNull => None
      | TNone m => match m_name m with
                   | [] => None
                   | _ => search_fields (type_matches t (p_op p) d) ps (p_op p) d (field_syns ps)
                   end
      | _ => search_fields (type_matches t (p_op p) d) ps (p_op p) d (field_syns ps)
      end
    | _, _ => Some true
    end.
  (** The second search for the type [timestamp] (meta_index.cpp:324-331). *)
  Definition keeps_timestamp (p : predicate) (ps : psyn) : option bool :=
    match p_rhs p with
    | OVal d => search_fields (fun q => has_timestamp (q_type q)) ps (p_op p) d (field_syns ps)
    | _ => Some false
    end.
  Definition is_timestamp (p : predicate) : bool :=
    match p_lhs p, p_rhs p with
    | OType t, OVal _ => bytes_eqb (ty_name t) timestamp_name
    | _, _ => false
    end.
  (** The identifiers of the partitions that pass a test, in order. *)
  Fixpoint select_ids (f : psyn -> option bool) (m : meta_index) : option (list N) :=
    match m with
    | [] => Some []
    | (id, ps) :: m' => match f ps, select_ids f m' with
                        | Some b, Some ids => Some (if b then id :: ids else ids)
                        | _, _ => None
                        end
    end.
  Definition lookup_pred (m : meta_index) (p : predicate) : option (list N) :=
    match select_ids (keeps p) m with
    | None => None
    | Some ids => if is_timestamp p
                  then option_map (inplace_unify ids) (select_ids (keeps_timestamp p) m)
                  else Some ids
    end.

  (** The loops over the operands (meta_index.cpp:152-183). *)
  Section Loops.
    Variable rec : expr -> option (list N).
    Fixpoint and_rest (result : list N) (es : list expr) : option (list N) :=
      match es with
      | [] => Some result
      | e :: es' => match rec e with
                    | None => None
                    | Some [] => Some []
                    | Some xs => and_rest (inplace_intersect result xs) es'
                    end
      end.
    Definition and_loop (es : list expr) : option (list N) :=
      match es with
      | [] => None
      | e :: es' => match rec e with
                    | None => None
                    | Some [] => Some []
                    | Some r => and_rest r es'
                    end
      end.
    Variable total : nat.
    Fixpoint or_loop (result : list N) (es : list expr) : option (list N) :=
      match es with
      | [] => Some result
      | e :: es' => match rec e with
                    | None => None
                    | Some xs => if length xs =? total then Some xs else or_loop (inplace_unify result xs) es'
                    end
      end.
  End Loops.
  (** [lookup_impl] (meta_index.cpp:131-349). *)
  Fixpoint lookup_impl (m : meta_index) (e : expr) : option (list N) :=
    match e with
    | ENone => None
    | EAnd es => and_loop (lookup_impl m) es
    | EOr es => or_loop (lookup_impl m) (length m) [] es
    | ENot _ => Some (map fst m)
    | EPred p => lookup_pred m p
    end.
  (** [meta_index_state::lookup] (meta_index.cpp:119-129). *)
  Definition mi_lookup (fuel : nat) (m : meta_index) (e : expr) : option (list N) :=
    match prune_all fuel e with None => None | Some e' => lookup_impl m e' end.
End Hash.

(** The messages that change the state (meta_index.cpp:361-371). Replacing the whole state
    at startup (meta_index.cpp:47-58, 356-360) is left out: it sorts the given map. *)
Inductive mi_op := Merge (id : N) (ps : psyn) | Erase (id : N).
Definition mi_step (m : list (N * psyn)) (o : mi_op) : list (N * psyn) :=
  match o with Merge id ps => mi_merge id ps m | Erase id => mi_erase id m end.
Definition mi_run (ops : list mi_op) (m : list (N * psyn)) : list (N * psyn) := fold_left mi_step ops m.
