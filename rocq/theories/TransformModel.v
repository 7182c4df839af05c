(** Model of transforms of table slices: libvast/src/transform.cpp,
    libvast/src/transform_steps/{delete,hash,replace}.cpp.

    Slices are Arrow-encoded (others are converted first, table_slice.cpp:378-382). The
    steps of plugins outside of the core are left out. [None] is undefined behaviour or a
    failed assertion. *)
From Coq Require Import List ZArith NArith Bool Arith.
From Verif Require Import OperatorModel AddressModel DataModel TypeModel ArrowModel.
Import ListNotations.
Open Scope nat_scope.

Notation name := (list N).

(** The Arrow data types that [make_arrow_type] uses (arrow_table_slice_builder.cpp:673-702). *)
Inductive atype := TyNull | TyPrim (k : akind) | TyList (a : atype) | TyStruct (fs : list (name * atype)).
(** [arrow::DataType::Equals], as compared in [arrow_table_slice_builder::create]
    (arrow_table_slice_builder.cpp:628-632). *)
Definition akind_eqb (a b : akind) : bool :=
  match a, b with
  | KBool, KBool | KInt64, KInt64 | KUint64, KUint64 | KDouble, KDouble | KTimestamp, KTimestamp | KString, KString => true
  | KBinary n, KBinary m => n =? m
  | _, _ => false
  end.
(** Same. *)
Fixpoint atype_eqb (a b : atype) {struct a} : bool :=
  match a, b with
  | TyNull, TyNull => true
  | TyPrim k, TyPrim l => akind_eqb k l
  | TyList x, TyList y => atype_eqb x y
  | TyStruct fs, TyStruct gs =>
      (fix go (fs gs : list (name * atype)) : bool :=
         match fs, gs with
         | [], [] => true
         | (n, x) :: fs', (m, y) :: gs' => bytes_eqb n m && atype_eqb x y && go fs' gs'
         | _, _ => false
         end) fs gs
  | _, _ => false
  end.
(** [make_arrow_type] (arrow_table_slice_builder.cpp:673-702). *)
Fixpoint arrow_type (t : ty) : atype :=
  match t with
  | TNull | TNone _ => TyNull
  | TBasic _ b => TyPrim (kind_of b)
  | TEnum _ _ => TyPrim KUint64
  | TList _ v => TyList (arrow_type v)
  | TMap _ k v => TyList (TyStruct [(key_name, arrow_type k); (value_name, arrow_type v)])
  | TRecord _ fs => TyStruct (map (fun f => (fst f, arrow_type (snd f))) fs)
  | TAlias _ v => arrow_type v
  end.
(** [arrow::Array::type]. *)
Fixpoint arr_type (a : arr) : atype :=
  match a with
  | ANull _ => TyNull
  | APrim k _ => TyPrim k
  | AList _ c => TyList (arr_type c)
  | AStruct _ fs => TyStruct (map (fun f => (fst f, arr_type (snd f))) fs)
  end.

(** The type of a field and its name; [arrow::Schema]. Equality does not regard metadata. *)
Notation schema := (list (name * atype)).
Fixpoint schema_eqb (x y : schema) : bool :=
  match x, y with
  | [], [] => true
  | (n, a) :: x', (m, b) :: y' => bytes_eqb n m && atype_eqb a b && schema_eqb x' y'
  | _, _ => false
  end.
(** The leaves of a layout: [for (const auto& field : record_type::each(t))]. *)
Definition each (fs : list field) : option (list leaf) :=
  match each_begin fs with None => None | Some st => each_run (flat_size (TRecord no_meta fs)) st end.
(** [make_arrow_schema] (arrow_table_slice_builder.cpp:662-671). *)
Definition make_schema (fs : list field) : option schema :=
  option_map (map (fun l => (l_key l, arrow_type (l_type l)))) (each fs).

(** [arrow::RecordBatch]: named columns; the number of rows is stored. *)
Notation batch := (list (name * arr)).
(** A table slice: name and attributes of the layout, its fields, the record batch, the
    number of rows and the offset, [None] for [invalid_id] (table_slice.hpp:256). *)
Record tslice := { t_meta : meta; t_fields : list field; t_batch : batch; t_rows : nat; t_offset : option nat }.
(** [arrow_table_slice_builder::create] (arrow_table_slice_builder.cpp:577-619). *)
Definition create (m : meta) (fs : list field) (b : batch) (rows : nat) : option tslice :=
  match make_schema fs with
  | None => None
  | Some sc => if schema_eqb (map (fun c => (fst c, arr_type (snd c))) b) sc
               then Some {| t_meta := m; t_fields := fs; t_batch := b; t_rows := rows; t_offset := None |}
               else None
  end.

(** [arrow::RecordBatch::RemoveColumn] and [AddColumn], which check the index and the
    length of the column; [None] is their error. *)
Definition remove_column (b : batch) (i : nat) : option batch :=
  if i <? length b then Some (firstn i b ++ skipn (S i) b) else None.
Definition add_column (rows : nat) (b : batch) (i : nat) (n : name) (a : arr) : option batch :=
  if (i <=? length b) && (alen a =? rows) then Some (firstn i b ++ (n, a) :: skipn i b) else None.

(** A slot of an array: [arrow::Array::GetScalar]. *)
Inductive scalar := SNull | SPrim (k : akind) (p : prim) | SList (xs : list scalar) | SStruct (fs : list (name * scalar)).
Fixpoint slot (a : arr) (i : nat) {struct a} : scalar :=
  match a with
  | ANull _ => SNull
  | APrim k xs => match nth_error xs i with Some (Some p) => SPrim k p | _ => SNull end
  | AList xs c => match nth_error xs i with
                  | Some (true, s) => SList (map (slot c) (seq s (list_end xs (alen c) i - s)))
                  | _ => SNull
                  end
  | AStruct valid fs => match nth_error valid i with
                        | Some true => SStruct (map (fun f => (fst f, slot (snd f) i)) fs)
                        | _ => SNull
                        end
  end.

(** [data::basic_type] (data.cpp:121-129) for values with [is_basic]. *)
Definition basic_type (x : data) : option ty :=
  match x with
  | DNone => Some (TNone no_meta)
  | DBool _ => Some (TBasic no_meta BBool)
  | DInt _ => Some (TBasic no_meta BInteger)
  | DCount _ => Some (TBasic no_meta BCount)
  | DReal _ => Some (TBasic no_meta BReal)
  | DDuration _ => Some (TBasic no_meta BDuration)
  | DTime _ => Some (TBasic no_meta BTime)
  | DString _ => Some (TBasic no_meta BString)
  | DPattern _ => Some (TBasic no_meta BPattern)
  | DAddress _ => Some (TBasic no_meta BAddress)
  | DSubnet _ => Some (TBasic no_meta BSubnet)
  | DEnum _ => Some (TEnum no_meta [])
  | _ => None
  end.

(** The steps with their options (delete.cpp:20-21, hash.cpp:23-26, replace.cpp:21-25). *)
Inductive step :=
| Delete (field : name)
| Hash (field out : name) (salt : option name)
| Replace (field : name) (value : data).

Section Steps.
  (** The text of a scalar hashed with xxhash64 together with the salt, in hexadecimal
      (hash.cpp:76-82). *)
  Variable digest : scalar -> option name -> name.

  (** A column with one value in every row (replace.cpp:63-68). Answers of [add] are not looked at. *)
  Fixpoint fill (t : ty) (x : data) (n : nat) (a : arr) : option arr :=
    match n with
    | 0 => Some a
    | S m => match add t a x with None => None | Some (a', _) => fill t x m a' end
    end.
  (** The column of hashes (hash.cpp:72-85). *)
  Definition hashes (a : arr) (salt : option name) (rows : nat) : arr :=
    APrim KString (map (fun i => Some (PBytes (digest (slot a i) salt))) (seq 0 rows)).

  (** The Arrow overloads of the steps (delete.cpp:50-67, hash.cpp:61-93, replace.cpp:53-84) on the fields
      of a layout and a record batch. Errors yield no batch, which is dereferenced
      (transform.cpp:36-37). *)
  Definition run_step (st : step) (m : meta) (fs : list field) (b : batch) (rows : nat) : option (list field * batch) :=
    let field := match st with Delete f => f | Hash f _ _ => f | Replace f _ => f end in
    match resolve_key (TRecord m fs) field with
    | None => None
    | Some None => Some (fs, b)
    | Some (Some o) =>
      match flat_index_at fs o with
      | None => None
      | Some k =>
        match st with
        | Delete _ =>
          match remove_column b k, remove_at fs o with
          | Some b', Some fs' => Some (fs', b')
          | _, _ => None
          end
        | Hash _ out salt =>
          match nth_error b k with
          | None => None
          | Some (_, a) => option_map (fun b' => (fs ++ [(out, TBasic no_meta BString)], b')) (add_column rows b (length b) out (hashes a salt rows))
          end
        | Replace _ x =>
          match basic_type x with
          | None => None
          | Some t =>
            match make_column t with
            | None => None
            | Some a0 =>
              match fill t x rows a0, remove_column b k with
              | Some a, Some b' =>
                match add_column rows b' k field a, assign m fs o (field, t) with
                | Some b'', Some (Some (TRecord _ fs')) => Some (fs', b'')
                | _, _ => None
                end
              | _, _ => None
              end
            end
          end
        end
      end
    end.

  (** [transform_step::apply] and [arrow_transform_step::operator()] (transform.cpp:20-38). All
      steps have an Arrow overload, which is preferred. *)
  Definition apply_step (st : step) (s : tslice) : option tslice :=
    match run_step st (t_meta s) (t_fields s) (t_batch s) (t_rows s) with
    | None => None
    | Some (fs, b) => create (t_meta s) fs b (t_rows s)
    end.
  Fixpoint apply_steps (sts : list step) (s : tslice) : option tslice :=
    match sts with
    | [] => Some s
    | st :: r => match apply_step st s with None => None | Some s' => apply_steps r s' end
    end.

  (** A transform: the types of events it is for and its steps. *)
  Record transform := { tr_events : list name; tr_steps : list step }.
  Definition names_event (t : transform) (n : name) : bool := existsb (bytes_eqb n) (tr_events t).
  (** [transform::apply] (transform.cpp:60-75). *)
  Definition apply_transform (t : transform) (s : tslice) : option tslice :=
    if names_event t (m_name (t_meta s)) then apply_steps (tr_steps t) s else Some s.

  (** [layout_mapping_] of the constructor (transform.cpp:92-97) at a name: one entry per mention. *)
  Definition matching (ts : list transform) (n : name) : list transform :=
    flat_map (fun t => map (fun _ => t) (filter (bytes_eqb n) (tr_events t))) ts.
  (** [arrow_fast_path_] (transform.cpp:46-50): [add_step] tests the pointer that it moved away, so
      the flag only stays for a transform without steps. *)
  Definition fast_path (t : transform) : bool := match tr_steps t with [] => true | _ => false end.

  Inductive result := Done (s : tslice) | Failed.
  (** The loop of the generic path (transform.cpp:138-148). *)
  Fixpoint apply_all (ts : list transform) (size : nat) (s : tslice) : option result :=
    match ts with
    | [] => Some (Done s)
    | t :: r =>
      match apply_transform t s with
      | None => None
      | Some s' => if t_rows s' =? size then apply_all r size s' else Some Failed
      end
    end.
  (** [transformation_engine::apply] (transform.cpp:100-152). On the fast path no transform has
      steps, so only a new slice is created. *)
  Definition engine (ts : list transform) (s : tslice) : option result :=
    match matching ts (m_name (t_meta s)) with
    | [] => Some (Done s)
    | l =>
      if forallb fast_path l then option_map Done (create (t_meta s) (t_fields s) (t_batch s) (t_rows s))
      else match apply_all l (t_rows s) s with
           | None => None
           | Some Failed => Some Failed
           | Some (Done s') => Some (Done {| t_meta := t_meta s'; t_fields := t_fields s'; t_batch := t_batch s'; t_rows := t_rows s'; t_offset := t_offset s |})
           end
    end.
End Steps.

(** What is read from a slice: the types of its leaves and its columns (arrow_table_slice.cpp:694-716). *)
Definition view (s : tslice) : aslice :=
  {| as_cols := map snd (flatten_fields (t_fields s)); as_arrays := map snd (t_batch s); as_rows := t_rows s |}.
(** The full names of the columns. *)
Definition keys (s : tslice) : list name := map fst (flatten_fields (t_fields s)).
