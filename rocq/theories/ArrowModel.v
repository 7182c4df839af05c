(** Model of Arrow-encoded table slices: libvast/src/arrow_table_slice_builder.cpp and
    libvast/src/arrow_table_slice.cpp.

    The Arrow library is modelled by what its builders collect: an array is the sequence
    of its slots, and writing it to a buffer and back is the identity. Left out: failures
    of allocation, the limit of 2^31 bytes or elements per column, and the serialized
    form. Numbers are in the range of their C++ types. *)
From Coq Require Import List ZArith NArith Bool Arith.
From Verif Require Import OperatorModel AddressModel DataModel TypeModel.
Import ListNotations.
Open Scope nat_scope.

(** The Arrow types of columns without nested values (arrow_table_slice_builder.cpp:60-240). *)
Inductive akind := KBool | KInt64 | KUint64 | KDouble | KTimestamp | KString | KBinary (width : nat).
(** The content of a slot. *)
Inductive prim := PBool (b : bool) | PInt (z : Z) | PUint (n : N) | PBytes (s : list N).
(** Arrays, and their builders: slots that may be null; for lists the slots have a start
    in the array of elements and end at the next start; for structs a validity per row. *)
Inductive arr :=
| ANull (n : nat)
| APrim (k : akind) (xs : list (option prim))
| AList (starts : list (bool * nat)) (child : arr)
| AStruct (valid : list bool) (fields : list (list N * arr)).

(** [arrow::Array::length]. *)
Definition alen (a : arr) : nat :=
  match a with ANull n => n | APrim _ xs => length xs | AList xs _ => length xs | AStruct v _ => length v end.
(** [arrow::ArrayBuilder::AppendNull]; for structs also on the children. *)
Fixpoint append_null (a : arr) : arr :=
  match a with
  | ANull n => ANull (S n)
  | APrim k xs => APrim k (xs ++ [None])
  | AList xs c => AList (xs ++ [(false, alen c)]) c
  | AStruct v fs => AStruct (v ++ [false]) (map (fun f => (fst f, append_null (snd f))) fs)
  end.

(** The Arrow type per basic type (arrow_table_slice_builder.cpp:60-240). *)
Definition kind_of (b : basic) : akind :=
  match b with
  | BBool => KBool | BCount => KUint64 | BReal => KDouble | BInteger | BDuration => KInt64
  | BTime => KTimestamp | BString | BPattern => KString | BAddress => KBinary 16 | BSubnet => KBinary 17
  end.
(** The field names "key" and "value". *)
Definition key_name : list N := [107; 101; 121]%N.
Definition value_name : list N := [118; 97; 108; 117; 101]%N.
(** [column_builder::make] (arrow_table_slice_builder.cpp:462-495): an empty builder. A null
    type visits as [none_type] (type.cpp:122-124). *)
Fixpoint make_column (t : ty) : option arr :=
  match t with
  | TNull | TNone _ => Some (ANull 0)
  | TBasic _ b => Some (APrim (kind_of b) [])
  | TEnum _ _ => Some (APrim KUint64 [])
  | TList _ v => option_map (AList []) (make_column v)
  | TMap _ k v => match make_column k, make_column v with
                  | Some a, Some b => Some (AList [] (AStruct [] [(key_name, a); (value_name, b)]))
                  | _, _ => None
                  end
  | TRecord _ fs =>
      option_map (AStruct [])
        ((fix go (fs : list field) : option (list (list N * arr)) :=
            match fs with
            | [] => Some []
            | (n, t) :: r => match make_column t, go r with Some a, Some l => Some ((n, a) :: l) | _, _ => None end
            end) fs)
  | TAlias _ v => make_column v
  end.

(** [Trait::append] (arrow_table_slice_builder.cpp:44-240) for a view of the type of the
    column. *)
Definition to_prim (b : basic) (x : data) : option prim :=
  match b, x with
  | BBool, DBool v => Some (PBool v)
  | BInteger, DInt z => Some (PInt z)
  | BCount, DCount n => Some (PUint n)
  | BReal, DReal p => Some (PUint p)
  | BDuration, DDuration z => Some (PInt z)
  | BTime, DTime z => Some (PInt z)
  | BString, DString s => Some (PBytes s)
  | BPattern, DPattern s => Some (PBytes s)
  | BAddress, DAddress a => Some (PBytes a)
  | BSubnet, DSubnet s => Some (PBytes (sn_net s ++ [sn_length s]))
  | _, _ => None
  end.
(** Adding a sequence of values, up to the first failure. *)
Fixpoint add_each {A B : Type} (f : A -> B -> option (A * bool)) (a : A) (ys : list B) : option (A * bool) :=
  match ys with
  | [] => Some (a, true)
  | y :: r => match f a y with
              | None => None
              | Some (a', false) => Some (a', false)
              | Some (a', true) => add_each f a' r
              end
  end.
(** Adding the values of a record to the builders of its fields by position
    (arrow_table_slice_builder.cpp:429-433); [None] behind the last builder. *)
Fixpoint add_fields (adds : list (arr -> data -> option (arr * bool))) (fs : list (list N * arr)) (ys : list (list N * data))
  : option (list (list N * arr) * bool) :=
  match ys with
  | [] => Some (fs, true)
  | (_, y) :: r =>
    match adds, fs with
    | f :: adds', (n, a) :: fs' =>
      match f a y with
      | None => None
      | Some (a', false) => Some ((n, a') :: fs', false)
      | Some (a', true) => match add_fields adds' fs' r with None => None | Some (l, ok) => Some ((n, a') :: l, ok) end
      end
    | _, _ => None
    end
  end.
(** [column_builder::add] (arrow_table_slice_builder.cpp:256-263, 299-313, 364-377, 418-434):
    the builder afterwards and whether the value was accepted. [None] is undefined. *)
Fixpoint add (t : ty) (a : arr) (x : data) {struct t} : option (arr * bool) :=
  match t, a with
  | TAlias _ v, _ => add v a x
  | TNull, ANull n | TNone _, ANull n => match x with DNone => Some (ANull (S n), true) | _ => Some (a, false) end
  | TBasic _ b, APrim k xs =>
    match x with
    | DNone => Some (append_null a, true)
    | _ => match to_prim b x with Some p => Some (APrim k (xs ++ [Some p]), true) | None => Some (a, false) end
    end
  | TEnum _ _, APrim k xs =>
    match x with
    | DNone => Some (append_null a, true)
    | DEnum n => Some (APrim k (xs ++ [Some (PUint n)]), true)
    | _ => Some (a, false)
    end
  | TList _ v, AList xs c =>
    match x with
    | DNone => Some (append_null a, true)
    | DList ys => match add_each (add v) c ys with
                  | None => None
                  | Some (c', ok) => Some (AList (xs ++ [(true, alen c)]) c', ok)
                  end
    | _ => Some (AList (xs ++ [(true, alen c)]) c, false)
    end
  | TMap _ kt vt, AList xs c =>
    match x with
    | DNone => Some (append_null a, true)
    | DMap ys =>
      match add_each (fun c y => match c with
                                 | AStruct valid [(kn, ka); (vn, va)] =>
                                   match add kt ka (fst y) with
                                   | None => None
                                   | Some (ka', false) => Some (AStruct (valid ++ [true]) [(kn, ka'); (vn, va)], false)
                                   | Some (ka', true) =>
                                     match add vt va (snd y) with
                                     | None => None
                                     | Some (va', ok) => Some (AStruct (valid ++ [true]) [(kn, ka'); (vn, va')], ok)
                                     end
                                   end
                                 | _ => None
                                 end) c ys with
      | None => None
      | Some (c', ok) => Some (AList (xs ++ [(true, alen c)]) c', ok)
      end
    | _ => Some (AList (xs ++ [(true, alen c)]) c, false)
    end
  | TRecord _ fs, AStruct valid cs =>
    match x with
    | DNone => Some (append_null a, true)
    | DRecord ys => match add_fields (map (fun f => add (snd f)) fs) cs ys with
                    | None => None
                    | Some (cs', ok) => Some (AStruct (valid ++ [true]) cs', ok)
                    end
    | _ => Some (a, false)
    end
  | _, _ => None
  end.

(** The value of a slot per type (arrow_table_slice.cpp:269-342, 386-441). Binary slots are read
    with the width of the type, so another width of the column is undefined. *)
Definition of_prim (k : akind) (b : basic) (p : prim) : option data :=
  match b, p with
  | BBool, PBool v => Some (DBool v)
  | BInteger, PInt z => Some (DInt z)
  | BCount, PUint n => Some (DCount n)
  | BReal, PUint n => Some (DReal n)
  | BDuration, PInt z => Some (DDuration z)
  | BTime, PInt z => Some (DTime z)
  | BString, PBytes s => Some (DString s)
  | BPattern, PBytes s => Some (DPattern s)
  | BAddress, PBytes s => match k with KBinary 16 => Some (DAddress s) | _ => None end
  | BSubnet, PBytes s => match k with KBinary 17 => Some (DSubnet (sn_make (firstn 16 s) (nth 16 s 0%N))) | _ => None end
  | _, _ => None
  end.
(** Which types an array is decoded for (arrow_table_slice.cpp:117-263). *)
Definition decodes (k : akind) (b : basic) : bool :=
  match k, b with
  | KBool, BBool | KInt64, BInteger | KInt64, BDuration | KUint64, BCount | KDouble, BReal | KTimestamp, BTime
  | KString, BString | KString, BPattern | KBinary _, BAddress | KBinary _, BSubnet => true
  | _, _ => false
  end.
(** The end of list [i]: the next start, or the end of the elements. *)
Definition list_end (xs : list (bool * nat)) (n i : nat) : nat :=
  match nth_error xs (S i) with Some (_, s) => s | None => n end.
Fixpoint all_some {A : Type} (l : list (option A)) : option (list A) :=
  match l with
  | [] => Some []
  | Some x :: r => option_map (cons x) (all_some r)
  | None :: _ => None
  end.
Definition both_some {A B : Type} (a : option A) (b : option B) : option (A * B) :=
  match a, b with Some x, Some y => Some (x, y) | _, _ => None end.
(** [arrow::StructArray::GetFieldByName] finds a field only if no other has its name; it
    must be the one at the position (arrow_table_slice.cpp:99-105). *)
Definition unique_name (n : list N) (fs : list (list N * arr)) : bool :=
  length (filter (fun f => bytes_eqb (fst f) n) fs) =? 1.
(** The fields of a record (arrow_table_slice.cpp:90-115), by position. *)
Fixpoint read_fields (all : list (list N * arr)) (gets : list (list N * (arr -> option data))) (fs : list (list N * arr))
  : option (list (list N * data)) :=
  match fs with
  | [] => Some []
  | (n, a) :: fs' =>
    match gets with
    | [] => None
    | (m, g) :: gets' =>
      if bytes_eqb n m && unique_name m all then
        match g a, read_fields all gets' fs' with
        | Some x, Some l => Some ((m, x) :: l)
        | _, _ => None
        end
      else None
    end
  end.
(** [value_at] with [decode] and [row_picker] (arrow_table_slice.cpp:44-88, 117-263, 344-471). Views of
    containers are read to the end. A type that does not go with the array is a warning and
    a null; this includes aliases. *)
Fixpoint value_at (t : ty) (a : arr) (row : nat) {struct t} : option data :=
  match a, t with
  | APrim k xs, TBasic _ b =>
    if decodes k b then
      match nth_error xs row with None => None | Some None => Some DNone | Some (Some p) => of_prim k b p end
    else Some DNone
  | APrim KUint64 xs, TEnum _ _ =>
    match nth_error xs row with
    | None => None
    | Some None => Some DNone
    | Some (Some (PUint n)) => Some (DEnum (n mod 256))
    | Some (Some _) => None
    end
  | AList xs c, TList _ v =>
    match nth_error xs row with
    | None => None
    | Some (false, _) => Some DNone
    | Some (true, s) => option_map DList (all_some (map (value_at v c) (seq s (list_end xs (alen c) row - s))))
    end
  | AList xs c, TMap _ kt vt =>
    match nth_error xs row with
    | None => None
    | Some (false, _) => Some DNone
    | Some (true, s) =>
      match c with
      | AStruct _ [(_, ka); (_, va)] =>
        option_map DMap (all_some (map (fun i => both_some (value_at kt ka i) (value_at vt va i))
                                       (seq s (list_end xs (alen c) row - s))))
      | _ => None
      end
    end
  | AStruct valid fs, TRecord _ gs =>
    match nth_error valid row with
    | None => None
    | Some false => Some DNone
    | Some true => option_map DRecord (read_fields fs (map (fun g => (fst g, fun c => value_at (snd g) c row)) gs) fs)
    end
  | _, _ => Some DNone
  end.

(** * Table slices *)

(** [arrow_table_slice_builder]: one column builder per leaf of the layout. *)
Record builder := { b_column : nat; b_rows : nat; b_arrays : list arr }.
(** The constructor (arrow_table_slice_builder.cpp:636-648) with [cols], the types of the leaves
    of the layout (TypeModel, [each_run]). *)
Definition new_builder (cols : list ty) : option builder :=
  option_map (fun l => {| b_column := 0; b_rows := 0; b_arrays := l |}) (all_some (map make_column cols)).
(** Replacing the element at a position. *)
Fixpoint set_nth {A : Type} (i : nat) (x : A) (l : list A) : list A :=
  match l, i with
  | [], _ => []
  | _ :: r, 0 => x :: r
  | y :: r, S j => y :: set_nth j x r
  end.
(** [add_impl] (arrow_table_slice_builder.cpp:650-658). *)
Definition add_impl (cols : list ty) (b : builder) (x : data) : option (builder * bool) :=
  match nth_error cols (b_column b), nth_error (b_arrays b) (b_column b) with
  | Some t, Some a =>
    match add t a x with
    | None => None
    | Some (a', ok) =>
      let l := set_nth (b_column b) a' (b_arrays b) in
      if ok then
        if S (b_column b) =? length (b_arrays b) then Some ({| b_column := 0; b_rows := S (b_rows b); b_arrays := l |}, true)
        else Some ({| b_column := S (b_column b); b_rows := b_rows b; b_arrays := l |}, true)
      else Some ({| b_column := b_column b; b_rows := b_rows b; b_arrays := l |}, false)
    end
  | _, _ => None
  end.
(** A sequence of values, each with its answer. *)
Fixpoint add_values (cols : list ty) (b : builder) (xs : list data) : option (builder * list bool) :=
  match xs with
  | [] => Some (b, [])
  | x :: r => match add_impl cols b x with
              | None => None
              | Some (b', ok) => match add_values cols b' r with None => None | Some (b'', l) => Some (b'', ok :: l) end
              end
  end.
(** A slice: types, arrays and the number of rows. [finish]
    (arrow_table_slice_builder.cpp:519-575). *)
Record aslice := { as_cols : list ty; as_arrays : list arr; as_rows : nat }.
Definition finish (cols : list ty) (b : builder) : option aslice :=
  if b_column b =? 0 then Some {| as_cols := cols; as_arrays := b_arrays b; as_rows := b_rows b |} else None.
(** [at] without a type (table_slice.cpp:320-333, arrow_table_slice.cpp:694-704): the type of a
    column is that of the leaf with its index. *)
Definition at_ (s : aslice) (row column : nat) : option data :=
  if (row <? as_rows s) && (column <? length (as_arrays s)) then
    match nth_error (as_cols s) column, nth_error (as_arrays s) column with
    | Some t, Some a => value_at t a row
    | _, _ => None
    end
  else None.
(** [at] with a type (table_slice.cpp:335-350, arrow_table_slice.cpp:706-716). *)
Definition at_typed (s : aslice) (row column : nat) (t : ty) : option data :=
  if (row <? as_rows s) && (column <? length (as_arrays s)) then
    match nth_error (as_cols s) column, nth_error (as_arrays s) column with
    | Some u, Some a => if congruent u (strip t) then value_at (strip t) a row else None
    | _, _ => None
    end
  else None.
(** [append_column_to_index] with [index_applier] (arrow_table_slice.cpp:473-590, 682-692): the
    appended values with their IDs. Nulls are skipped; a type that does not go with the
    array is a warning. *)
Definition to_index (s : aslice) (first column : nat) : option (list (nat * data)) :=
  match nth_error (as_cols s) column, nth_error (as_arrays s) column with
  | Some t, Some a =>
    option_map (fun l => filter (fun p => negb (data_eqb (snd p) DNone)) (combine (seq first (alen a)) l))
      (all_some (map (value_at t a) (seq 0 (alen a))))
  | _, _ => None
  end.
