(** Model of table slices and of the candidate check: libvast/src/table_slice.cpp
    and libvast/src/ids.cpp.

    A slice is a layout, an offset and rows of cells; how rows are encoded
    (src/msgpack_table_slice.cpp, src/arrow_table_slice.cpp) is left out, and a table
    slice builder accepts the values that another slice of its layout returned. An ID
    set is the list of its bits, which C01 to C05 justify. IDs are natural numbers:
    offsets plus rows stay below 2^64. *)
From Coq Require Import List ZArith NArith Bool Arith.
From Verif Require Import OperatorModel AddressModel DataModel TypeModel ExpressionModel.
Import ListNotations.
Open Scope nat_scope.

(** The layout is a [record_type]: its name and attributes, and its fields. *)
Record layout := { la_meta : meta; la_fields : list field }.
(** [table_slice] (table_slice.hpp:37-290). The offset [None] is [invalid_id]. *)
Record slice := { s_layout : layout; s_offset : option nat; s_rows : list (list data) }.
(** [offset(id)] (table_slice.cpp:252-255). *)
Definition with_offset (s : slice) (o : option nat) : slice :=
  {| s_layout := s_layout s; s_offset := o; s_rows := s_rows s |}.

(** * ID sets *)

(** [make_ids({{first, last}})] (ids.cpp:15-33); the assertion [first < last]. *)
Definition make_ids (first last : nat) : option (list bool) :=
  if first <? last then Some (repeat false first ++ repeat true (last - first)) else None.
(** The positions [select] yields (bitmap_algorithms.hpp:395-500), and [rank]. *)
Fixpoint ones_from (i : nat) (l : list bool) : list nat :=
  match l with [] => [] | b :: l' => (if b then [i] else []) ++ ones_from (S i) l' end.
Definition ones (l : list bool) : list nat := ones_from 0 l.
Definition rank1 (l : list bool) : nat := length (ones l).
(** [operator&]: the shorter set is padded with zeros. *)
Fixpoint and_bits (x y : list bool) : list bool :=
  match x, y with
  | a :: x', b :: y' => (a && b) :: and_bits x' y'
  | [], _ => map (fun _ => false) y
  | _, [] => map (fun _ => false) x
  end.

(** * Selecting rows *)

(** The state of the loop in [select] (table_slice.cpp:460-499): the rows in the
    builder, [last_offset], [last_id + 1] and the slices produced. *)
Record selecting := { sel_rows : list (list data); sel_first : nat; sel_next : nat; sel_out : list slice }.
(** [push_slice] (table_slice.cpp:461-471). *)
Definition push_slice (la : layout) (st : selecting) : selecting :=
  match sel_rows st with
  | [] => st
  | rs => {| sel_rows := []; sel_first := sel_first st; sel_next := sel_next st;
             sel_out := sel_out st ++ [{| s_layout := la; s_offset := Some (sel_first st); s_rows := rs |}] |}
  end.
(** The body of the loop (table_slice.cpp:474-497); [None] is a failed assertion. *)
Definition select_step (s : slice) (o : nat) (st : selecting) (id : nat) : option selecting :=
  let st1 := if sel_next st =? id
             then {| sel_rows := sel_rows st; sel_first := sel_first st; sel_next := S (sel_next st); sel_out := sel_out st |}
             else let p := push_slice (s_layout s) st in
                  {| sel_rows := sel_rows p; sel_first := id; sel_next := S id; sel_out := sel_out p |} in
  if id <? o then None
  else match nth_error (s_rows s) (id - o) with
       | None => None
       | Some row => Some {| sel_rows := sel_rows st1 ++ [row]; sel_first := sel_first st1;
                             sel_next := sel_next st1; sel_out := sel_out st1 |}
       end.
Fixpoint select_loop (s : slice) (o : nat) (st : selecting) (xs : list nat) : option selecting :=
  match xs with
  | [] => Some st
  | id :: xs' => match select_step s o st id with None => None | Some st' => select_loop s o st' xs' end
  end.
(** [select] (table_slice.cpp:425-506). The offset [invalid_id] is the largest 64-bit
    number, so that [offset + rows] wraps and the assertion of [make_ids] fails. *)
Definition select (s : slice) (selection : list bool) : option (list slice) :=
  match s_offset s with
  | None => None
  | Some o =>
    match make_ids o (o + length (s_rows s)) with
    | None => None
    | Some xs_ids =>
      let both := and_bits selection xs_ids in
      if rank1 both =? 0 then Some []
      else if rank1 xs_ids =? rank1 both then Some [s]
      else option_map (fun st => sel_out (push_slice (s_layout s) st))
             (select_loop s o {| sel_rows := []; sel_first := o; sel_next := o; sel_out := [] |} (ones both))
    end
  end.

(** [truncate] (table_slice.cpp:508-524). *)
Definition truncate (s : slice) (n : nat) : option slice :=
  if n =? 0 then None
  else if length (s_rows s) <=? n then Some s
  else
    let off := match s_offset s with None => 0 | Some o => o end in
    match make_ids off (off + n) with
    | None => None
    | Some ids =>
      match select (with_offset s (Some off)) ids with
      | Some [x] => Some (match s_offset s with None => with_offset x None | Some _ => x end)
      | _ => None
      end
    end.

(** [split] (table_slice.cpp:526-554). A default-constructed slice is [None]. *)
Definition split (s : slice) (p : nat) : option (option slice * option slice) :=
  if p =? 0 then Some (None, Some s)
  else if length (s_rows s) <=? p then Some (Some s, None)
  else
    let first := match s_offset s with None => 0 | Some o => o end in
    let t := with_offset s (Some first) in
    match make_ids first (first + p), make_ids (first + p) (first + length (s_rows s)) with
    | Some a, Some b =>
      match select t a, select t b with
      | Some [x], Some [y] =>
        Some (match s_offset s with
              | None => (Some (with_offset x None), Some (with_offset y None))
              | Some _ => (Some x, Some y)
              end)
      | _, _ => None
      end
    | _, _ => None
    end.

(** [rows] of several slices (table_slice.cpp:556-561). *)
Definition total_rows (xs : list slice) : nat := list_sum (map (fun s => length (s_rows s)) xs).

(** * Evaluating an expression on a row *)

(** [detail::ends_with] (detail/string.hpp:216-225). *)
Definition ends_with (s suffix : list N) : bool :=
  (length suffix <=? length s) && bytes_eqb (skipn (length s - length suffix) s) suffix.

(** [to_canonical] (view.cpp:329-339): aliases are not looked through. *)
Definition to_canonical (t : ty) (x : data) : data :=
  match x, t with
  | DEnum n, TEnum _ fields => match nth_error fields (N.to_nat n) with Some s => DString s | None => DNone end
  | _, _ => x
  end.

Section RowEvaluator.
  Variable re : regex.
  Variable la : layout.
  Variable row : list data.

  (** [all_of] and [any_of] with the first failing evaluation. *)
  Section Connective.
    Variable rec : expr -> option bool.
    Fixpoint all_of (es : list expr) : option bool :=
      match es with
      | [] => Some true
      | e :: es' => match rec e with Some true => all_of es' | r => r end
      end.
    Fixpoint any_of (es : list expr) : option bool :=
      match es with
      | [] => Some false
      | e :: es' => match rec e with Some false => any_of es' | r => r end
      end.
  End Connective.

  (** [row_evaluator] on an extractor and data (table_slice.cpp:616-656). [None]: an
      extractor that should have been resolved, an offset of the layout that is not a
      leaf, a missing cell, or an iteration over the layout that goes out of bounds. *)
  Definition row_extractor (op : relop) (x : operand) (d : data) : option bool :=
    match x with
    | OMeta MType => evaluate re (DString (m_name (la_meta la))) op d
    | OMeta MField =>
        match d with
        | DString s =>
            match each_list (la_fields la) with
            | None => None
            | Some ls =>
              let found := existsb (fun l => ends_with (m_name (la_meta la) ++ dot :: l_key l) s) ls in
              Some (if is_negated op then negb found else found)
            end
        | _ => Some false
        end
    | OData t o =>
        match flat_index_at (la_fields la) o with
        | None => None
        | Some col => match nth_error row col with
                      | None => None
                      | Some cell => evaluate_view re (to_canonical t cell) op d
                      end
        end
    | _ => None
    end.
  (** [row_evaluator] on predicates (table_slice.cpp:573-581, 611-614): with data on the
      left the operands are swapped and the operator is kept; two data operands recurse
      without end; two extractors are false. *)
  Definition row_pred (p : predicate) : option bool :=
    match p_lhs p, p_rhs p with
    | OVal _, OVal _ => None
    | OVal d, x | x, OVal d => row_extractor (p_op p) x d
    | _, _ => Some false
    end.
  (** [row_evaluator] (table_slice.cpp:565-662). *)
  Fixpoint row_eval (e : expr) : option bool :=
    match e with
    | ENone => Some false
    | EAnd es => all_of row_eval es
    | EOr es => any_of row_eval es
    | ENot x => option_map negb (row_eval x)
    | EPred p => row_pred p
    end.
End RowEvaluator.

(** Sequencing over the rows of a slice. *)
Fixpoint eval_rows (re : regex) (la : layout) (e : expr) (rows : list (list data)) : option (list bool) :=
  match rows with
  | [] => Some []
  | r :: rows' =>
    match row_eval re la r e, eval_rows re la e rows' with
    | Some b, Some bs => Some (b :: bs)
    | _, _ => None
    end
  end.
(** [evaluate] (table_slice.cpp:666-675): [append(false, offset)] with [invalid_id]
    exceeds the maximal size of a bitmap. *)
Definition evaluate_slice (re : regex) (e : expr) (s : slice) : option (list bool) :=
  match s_offset s with
  | None => None
  | Some o => option_map (fun bs => repeat false o ++ bs) (eval_rows re (s_layout s) e (s_rows s))
  end.

(** The rows of the selection that pass the check (table_slice.cpp:713-731): nothing
    is checked for the empty expression. *)
Fixpoint check_rows (re : regex) (e : expr) (s : slice) (o : nat) (xs : list nat) : option (list (list data)) :=
  match xs with
  | [] => Some []
  | id :: xs' =>
    if id <? o then None
    else match nth_error (s_rows s) (id - o) with
         | None => None
         | Some row =>
           match (if expr_eqb e ENone then Some true else row_eval re (s_layout s) row e), check_rows re e s o xs' with
           | Some b, Some rs => Some (if b then row :: rs else rs)
           | _, _ => None
           end
         end
  end.
(** The rows to look at (table_slice.cpp:680-688): empty hints are no restriction. *)
Definition candidates (o n : nat) (hints : list bool) : option (list bool * list bool) :=
  match make_ids o (o + n) with
  | None => None
  | Some slice_ids => Some (slice_ids, match hints with [] => slice_ids | _ => and_bits slice_ids hints end)
  end.
(** [filter] (table_slice.cpp:677-739). The outer option is a failed assertion. *)
Definition filter_slice (re : regex) (s : slice) (e : expr) (hints : list bool) : option (option slice) :=
  let o := match s_offset s with None => 0 | Some o => o end in
  match candidates o (length (s_rows s)) hints with
  | None => None
  | Some (slice_ids, selection) =>
    if rank1 selection =? 0 then Some None
    else if expr_eqb e ENone && (rank1 slice_ids =? rank1 selection) then Some (Some s)
    else match check_rows re e s o (ones selection) with
         | None => None
         | Some [] => Some None
         | Some rs => if length rs =? length (s_rows s) then Some (Some s)
                      else Some (Some {| s_layout := s_layout s; s_offset := None; s_rows := rs |})
         end
  end.
(** [count_matching] (table_slice.cpp:750-794): the offset is used as it is. *)
Definition count_matching (re : regex) (s : slice) (e : expr) (hints : list bool) : option nat :=
  match s_offset s with
  | None => None
  | Some o =>
    match candidates o (length (s_rows s)) hints with
    | None => None
    | Some (slice_ids, selection) =>
      if rank1 selection =? 0 then Some 0
      else if expr_eqb e ENone && (rank1 slice_ids =? rank1 selection) then Some (length (s_rows s))
      else option_map (fun rs : list (list data) => length rs) (check_rows re e s o (ones selection))
    end
  end.
