(** Model of the value index base class (libvast/vast/value_index.hpp,
    libvast/src/value_index.cpp) and of lookups of lists
    (libvast/vast/index/container_lookup.hpp).

    The virtual functions [append_impl] and [lookup_impl] of a concrete index are
    the parameters [i_append] and [i_lookup]. [V] is the type of non-nil values a
    concrete index accepts, [X] the type of scalar operands, [S] its state.
    [None] as a result is an error. Both [ids] and [ewah_bitmap] are bitmaps with
    the operations of [bitmap_ops]. *)
From Coq Require Import List NArith Bool.
From Verif Require Import OperatorModel BitmapOps.
Import ListNotations.
Open Scope N_scope.

Section ValueIndex.
  Context {B : Type} (ops : bitmap_ops B) {S V X : Type}.

  (** The virtual functions (value_index.hpp:88-91). *)
  Record index_impl := {
    i_append : S -> V -> N -> option S;       (** [append_impl(x, pos)] *)
    i_lookup : S -> N -> relop -> X -> option B  (** [lookup_impl(op, x)] for a scalar; the number is [offset()] *)
  }.
  Variable impl : index_impl.

  (** Data members (value_index.hpp:95-96) and the state of the subclass. *)
  Record vindex := { vi_mask : B; vi_none : B; vi_state : S }.

  (** A new index (value_index.cpp:18-21). *)
  Definition vi_new (s : S) : vindex := {| vi_mask := b_empty ops; vi_none := b_empty ops; vi_state := s |}.

  (** [value_index::offset] (value_index.cpp:87-89). *)
  Definition vi_offset (i : vindex) : N := N.max (b_size ops (vi_none i)) (b_size ops (vi_mask i)).

  (** [value_index::append] with a position (value_index.cpp:31-47); the value
      [None] is nil. *)
  Definition vi_append (i : vindex) (x : option V) (pos : N) : option vindex :=
    if pos <? vi_offset i then None
    else
      match x with
      | None =>
        Some {| vi_mask := vi_mask i;
                vi_none := b_app ops (b_app ops (vi_none i) false (pos - b_size ops (vi_none i))) true 1;
                vi_state := vi_state i |}
      | Some v =>
        match i_append impl (vi_state i) v pos with
        | None => None
        | Some s =>
          Some {| vi_mask := b_app ops (b_app ops (vi_mask i) false (pos - b_size ops (vi_mask i))) true 1;
                  vi_none := vi_none i;
                  vi_state := s |}
        end
      end.

  (** [value_index::append] without a position (value_index.cpp:27-29). *)
  Definition vi_append_next (i : vindex) (x : option V) : option vindex := vi_append i x (vi_offset i).

  (** Lookup of nil (value_index.cpp:51-61). *)
  Definition vi_lookup_nil (i : vindex) (op : relop) : option B :=
    match op with
    | op_eq | op_ne =>
      let is_equal := relop_eqb op op_eq in
      let result := if is_equal then vi_none i else b_not ops (vi_none i) in
      Some (if b_size ops result <? b_size ops (vi_mask i)
            then b_app ops result (negb is_equal) (b_size ops (vi_mask i) - b_size ops result)
            else result)
    | _ => None
    end.

  (** What [lookup] does with the result of [lookup_impl] (value_index.cpp:66-80). *)
  Definition vi_finish (i : vindex) (op : relop) (r : B) : B :=
    let r1 := b_and ops r (vi_mask i) in
    let is_negation := relop_eqb op op_ne in
    let r2 := if is_negation then b_or ops r1 (vi_none i) else r1 in
    if b_size ops r2 <? vi_offset i then b_app ops r2 is_negation (vi_offset i - b_size ops r2) else r2.

  (** [value_index::lookup] for nil ([None]) or a scalar (value_index.cpp:49-81). *)
  Definition vi_lookup (i : vindex) (op : relop) (x : option X) : option B :=
    match x with
    | None => vi_lookup_nil i op
    | Some x => option_map (vi_finish i op) (i_lookup impl (vi_state i) (vi_offset i) op x)
    end.

  (** The loops of [container_lookup_impl] (container_lookup.hpp:33-41, 44-52);
      elements are nil or scalars. *)
  Fixpoint container_in (i : vindex) (xs : list (option X)) (result : B) : option B :=
    match xs with
    | [] => Some result
    | x :: xs' =>
      match vi_lookup i op_eq x with
      | None => None
      | Some r =>
        let result := b_or ops result r in
        if b_all ops true result then Some result else container_in i xs' result
      end
    end.
  Fixpoint container_not_in (i : vindex) (xs : list (option X)) (result : B) : option B :=
    match xs with
    | [] => Some result
    | x :: xs' =>
      match vi_lookup i op_eq x with
      | None => None
      | Some r =>
        let result := b_diff ops result r in
        if b_all ops false result then Some result else container_not_in i xs' result
      end
    end.

  (** [container_lookup_impl] (container_lookup.hpp:26-57). *)
  Definition container_lookup (i : vindex) (op : relop) (xs : list (option X)) : option B :=
    match op with
    | op_in => container_in i xs (b_new ops (vi_offset i) false)
    | op_not_in => container_not_in i xs (b_new ops (vi_offset i) true)
    | _ => None
    end.

  (** [value_index::lookup] of a list for the indexes whose [lookup_impl] calls
      [container_lookup]. *)
  Definition vi_lookup_list (i : vindex) (op : relop) (xs : list (option X)) : option B :=
    option_map (vi_finish i op) (container_lookup i op xs).
End ValueIndex.
Arguments index_impl : clear implicits.
Arguments vindex : clear implicits.
