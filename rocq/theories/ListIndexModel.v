(** Model of the index for lists (libvast/src/index/list_index.cpp) over an
    arbitrary index for the elements. Simplification: the bitmap index that holds
    the sizes (list_index.cpp:38-41, 77-78) is left out; no lookup reads it. *)
From Coq Require Import List NArith Bool.
From Verif Require Import OperatorModel BitmapOps CoderModel ValueIndexModel.
Import ListNotations.
Open Scope N_scope.

Section ListIndex.
  Context {B : Type} (ops : bitmap_ops B) {S V X : Type}.
  (** The index that [factory<value_index>::make(value_type_, options())] returns
      (list_index.cpp:65), and the state of a new one. *)
  Context (elem : index_impl B S V X) (fresh : S).

  (** Data members (list_index.hpp:51-54). *)
  Record lindex := { l_max : N; l_elements : list (vindex B S) }.

  (** A new index (list_index.cpp:28-42). *)
  Definition l_new (max : N) : lindex := {| l_max := max; l_elements := [] |}.

  (** The result of an append to an element index is ignored (list_index.cpp:76). *)
  Definition elem_append (e : vindex B S) (x : option V) (pos : N) : vindex B S :=
    match vi_append ops elem e x pos with Some e' => e' | None => e end.

  (** [append_impl] (list_index.cpp:56-84); list elements are values or nil. *)
  Definition l_append (s : lindex) (v : list (option V)) (pos : N) : option lindex :=
    let seq_size := Nat.min (length v) (N.to_nat (l_max s)) in
    let elements := l_elements s ++ repeat (vi_new ops fresh) (seq_size - length (l_elements s)) in
    Some {| l_max := l_max s;
            l_elements := mapi 0 (fun i e => if Nat.ltb i seq_size then elem_append e (nth i v None) pos else e) elements |}.

  (** The loop of [lookup_impl] (list_index.cpp:93-101). *)
  Fixpoint l_lookup_loop (es : list (vindex B S)) (x : X) (result : B) : option B :=
    match es with
    | [] => Some result
    | e :: es' =>
      match vi_lookup ops elem e op_eq (Some x) with
      | None => None
      | Some bm => l_lookup_loop es' x (b_or ops result bm)
      end
    end.
  (** [lookup_impl] (list_index.cpp:86-105). *)
  Definition l_lookup (s : lindex) (offset : N) (op : relop) (x : X) : option B :=
    match op with
    | op_ni | op_not_ni =>
      match l_elements s with
      | [] => Some (b_empty ops)
      | es => option_map (fun r => if relop_eqb op op_not_ni then b_not ops r else r) (l_lookup_loop es x (b_empty ops))
      end
    | _ => None
    end.

  Definition list_impl : index_impl B lindex (list (option V)) X := {| i_append := l_append; i_lookup := l_lookup |}.
End ListIndex.
Arguments lindex : clear implicits.
