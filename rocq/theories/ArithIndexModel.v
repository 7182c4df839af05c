(** Model of bitmap indexes (libvast/vast/bitmap_index.hpp) and of the index for
    arithmetic types (libvast/vast/index/arithmetic_index.hpp), for operands of
    the type of the column. *)
From Coq Require Import List ZArith NArith Bool.
From Verif Require Import OperatorModel BitmapOps CoderModel OrderModel ValueIndexModel.
Import ListNotations.
Open Scope N_scope.

(** * Keys: [transform(binner_type::bin(x))] *)

(** [count]: identity binner, unsigned order (arithmetic_index.hpp:78, order.hpp:28-30). *)
Definition count_key (x : N) : option N := Some x.
Definition count_qkey (op : relop) (x : N) : option N := Some x.
(** [integer]: identity binner, signed order (arithmetic_index.hpp:78, order.hpp:31-36). *)
Definition integer_key (x : Z) : option N := Some (order_signed x).
Definition integer_qkey (op : relop) (x : Z) : option N := Some (order_signed x).

(** The adjustment of a binned operand for [>] and [<] (bitmap_index.hpp:90-95). *)
Definition adjust (op : relop) (b : Z) : Z :=
  match op with op_gt => (b - 1)%Z | op_lt => (b + 1)%Z | _ => b end.

(** [time] and [duration]: their 64-bit count of nanoseconds in buckets of
    [10^9] (arithmetic_index.hpp:73-74); [transform] for types that are not
    floating point (bitmap_index.hpp:144-148). *)
Definition second : N := 10 ^ 9.
Definition temporal_key (bucket : N) (x : Z) : option N := Some (order_signed (decimal_bin bucket x)).
Definition temporal_qkey (bucket : N) (op : relop) (x : Z) : option N :=
  Some (order_signed (adjust op (decimal_bin bucket x))).

(** [real]: precision binner with 10 integral digits (arithmetic_index.hpp:76-77),
    hence [digits2 = 34] (binner.hpp:67) and a right shift of [52 - 34] bits
    (bitmap_index.hpp:138-142). Adding or subtracting 1 is exact for the
    integers the binner yields. *)
Definition real_shift (n : Z) : option N := option_map (fun k => k / 2 ^ 18) (order_double (double_of_int n)).
Definition real_key (p : N) : option N :=
  match precision_bin p with None => None | Some n => real_shift n end.
Definition real_qkey (op : relop) (p : N) : option N :=
  match precision_bin p with None => None | Some n => real_shift (adjust op n) end.

(** [base::uniform<64>(8)] (base.hpp:41-46, arithmetic_index.hpp:97):
    [ceil(64 / 3) = 22] components. *)
Definition default_base : list N := repeat 8 22.

Section ArithIndex.
  Context {B : Type} (ops : bitmap_ops B).

  (** [arithmetic_index<T>] for types other than [bool] (arithmetic_index.hpp:118-157,
      bitmap_index.hpp:55-97): a multi-level range coder over keys. *)
  Definition numeric_impl {V} (key : V -> option N) (qkey : relop -> V -> option N) : index_impl B (mcoder B) V V := {|
    i_append := fun s v pos =>
      match key v with
      | None => None
      | Some k => ml_encode (range_encode ops) (ml_skip s (pos - ml_size s)) k 1
      end;
    i_lookup := fun s _ op x =>
      match qkey op x with
      | None => None
      | Some k => ml_range_decode ops s op k
      end
  |}.

  (** [arithmetic_index<bool>]: a singleton coder (arithmetic_index.hpp:60-64). *)
  Definition bool_impl : index_impl B B bool bool := {|
    i_append := fun s v pos => Some (single_encode ops (single_skip ops s (pos - b_size ops s)) v 1);
    i_lookup := fun s _ op x => single_decode ops s op x
  |}.
End ArithIndex.
