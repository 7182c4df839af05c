(** Model of the order-preserving key transformation
    (libvast/vast/detail/order.hpp) and of the binning policies
    (libvast/vast/binner.hpp).

    A [double] is its IEEE 754 bit pattern, a number below [2^64]: sign bit 63,
    exponent bits 52-62, significand bits 0-51. *)
From Coq Require Import ZArith NArith Bool.
Open Scope N_scope.

(** The conversion of a signed 64-bit number to [uint64_t]. *)
Definition to_u64 (x : Z) : N := Z.to_N (x mod 2 ^ 64).
(** The conversion of a [uint64_t] to [int64_t]. *)
Definition to_i64 (x : N) : Z := if x <? 2 ^ 63 then Z.of_N x else (Z.of_N x - 2 ^ 64)%Z.

(** [order] of a signed 64-bit integer (order.hpp:32-36): adds [2^63] modulo [2^64]. *)
Definition order_signed (x : Z) : N := (to_u64 x + 2 ^ 63) mod 2 ^ 64.

(** Fields of a [double] (order.hpp:58-62). *)
Definition d_neg (p : N) : bool := 2 ^ 63 <=? p.
Definition d_exp (p : N) : N := (p / 2 ^ 52) mod 2 ^ 11.
Definition d_sig (p : N) : N := p mod 2 ^ 52.
(** [std::isnan]. *)
Definition d_nan (p : N) : bool := (d_exp p =? 2047) && negb (d_sig p =? 0).

(** [order] of a [double] (order.hpp:38-83). [None] is the failed assertion for
    NaN. Bitwise or of disjoint fields is written as addition. *)
Definition order_double (p : N) : option N :=
  if d_nan p then None
  else if (d_exp p =? 0) && (d_sig p =? 0) then Some (2 ^ 63 - 1)                  (* FP_ZERO *)
  else if d_exp p =? 2047 then Some (if d_neg p then 0 else 2 ^ 64 - 1)            (* FP_INFINITE *)
  else if d_exp p =? 0 then Some (if d_neg p then 2 ^ 63 - 2 else 2 ^ 63)          (* FP_SUBNORMAL *)
  else if negb (d_neg p) then Some (d_exp p * 2 ^ 52 + 2 ^ 63 + d_sig p + 1)       (* FP_NORMAL *)
  else Some ((2047 - d_exp p) * 2 ^ 52 + (2 ^ 52 - 1 - d_sig p) - 1).

(** [decimal_binner<E>::bin] on [int64_t] with [bucket = 10^E] (binner.hpp:36-39):
    [bucket_size] is unsigned, so the division is one of [uint64_t]. *)
Definition decimal_bin (bucket : N) (x : Z) : Z := to_i64 (to_u64 x / bucket).

(** The value of a [double] in units of [2^-1074]; infinities get the value one
    above the largest finite number. *)
Definition d_value (p : N) : Z :=
  let mag := if d_exp p =? 0 then Z.of_N (d_sig p) else (Z.of_N (2 ^ 52 + d_sig p) * 2 ^ (Z.of_N (d_exp p) - 1))%Z in
  if d_neg p then (- mag)%Z else mag.

(** [precision_binner<10, 0>::bin] on [double] (binner.hpp:69-83), as the integer
    value of the result. [std::modf] splits the magnitude into integral and
    fractional part; with no fractional digits [f] is rounded half away from
    zero. All results are integers of at most [10^10], which [double] represents
    exactly. [None] stands for NaN. *)
Definition integral_max : Z := (10 ^ 10)%Z.
Definition precision_bin (p : N) : option Z :=
  if d_nan p then None
  else
    let mag := Z.abs (d_value p) in
    let i := (mag / 2 ^ 1074)%Z in
    let f := (mag mod 2 ^ 1074)%Z in
    let b := if (integral_max <=? i)%Z then integral_max
             else (i + (if (2 ^ 1074 <=? 2 * f)%Z then 1 else 0))%Z in
    Some (if d_neg p then (- b)%Z else b).

(** The bit pattern of the [double] with an integer value of magnitude below [2^53]. *)
Definition double_of_int (n : Z) : N :=
  if (n =? 0)%Z then 0
  else
    let m := Z.to_N (Z.abs n) in
    let k := N.log2 m in
    (if (n <? 0)%Z then 2 ^ 63 else 0) + (1023 + k) * 2 ^ 52 + (m - 2 ^ k) * 2 ^ (52 - k).
