(** Model of variable byte coding, libvast/vast/detail/varbyte.hpp. *)
From Coq Require Import List NArith Lia Bool.
Import ListNotations.
Open Scope N_scope.

(** Bytes are numbers below 256. *)

(** [encode<T>] (varbyte.hpp:64-75). [fuel] bounds the number of loop
    iterations; [encode] starts with enough ([VarbyteProofs.enc_fuel]). *)
Fixpoint enc (fuel : nat) (x : N) : list N :=
  match fuel with
  | O => []
  | S f =>
    if 127 <? x                                  (* while (x > 0x7f) *)
    then N.lor (N.land x 127) 128 :: enc f (N.shiftr x 7)
    else [N.land x 127]
  end.

Definition encode (x : N) : list N := enc (S (N.size_nat x)) x.

(** Width in which [static_cast<T>(..) << (7 * i)] is computed: narrow types
    are promoted to 32-bit int. *)
Definition shift_width (w : N) : N := if w <? 32 then 32 else w.

(** [decode<T>] for a [w]-bit T (varbyte.hpp:82-96). [None] is undefined
    behaviour: reading past the end of the source or shifting by at least the
    operand width. The result is the value and the number of bytes read. *)
Fixpoint dec (w : N) (i : N) (x : N) (src : list N) : option (N * N) :=
  match src with
  | [] => None
  | b :: src' =>
    if shift_width w <=? 7 * i then None else
    let x' := N.lor x (N.shiftl (N.land b 127) (7 * i)) mod 2 ^ w in
    if N.testbit b 7 then dec w (i + 1) x' src' else Some (x', i + 1)
  end.

Definition decode (w : N) (src : list N) : option (N * N) := dec w 0 0 src.

(** [size<T>] for a [w]-bit T (varbyte.hpp:19-44). *)
Definition size (w : N) (x : N) : N :=
  let ge k := 2 ^ k <=? x in
  if w =? 64 then
    (if ge 63 then 10 else if ge 56 then 9 else if ge 49 then 8
     else if ge 42 then 7 else if ge 35 then 6 else if ge 28 then 5
     else if ge 21 then 4 else if ge 14 then 3 else if ge 7 then 2 else 1)
  else if w =? 32 then
    (if ge 28 then 5 else if ge 21 then 4 else if ge 14 then 3
     else if ge 7 then 2 else 1)
  else if w =? 16 then (if ge 14 then 3 else if ge 7 then 2 else 1)
  else (if ge 7 then 2 else 1).

(** [max_size<T>] (varbyte.hpp:47-52); [digits] of an unsigned T is its width. *)
Definition max_size (w : N) : N :=
  if w mod 7 =? 0 then w / 7 else w / 7 + 1.
