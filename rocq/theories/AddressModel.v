(** Model of IP addresses (libvast/src/address.cpp) and subnets
    (libvast/src/subnet.cpp). *)
From Coq Require Import List NArith Bool.
From Verif Require Import CoderModel.
Import ListNotations.
Open Scope N_scope.

(** An address is its 16 bytes in network order (address.hpp:135). *)
Notation address := (list N).

Fixpoint bytes_eqb (xs ys : list N) : bool :=
  match xs, ys with
  | [], [] => true
  | x :: xs', y :: ys' => (x =? y) && bytes_eqb xs' ys'
  | _, _ => false
  end.

(** [v4_mapped_prefix] (address.cpp:25-26). *)
Definition v4_prefix : list N := [0; 0; 0; 0; 0; 0; 0; 0; 0; 0; 255; 255].
(** [address::is_v4] (address.cpp:59-61). *)
Definition is_v4 (a : address) : bool := bytes_eqb (firstn 12 a) v4_prefix.
(** The default address (address.cpp:38-40). *)
Definition zero_address : address := repeat 0 16.

(** [bitmask32] (address.cpp:89-91). *)
Definition bitmask32 (n : N) : N := if 32 <=? n then 2 ^ 32 - 1 else 2 ^ n - 1.
(** The 32-bit mask [m[q]] of [address::mask] before the conversion to network
    order (address.cpp:98-103). *)
Definition mask_word (top q : N) : N :=
  let quot := top / 32 in
  if q <? quot then 2 ^ 32 - 1
  else if q =? quot then N.ldiff (2 ^ 32 - 1) (bitmask32 (32 - top mod 32))
  else 0.
(** Byte [j] of the mask as it lies in memory: words are in network order (the
    full and the empty word do not depend on it). *)
Definition mask_byte (top : N) (j : nat) : N :=
  N.land (N.shiftr (mask_word top (N.of_nat (Nat.div j 4))) (24 - 8 * N.of_nat (Nat.modulo j 4))) 255.
(** [address::mask] (address.cpp:95-108). *)
Definition addr_mask (a : address) (top : N) : address :=
  if 128 <? top then a else mapi 0 (fun j b => N.land b (mask_byte top j)) a.

(** [word<uint8_t>::msb_fill] (word.hpp:125-127). *)
Definition msb_fill8 (k : N) : N := N.land (N.shiftl 255 (8 - k)) 255.
(** The loop of [address::compare] (address.cpp:140-144). *)
Fixpoint compare_loop (xs ys : list N) (k : N) : option bool :=
  match xs, ys with
  | x :: xs', y :: ys' =>
    if 8 <? k then (if x =? y then compare_loop xs' ys' (k - 8) else Some false)
    else Some (N.land x (msb_fill8 k) =? N.land y (msb_fill8 k))
  | _, _ => None
  end.
(** [address::compare] (address.cpp:136-145); [None] is the failed assertion. *)
Definition addr_compare (a b : address) (k : N) : option bool :=
  if (0 <? k) && (k <=? 128) then compare_loop a b k else None.

(** [subnet] (subnet.hpp:67-68); the length counts from the first of 128 bits. *)
Record subnet := { sn_net : address; sn_bits : N }.

(** [subnet(address, uint8_t)] and [subnet::initialize] (subnet.cpp:22-28, 46-56). *)
Definition sn_make (a : address) (length : N) : subnet :=
  if is_v4 a then
    if 32 <? length then {| sn_net := zero_address; sn_bits := 0 |}
    else {| sn_net := addr_mask a (length + 96); sn_bits := length + 96 |}
  else if 128 <? length then {| sn_net := zero_address; sn_bits := 0 |}
  else {| sn_net := addr_mask a length; sn_bits := length |}.

(** [subnet::length] (subnet.cpp:42-44). *)
Definition sn_length (s : subnet) : N := if is_v4 (sn_net s) then sn_bits s - 96 else sn_bits s.

(** [subnet::contains(address)] (subnet.cpp:30-32). *)
Definition sn_contains (s : subnet) (a : address) : option bool := addr_compare a (sn_net s) (sn_bits s).
(** [subnet::contains(subnet)] (subnet.cpp:34-36). *)
Definition sn_includes (s other : subnet) : option bool :=
  if sn_bits s <=? sn_bits other then sn_contains s (sn_net other) else Some false.

(** [operator==] of subnets (subnet.cpp:58-60). *)
Definition sn_eqb (s t : subnet) : bool := bytes_eqb (sn_net s) (sn_net t) && (sn_bits s =? sn_bits t).
