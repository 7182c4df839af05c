(** Model of [word<uint64_t>] (libvast/vast/word.hpp) and of
    [bits<uint64_t>] (libvast/vast/bits.hpp).

    Blocks are numbers below [2^64]; every shift to the left and every
    complement wraps explicitly. Sizes and positions are [N]; [npos] is an
    optional result [None]. *)
From Coq Require Import List NArith Bool.
Import ListNotations.
Open Scope N_scope.

(** [word::width] (word.hpp:55) for 64-bit blocks (bitmap_base.hpp:59). *)
Definition width : N := 64.
(** Truncation to a block. *)
Definition wrap (x : N) : N := x mod 2 ^ 64.
(** [none], [all], [msb1], [lsb1] (word.hpp:66-78). *)
Definition none : N := 0.
Definition all : N := N.ones 64.
Definition msb1 : N := 2 ^ 63.
Definition lsb1 : N := 1.
(** The C++ operators [~x], [x << i] (for [i < 64]) and [x >> i] on blocks. *)
Definition wnot (x : N) : N := N.lxor x all.
Definition wshl (x i : N) : N := wrap (N.shiftl x i).
Definition wshr (x i : N) : N := N.shiftr x i.
(** [lsb0] (word.hpp:81). *)
Definition lsb0 : N := wnot lsb1.

(** [mask] (word.hpp:89-91). *)
Definition mask (i : N) : N := wshl lsb1 i.
(** [lsb_mask] (word.hpp:98-100), for [i < 64]. *)
Definition lsb_mask (i : N) : N := wnot (wshl all i).
(** [lsb_fill] (word.hpp:107-109), for [0 < i <= 64]. *)
Definition lsb_fill (i : N) : N := wshr all (width - i).
(** [msb_mask] (word.hpp:116-118), for [i < 64]. *)
Definition msb_mask (i : N) : N := wnot (wshr all i).
(** [msb_fill] (word.hpp:125-127), for [0 < i <= 64]. *)
Definition msb_fill (i : N) : N := wshl all (width - i).

(** [test] (word.hpp:136-138). *)
Definition test (x i : N) : bool := N.land x (mask i) =? mask i.
(** [all_or_none] (word.hpp:143-145) on a whole block. *)
Definition all_or_none (x : N) : bool := N.land (wrap (x + 1)) lsb0 <=? 1.
(** [all_or_none] (word.hpp:152-154) on the [k] least significant bits. *)
Definition all_or_none_k (x k : N) : bool := N.land (wrap (x + 1)) (lsb_mask k) <=? 1.

(** [popcount] (word.hpp:208-213); the compiler builtin is the number of set
    bits of the block. *)
Fixpoint pos_popcount (p : positive) : N :=
  match p with
  | xH => 1
  | xO p => pos_popcount p
  | xI p => 1 + pos_popcount p
  end.
Definition popcount (x : N) : N :=
  match x with N0 => 0 | Npos p => pos_popcount p end.

(** [count_trailing_zeros] (word.hpp:218-223). *)
Fixpoint pos_ctz (p : positive) : N :=
  match p with xO p => 1 + pos_ctz p | _ => 0 end.
Definition count_trailing_zeros (x : N) : N :=
  match x with N0 => width | Npos p => pos_ctz p end.
(** [count_leading_zeros] (word.hpp:235-242). *)
Definition count_leading_zeros (x : N) : N := width - N.size x.

(** [rank] of a block (word.hpp:299-309): set bits, or unset bits. *)
Definition wrank (bit : bool) (x : N) : N :=
  if bit then popcount x else popcount (wnot x).
(** [rank] of a block up to and including position [i] (word.hpp:317-334). *)
Definition wrank_at (bit : bool) (x i : N) : N :=
  let x := if bit then x else wnot x in
  popcount (N.land x (lsb_fill (i + 1))).

(** [find_first] (word.hpp:341-358). *)
Definition wfind_first (bit : bool) (x : N) : option N :=
  let tzs := count_trailing_zeros (if bit then x else wnot x) in
  if tzs =? width then None else Some tzs.
(** [find_last] (word.hpp:360-377). *)
Definition wfind_last (bit : bool) (x : N) : option N :=
  let lzs := count_leading_zeros (if bit then x else wnot x) in
  if lzs =? width then None else Some (width - lzs - 1).
(** [find_next] (word.hpp:382-392). *)
Definition wfind_next (x i : N) : option N :=
  if i =? width - 1 then None
  else let top := N.land x (wshl all (i + 1)) in
       if top =? 0 then None else Some (count_trailing_zeros top).
(** [find_prev] (word.hpp:398-410). *)
Definition wfind_prev (x i : N) : option N :=
  if i =? 0 then None
  else let low := N.land x (wnot (wshl all i)) in
       if low =? 0 then None else Some (width - count_leading_zeros low - 1).
(** [select] on a block (word.hpp:417-440): the loop over positions [j]. The
    fuel is the number of remaining positions. *)
Fixpoint wselect_go (fuel : nat) (bit : bool) (x i cum j : N) : option N :=
  match fuel with
  | O => None
  | S f =>
    if Bool.eqb (test x j) bit
    then if cum + 1 =? i then Some j else wselect_go f bit x i (cum + 1) (j + 1)
    else wselect_go f bit x i cum (j + 1)
  end.
Definition wselect (bit : bool) (x i : N) : option N := wselect_go 64 bit x i 0 0.

(** * Bit sequences *)

(** A run of [bsize] bits: if [bsize > 64], [bdata] is all 0s or all 1s;
    otherwise its [bsize] least significant bits (bits.hpp:17-24,137-138). *)
Record bits := Bits { bdata : N; bsize : N }.

(** The default constructor (bits.hpp:36-38). *)
Definition empty_bits : bits := Bits 0 0.
(** The two-argument constructor (bits.hpp:53-57). *)
Definition mk_bits (x n : N) : bits :=
  Bits (if n <? width then N.land x (lsb_mask n) else x) n.
(** [empty] and [is_run] (bits.hpp:71-91). *)
Definition bempty (b : bits) : bool := bsize b =? 0.
Definition is_run (b : bits) : bool := width <? bsize b.
(** [homogeneous] (bits.hpp:95-98). *)
Definition homogeneous (b : bits) : bool :=
  if width <=? bsize b then all_or_none (bdata b) else all_or_none_k (bdata b) (bsize b).
(** [operator[]] (bits.hpp:104-107). *)
Definition bits_at (b : bits) (i : N) : bool :=
  if is_run b then negb (bdata b =? 0) else negb (N.land (bdata b) (mask i) =? 0).
(** [slice] (bits.hpp:113-126). *)
Definition slice (b : bits) (offset length : N) : bits :=
  mk_bits (if is_run b then bdata b else wshr (bdata b) offset) length.
Definition slice_from (b : bits) (offset : N) : bits := slice b offset (bsize b - offset).
(** [drop], [drop_right], [take], [take_right] (bits.hpp:147-177). *)
Definition drop (b : bits) (n : N) : bits :=
  if n <? bsize b then slice_from b n else empty_bits.
Definition drop_right (b : bits) (n : N) : bits :=
  if n <? bsize b then slice b 0 (bsize b - n) else empty_bits.
Definition take (b : bits) (n : N) : bits :=
  if n <? bsize b then slice b 0 n else b.
Definition take_right (b : bits) (n : N) : bits :=
  if n <? bsize b then slice_from b (bsize b - n) else b.

(** [find_first] (bits.hpp:185-197). For 0-bits, the unused high bits are set
    before searching; for an empty sequence the mask shift is [64]. *)
Definition find_first (bit : bool) (b : bits) : option N :=
  if bit then
    if width <? bsize b
    then if bdata b =? all then Some 0 else None
    else wfind_first true (bdata b)
  else
    if width <? bsize b
    then if bdata b =? none then Some 0 else None
    else wfind_first false (N.lor (bdata b) (msb_mask (width - bsize b))).

(** [find_next] (bits.hpp:203-219). *)
Definition find_next (bit : bool) (b : bits) (i : N) : option N :=
  if bsize b - 1 <=? i then None
  else if width <? bsize b
  then if bdata b =? (if bit then all else none) then Some (i + 1) else None
  else wfind_next (if bit then bdata b
                   else N.land (wnot (bdata b)) (lsb_fill (bsize b))) i.

(** [find_last] (bits.hpp:224-236). *)
Definition find_last (bit : bool) (b : bits) : option N :=
  if width <? bsize b
  then if bdata b =? (if bit then all else none) then Some (bsize b - 1) else None
  else wfind_last true (if bit then bdata b
                        else N.land (wnot (bdata b)) (lsb_fill (bsize b))).

(** [rank] (bits.hpp:244-256). *)
Definition brank (bit : bool) (b : bits) : N :=
  if width <? bsize b
  then if bdata b =? (if bit then all else none) then bsize b else 0
  else popcount (if bit then bdata b
                 else N.land (wnot (bdata b)) (lsb_fill (bsize b))).

(** [rank] up to and including [i] (bits.hpp:264-273). *)
Definition brank_at (bit : bool) (b : bits) (i : N) : N :=
  let data := if bit then bdata b else wnot (bdata b) in
  if width <? bsize b then if data =? none then 0 else i + 1
  else if i =? width - 1 then popcount data
  else wrank_at true data i.

(** [select] (bits.hpp:280-288). *)
Definition bselect (bit : bool) (b : bits) (i : N) : option N :=
  let data := if bit then bdata b else wnot (bdata b) in
  if width <? bsize b then if data =? all then Some (i - 1) else None
  else wselect true data i.
