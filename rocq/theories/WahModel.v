(** Model of [wah_bitmap] and [wah_bitmap_range] (libvast/vast/wah_bitmap.hpp,
    libvast/src/wah_bitmap.cpp).

    Blocks are 64-bit words as in WordModel. [num_bits_] is unbounded: the
    precondition [size() <= max_size] (bitmap_base.hpp:65,72) excludes
    wrap-around in the code. [None] is a violated assertion or an access to the
    last element of an empty vector. *)
From Coq Require Import List NArith Bool.
From Verif Require Import WordModel EwahModel.
Import ListNotations.
Open Scope N_scope.

(** * Words *)

(** [literal_word_size], [max_fill_words], [fill_mask] (wah_bitmap.hpp:22-28). *)
Definition literal_size : N := width - 1.
Definition max_fill_words : N := wshr all 2.
Definition fill_mask : N := wshr msb1 1.
(** [fill_type], [is_fill], [fill_words], [make_fill] (wah_bitmap.hpp:32-57). *)
Definition fill_type (x : N) : bool := N.land x fill_mask =? fill_mask.
Definition is_fill (x : N) : bool := negb (N.land x msb1 =? 0).
Definition is_fill_of (x : N) (bit : bool) : bool := is_fill x && Bool.eqb (fill_type x) bit.
Definition fill_words (x : N) : N := N.land x (wshr all 2).
Definition make_fill (bit : bool) (n : N) : N :=
  N.lor (N.lor msb1 (wshl (if bit then 1 else 0) (width - 2))) n.

(** * The bitmap *)

(** The members (wah_bitmap.hpp:117-119). *)
Record wah := Wah { wblocks : list N; num_last : N; wnum_bits : N }.
Definition wah_empty : wah := Wah [] 0 0.

(** [merge_active_word] (wah_bitmap.cpp:128-166). The scope guard appends the
    new active word at the end in all cases. *)
Definition merge_active_word (w : wah) : option wah :=
  match wblocks w with
  | [] => None
  | _ =>
    if negb (num_last w =? literal_size) then None
    else
      let active := back (wblocks w) in
      let rest := removelast (wblocks w) in
      let merged :=
        if negb (all_or_none_k active literal_size) then wblocks w
        else match rest with
             | [] => [make_fill (negb (active =? none)) 1]
             | _ =>
               let prev := back rest in
               let bit := negb (active =? none) in
               if is_fill_of prev bit && (fill_words prev <? max_fill_words)
               then set_back rest (make_fill bit (fill_words prev + 1))
               else set_back (wblocks w) (make_fill bit 1)
             end in
      Some (Wah (merged ++ [none]) 0 (wnum_bits w))
  end.

(** The beginning that all modifiers share (wah_bitmap.cpp:38-41,51-54,101-104). *)
Definition activate (w : wah) : option wah :=
  match wblocks w with
  | [] => Some (Wah [none] (num_last w) (wnum_bits w))
  | _ => if num_last w =? literal_size then merge_active_word w else Some w
  end.

(** [append_bit] (wah_bitmap.cpp:37-46). *)
Definition wah_append_bit (bit : bool) (w : wah) : option wah :=
  match activate w with
  | None => None
  | Some w =>
    Some (Wah (set_back (wblocks w) (N.lor (back (wblocks w)) (wshl (if bit then 1 else 0) (num_last w))))
              (num_last w + 1) (wnum_bits w + 1))
  end.

(** The loop that adds maximal fills (wah_bitmap.cpp:82-85) and what remains;
    the number of fill words is enough fuel. *)
Fixpoint max_fills (fuel : nat) (bit : bool) (bs : list N) (fills : N) : list N * N :=
  match fuel with
  | O => (bs, fills)
  | S f => if max_fill_words <? fills
           then max_fills f bit (bs ++ [make_fill bit max_fill_words]) (fills - max_fill_words)
           else (bs, fills)
  end.

(** [append_bits] (wah_bitmap.cpp:48-95). The fuel of the loop is the quotient
    of the number of fill words by their maximum. *)
Definition wah_append_bits (bit : bool) (n : N) (w : wah) : option wah :=
  if n =? 0 then Some w
  else match activate w with
  | None => None
  | Some w =>
    let unused := literal_size - num_last w in
    let inject := N.min unused n in
    if inject =? 0 then None
    else
      let bs := if bit
                then set_back (wblocks w) (N.lor (back (wblocks w)) (wshl (lsb_fill inject) (num_last w)))
                else wblocks w in
      let w := Wah bs (num_last w + inject) (wnum_bits w + inject) in
      if n <=? inject then Some w
      else match merge_active_word w with
      | None => None
      | Some w =>
        let n := n - inject in
        let bs := removelast (wblocks w) in
        let fills := n / literal_size in
        let partial := n mod literal_size in
        match bs with
        | [] => None
        | _ =>
          let prev := back bs in
          let '(bs, fills) :=
            if is_fill_of prev bit && (fill_words prev + fills <=? max_fill_words)
            then (set_back bs (make_fill bit (fill_words prev + fills)), 0)
            else (bs, fills) in
          let '(bs, fills) := max_fills (N.to_nat (fills / max_fill_words)) bit bs fills in
          let bs := if 0 <? fills then bs ++ [make_fill bit fills] else bs in
          let active := if (0 <? partial) && bit then lsb_mask partial else none in
          Some (Wah (bs ++ [active]) partial (wnum_bits w + n))
        end
      end
  end.

(** [append_block] (wah_bitmap.cpp:97-117). *)
Definition wah_append_block (value bits : N) (w : wah) : option wah :=
  if (bits =? 0) || (width <? bits) then None
  else match activate w with
  | None => None
  | Some w =>
    let unused := literal_size - num_last w in
    let inject := N.min unused bits in
    if inject =? 0 then None
    else
      let w := Wah (set_back (wblocks w)
                     (N.lor (back (wblocks w)) (wshl (N.land value (lsb_fill inject)) (num_last w))))
                   (num_last w + inject) (wnum_bits w + inject) in
      if bits <=? inject then Some w
      else match merge_active_word w with
      | None => None
      | Some w =>
        let value := wshr value inject in
        let remaining := bits - inject in
        Some (Wah (set_back (wblocks w) (N.land value (lsb_mask remaining)))
                  remaining (wnum_bits w + remaining))
      end
  end.

(** [flip] (wah_bitmap.cpp:119-126). *)
Definition wah_flip (w : wah) : wah :=
  match wblocks w with
  | [] => w
  | _ =>
    let bs := map (fun b => N.lxor b (wshr (if is_fill b then msb1 else all) 1)) (wblocks w) in
    let m := wshl (lsb_mask (literal_size - num_last w)) (num_last w) in
    Wah (set_back bs (N.lxor (back bs) m)) (num_last w) (wnum_bits w)
  end.

(** [operator==] (wah_bitmap.cpp:168-170). *)
Fixpoint blocks_eqb (xs ys : list N) : bool :=
  match xs, ys with
  | [], [] => true
  | x :: xs, y :: ys => (x =? y) && blocks_eqb xs ys
  | _, _ => false
  end.
Definition wah_eqb (x y : wah) : bool :=
  blocks_eqb (wblocks x) (wblocks y) && (wnum_bits x =? wnum_bits y).

(** * The bit range *)

(** The run of fills at the front (wah_bitmap.cpp:190-195). *)
Fixpoint fill_run (value : bool) (n : N) (bs : list N) : N * list N :=
  match bs with
  | b :: r => if is_fill_of b value then fill_run value (n + fill_words b * literal_size) r else (n, bs)
  | [] => (n, [])
  end.

(** [scan] and [next] (wah_bitmap.cpp:181-201) over the remaining blocks: the
    list of sequences. The number of blocks is enough fuel. *)
Fixpoint wah_range_go (fuel : nat) (last_size : N) (bs : list N) : list bits :=
  match fuel, bs with
  | S f, b :: r =>
    if is_fill b
    then let '(n, r) := fill_run (fill_type b) (fill_words b * literal_size) r in
         mk_bits (if fill_type b then all else none) n :: wah_range_go f last_size r
    else match r with
         | [] => [mk_bits b last_size]
         | _ => mk_bits b literal_size :: wah_range_go f last_size r
         end
  | _, _ => []
  end.
Definition wah_range (w : wah) : list bits :=
  wah_range_go (length (wblocks w)) (num_last w) (wblocks w).
