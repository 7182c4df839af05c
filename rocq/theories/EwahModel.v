(** Model of [ewah_bitmap] and [ewah_bitmap_range]
    (libvast/vast/ewah_bitmap.hpp, libvast/src/ewah_bitmap.cpp) and of the
    generic [append] functions in libvast/vast/bitmap_base.hpp.

    Block vectors are lists of 64-bit words, in order. [num_bits_] is an
    unbounded number: the precondition [size() <= max_size]
    (bitmap_base.hpp:65,72) excludes wrap-around in the code. The loop counter
    of [flip] is 32 bits wide in the code (ewah_bitmap.cpp:155); the model
    assumes fewer than 2^32 blocks. [None] is a violated assertion or undefined
    behaviour. *)
From Coq Require Import List NArith Bool.
From Verif Require Import WordModel.
Import ListNotations.
Open Scope N_scope.

(** * Marker words *)

(** ewah_bitmap.hpp:21-36: 31 bits for the dirty counter, 32 for the clean. *)
Definition divide : N := 31.
Definition marker_dirty_mask : N := wnot (wshl all divide).
Definition marker_dirty_max : N := marker_dirty_mask.
Definition marker_clean_mask : N := wnot (N.lor marker_dirty_mask msb1).
Definition marker_clean_max : N := wshr marker_clean_mask divide.
(** ewah_bitmap.hpp:39-66: getters and setters of the three fields. *)
Definition marker_type (m : N) : bool := N.land m msb1 =? msb1.
Definition set_marker_type (m : N) (t : bool) : N :=
  N.lor (N.land m (wnot msb1)) (if t then msb1 else 0).
Definition marker_num_clean (m : N) : N := wshr (N.land m marker_clean_mask) divide.
Definition set_marker_num_clean (m n : N) : N :=
  N.lor (N.land m (wnot marker_clean_mask)) (wshl n divide).
Definition marker_num_dirty (m : N) : N := N.land m marker_dirty_mask.
Definition set_marker_num_dirty (m n : N) : N :=
  N.lor (N.land m (wnot marker_dirty_mask)) n.

(** * The bitmap *)

(** ewah_bitmap.hpp:132-134. *)
Record ewah := Ewah { blocks : list N; last_marker : nat; num_bits : N }.
Definition ewah_empty : ewah := Ewah [] 0 0.

(** [std::vector] helpers: [back], assignment to [back], [pop_back], element
    access and assignment. *)
Definition back (l : list N) : N := last l 0.
Definition set_back (l : list N) (x : N) : list N := removelast l ++ [x].
Definition at_ (l : list N) (i : nat) : N := nth i l 0.
Fixpoint set_at (l : list N) (i : nat) (x : N) : list N :=
  match l, i with
  | [], _ => []
  | _ :: l', O => x :: l'
  | y :: l', S i' => y :: set_at l' i' x
  end.

Definition full (e : ewah) : bool := num_bits e mod width =? 0.

(** [bump_dirty_count] (ewah_bitmap.cpp:217-234). The new marker is written as
    [marker_num_dirty(1)], which is the getter applied to 1. *)
Definition bump_dirty_count (e : ewah) : option ewah :=
  let bs := blocks e in
  if negb (full e && Nat.ltb (last_marker e) (length bs)) then None else
  let marker := at_ bs (last_marker e) in
  let num_dirty := marker_num_dirty marker in
  if num_dirty =? marker_dirty_max then
    let dirty_block := back bs in
    Some (Ewah (set_back bs (marker_num_dirty 1) ++ [dirty_block])
               (length bs - 1) (num_bits e))
  else
    Some (Ewah (set_at bs (last_marker e) (set_marker_num_dirty marker (num_dirty + 1)))
               (last_marker e) (num_bits e)).

(** [integrate_last_block] (ewah_bitmap.cpp:174-215). *)
Definition integrate_last_block (e : ewah) : option ewah :=
  let bs := blocks e in
  if negb (Nat.leb 2 (length bs) && Nat.ltb (last_marker e) (length bs - 1) && full e)
  then None else
  let last_block := back bs in
  let blocks_after_marker := (length bs - last_marker e - 1)%nat in
  if all_or_none last_block then
    let marker := at_ bs (last_marker e) in
    let clean_length := marker_num_clean marker in
    let last_block_type := negb (last_block =? 0) in
    if Nat.eqb blocks_after_marker 1 && (clean_length =? 0) then
      let m := set_marker_num_clean (set_marker_type marker last_block_type) 1 in
      Some (Ewah (removelast (set_at bs (last_marker e) m)) (last_marker e) (num_bits e))
    else if Nat.eqb blocks_after_marker 1
            && Bool.eqb last_block_type (marker_type marker)
            && negb (clean_length =? marker_clean_max) then
      let m := set_marker_num_clean marker (clean_length + 1) in
      Some (Ewah (removelast (set_at bs (last_marker e) m)) (last_marker e) (num_bits e))
    else
      let m := set_marker_num_clean (set_marker_type 0 last_block_type) 1 in
      Some (Ewah (set_back bs m) (length bs - 1) (num_bits e))
  else bump_dirty_count e.

(** [append_bit] (ewah_bitmap.cpp:33-46). *)
Definition append_bit (bit : bool) (e : ewah) : option ewah :=
  let partial := num_bits e mod width in
  let finish (e : ewah) :=
    let bs := blocks e in
    let bs := if bit then set_back bs (N.lor (back bs) (wshl lsb1 partial)) else bs in
    Ewah bs (last_marker e) (num_bits e + 1) in
  match blocks e with
  | [] => Some (finish (Ewah [0; none] (last_marker e) (num_bits e)))
  | _ =>
    if partial =? 0 then
      option_map (fun e => finish (Ewah (blocks e ++ [none]) (last_marker e) (num_bits e)))
                 (integrate_last_block e)
    else Some (finish e)
  end.

(** The part of [append_bits] from ewah_bitmap.cpp:69 on: at a block boundary,
    with the last block integrated. *)
Definition append_bits_aligned (bit : bool) (n : N) (e : ewah) : ewah :=
  if n <=? width then
    Ewah (blocks e ++ [if bit then lsb_fill n else none]) (last_marker e) (num_bits e + n)
  else
    let clean_blocks := n / width in
    let remaining := n mod width in
    let '(clean_blocks, remaining) :=
      if remaining =? 0 then (clean_blocks - 1, width) else (clean_blocks, remaining) in
    let nb := num_bits e + n in
    let marker := at_ (blocks e) (last_marker e) in
    let '(marker, clean_blocks) :=
      if (Nat.eqb (last_marker e) (length (blocks e) - 1) && Bool.eqb (marker_type marker) bit)
         || (Nat.eqb (last_marker e) 0 && (marker =? 0))
      then
        let len := marker_num_clean marker in
        let available := marker_clean_max - len in
        let new_blocks := N.min available clean_blocks in
        (set_marker_type (set_marker_num_clean marker (len + new_blocks)) bit,
         clean_blocks - new_blocks)
      else (marker, clean_blocks) in
    let '(bs, lm) :=
      if 0 <? clean_blocks then
        let marker := if Nat.eqb (last_marker e) (length (blocks e) - 1)
                      then set_marker_num_dirty marker 0 else marker in
        let bs := set_at (blocks e) (last_marker e) marker in
        let markers := clean_blocks / marker_clean_max in
        let last := clean_blocks mod marker_clean_max in
        let bs := bs ++ repeat (set_marker_type marker_clean_mask bit) (N.to_nat markers) in
        let bs := if 0 <? last
                  then bs ++ [set_marker_type (set_marker_num_clean 0 last) bit] else bs in
        (bs, (length bs - 1)%nat)
      else (set_at (blocks e) (last_marker e) marker, last_marker e) in
    let bs := if 0 <? remaining
              then bs ++ [if bit then lsb_fill remaining else none] else bs in
    Ewah bs lm nb.

(** [append_bits] (ewah_bitmap.cpp:48-120). *)
Definition append_bits (bit : bool) (n : N) (e : ewah) : option ewah :=
  if n =? 0 then Some e else
  match blocks e with
  | [] => Some (append_bits_aligned bit n (Ewah [0] (last_marker e) (num_bits e)))
  | bs =>
    let partial := num_bits e mod width in
    if 0 <? partial then
      let fill := N.min n (width - partial) in
      let bs := if bit then set_back bs (N.lor (back bs) (wshl (lsb_mask fill) partial)) else bs in
      let e := Ewah bs (last_marker e) (num_bits e + fill) in
      let n := n - fill in
      if n =? 0 then Some e
      else option_map (append_bits_aligned bit n) (integrate_last_block e)
    else option_map (append_bits_aligned bit n) (integrate_last_block e)
  end.

(** The constructor with size and bit value (ewah_bitmap.cpp:12-14). *)
Definition ewah_make (n : N) (bit : bool) : option ewah := append_bits bit n ewah_empty.

(** [append_block] (ewah_bitmap.cpp:122-148). *)
Definition append_block (value n : N) (e : ewah) : option ewah :=
  if negb ((0 <? n) && (n <=? width)) then None else
  let start :=
    match blocks e with
    | [] => Some (Ewah [0] (last_marker e) (num_bits e))
    | _ => if full e then integrate_last_block e else Some e
    end in
  match start with
  | None => None
  | Some e =>
    let partial := num_bits e mod width in
    if partial =? 0 then
      Some (Ewah (blocks e ++ [N.land value (lsb_fill n)]) (last_marker e) (num_bits e + n))
    else
      let unused := width - partial in
      if n <=? unused then
        Some (Ewah (set_back (blocks e)
                      (N.lor (back (blocks e)) (wshl (N.land value (lsb_fill n)) partial)))
                   (last_marker e) (num_bits e + n))
      else
        let e := Ewah (set_back (blocks e)
                         (N.lor (back (blocks e)) (wshl (N.land value (lsb_fill unused)) partial)))
                      (last_marker e) (num_bits e + unused) in
        let remaining := n - unused in
        option_map (fun e => Ewah (blocks e ++ [N.land (wshr value unused) (lsb_fill remaining)])
                                  (last_marker e) (num_bits e + remaining))
                   (integrate_last_block e)
  end.

(** [flip] (ewah_bitmap.cpp:150-172). [flip_go] is the loop from block [i] on,
    together with the inversion of the last block; [next] is [next_marker]. *)
Fixpoint flip_go (i next : N) (l : list N) : list N :=
  match l with
  | [] => []
  | [x] => [wnot x]
  | x :: l' =>
    if i =? next then
      let x' := if 0 <? marker_num_clean x then N.lxor x msb1 else x in
      x' :: flip_go (i + 1) (next + (marker_num_dirty x' + 1)) l'
    else wnot x :: flip_go (i + 1) next l'
  end.
Definition flip (e : ewah) : option ewah :=
  match blocks e with
  | [] => Some e
  | bs =>
    if negb (Nat.leb 2 (length bs)) then None else
    let bs := flip_go 0 0 bs in
    let partial := num_bits e mod width in
    let bs := if 0 <? partial then set_back bs (N.land (back bs) (lsb_mask partial)) else bs in
    Some (Ewah bs (last_marker e) (num_bits e))
  end.

(** * Iteration *)

(** The position [next_] is represented by the list of blocks from it on. *)

(** The while loop of [scan] (ewah_bitmap.cpp:284-292): extends a run by the
    following markers. [rest] are the blocks after the current one. Returns the
    length, [num_dirty_] and the blocks after the new position. *)
Fixpoint extend (ones : bool) (len nd : N) (rest : list N) : N * N * list N :=
  match rest with
  | m :: ((_ :: _) as rest') =>
    if nd =? 0 then
      if Bool.eqb (marker_type m) ones
      then extend ones (len + marker_num_clean m * width) (marker_num_dirty m) rest'
      else (len, nd, rest)
    else (len, nd, rest)
  | _ => (len, nd, rest)
  end.

(** [scan] (ewah_bitmap.cpp:258-296) at the first block of [l]; returns the
    current bit sequence, the blocks after the new position and [num_dirty_]. *)
Fixpoint scan (size : N) (l : list N) (nd : N) : option (bits * list N * N) :=
  match l with
  | [] => None
  | [x] => let partial := size mod width in
           Some (mk_bits x (if partial =? 0 then width else partial), [], nd)
  | x :: rest =>
    if 0 <? nd then Some (mk_bits x width, rest, nd - 1)
    else
      let num_clean := marker_num_clean x in
      if num_clean =? 0 then scan size rest (marker_num_dirty x)
      else
        let ones := marker_type x in
        let '(len, nd', rest') := extend ones (num_clean * width) (marker_num_dirty x) rest in
        Some (mk_bits (if ones then all else none) len, rest', nd')
  end.

(** Iteration until [done] (ewah_bitmap.cpp:242-256). The fuel is the number of
    blocks left. *)
Fixpoint range_go (fuel : nat) (size : N) (l : list N) (nd : N) : option (list bits) :=
  match l with
  | [] => Some []
  | _ =>
    match fuel with
    | O => None
    | S f =>
      match scan size l nd with
      | None => None
      | Some (b, rest, nd') => option_map (cons b) (range_go f size rest nd')
      end
    end
  end.
(** [bit_range] (ewah_bitmap.cpp:298-300). *)
Definition bit_range (e : ewah) : option (list bits) :=
  range_go (length (blocks e)) (num_bits e) (blocks e) 0.

(** * Generic append functions (bitmap_base.hpp:74-109) *)

(** [append(bits)] (bitmap_base.hpp:104-109). *)
Definition append_seq (b : bits) (e : ewah) : option ewah :=
  if is_run b then append_bits (negb (bdata b =? 0)) (bsize b) e
  else if negb (bempty b) then append_block (bdata b) (bsize b) e
  else Some e.

(** [append(other)] (bitmap_base.hpp:73-78). *)
Fixpoint append_seqs (bs : list bits) (e : ewah) : option ewah :=
  match bs with
  | [] => Some e
  | b :: bs' => match append_seq b e with
                | None => None
                | Some e' => append_seqs bs' e'
                end
  end.
Definition append (other e : ewah) : option ewah :=
  match bit_range other with
  | None => None
  | Some bs => append_seqs bs e
  end.

(** [operator[]] (bitmap_base.hpp:117-126); [None] if the position is not found
    ([die]). *)
Fixpoint bitmap_at_go (bs : list bits) (n i : N) : option bool :=
  match bs with
  | [] => None
  | b :: bs' => if (n <=? i) && (i <? n + bsize b) then Some (bits_at b (i - n))
                else bitmap_at_go bs' (n + bsize b) i
  end.
Definition bitmap_at (e : ewah) (i : N) : option bool :=
  match bit_range e with
  | None => None
  | Some bs => bitmap_at_go bs 0 i
  end.
