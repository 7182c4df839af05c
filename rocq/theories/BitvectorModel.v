(** Model of [bitvector<uint64_t>] (libvast/vast/bitvector.hpp) and of the
    uncompressed [null_bitmap] with its bit range
    (libvast/vast/null_bitmap.hpp, libvast/src/null_bitmap.cpp).

    Blocks are numbers below [2^64] as in WordModel; sizes are [N]. A violated
    assertion, an access past the end and [back()] of an empty vector are
    [None]. Iterators over single bits, allocators and capacities are left
    out; an element access through [reference] is modelled by [bv_set]. *)
From Coq Require Import List NArith Bool.
From Verif Require Import WordModel.
Import ListNotations.
Open Scope N_scope.

(** The two members (bitvector.hpp:209-210). *)
Record bitvec := BV { bv_blocks : list N; bv_size : N }.

(** [bits_to_blocks] (bitvector.hpp:193-195). *)
Definition bits_to_blocks (n : N) : N := if n =? 0 then 0 else 1 + (n - 1) / width.
(** [partial_bits] (bitvector.hpp:205-207). *)
Definition partial_bits (v : bitvec) : N := bv_size v mod width.

(** The default constructor (bitvector.hpp:261-271). *)
Definition bv_empty : bitvec := BV [] 0.
(** The sized constructors (bitvector.hpp:273-285). *)
Definition bv_new (n : N) (value : bool) : bitvec :=
  BV (repeat (if value then all else none) (N.to_nat (bits_to_blocks n))) n.

(** [std::vector::resize(n, x)] on the blocks. *)
Definition vec_resize (bs : list N) (n : N) (x : N) : list N :=
  firstn (N.to_nat n) bs ++ repeat x (N.to_nat n - length bs).
(** The blocks with [back()] replaced by [f (back())]; [None] if there is
    none. *)
Fixpoint on_back (f : N -> N) (bs : list N) : option (list N) :=
  match bs with
  | [] => None
  | [x] => Some [f x]
  | x :: r => option_map (cons x) (on_back f r)
  end.

(** [resize] (bitvector.hpp:487-508). *)
Definition bv_resize (v : bitvec) (n : N) (value : bool) : option bitvec :=
  if n <=? bv_size v
  then Some (BV (vec_resize (bv_blocks v) (bits_to_blocks n) 0) n)
  else
    let p := partial_bits v in
    let fill := if value then all else none in
    let grow bs := BV (vec_resize bs (bits_to_blocks n) fill) n in
    if 0 <? p
    then let m := wshl all p in
         match on_back (fun x => if value then N.lor x m else N.land x (wnot m)) (bv_blocks v) with
         | None => None
         | Some bs => if n - bv_size v <=? width - p then Some (BV bs n) else Some (grow bs)
         end
    else Some (grow (bv_blocks v)).

(** [operator[]], [at] for reading (bitvector.hpp:529-534,544-550). *)
Definition bv_get (v : bitvec) (i : N) : option bool :=
  if i <? bv_size v
  then option_map (fun b => negb (N.land b (mask (i mod width)) =? 0))
                  (nth_error (bv_blocks v) (N.to_nat (i / width)))
  else None.

(** Replacing one block. *)
Fixpoint on_nth (i : nat) (f : N -> N) (bs : list N) : option (list N) :=
  match bs, i with
  | [], _ => None
  | x :: r, O => Some (f x :: r)
  | x :: r, S i => option_map (cons x) (on_nth i f r)
  end.
(** Assignment through the result of [operator[]]
    (bitvector.hpp:226-229,522-527). *)
Definition bv_set (v : bitvec) (i : N) (x : bool) : option bitvec :=
  if i <? bv_size v
  then option_map (fun bs => BV bs (bv_size v))
         (on_nth (N.to_nat (i / width))
            (fun b => let m := mask (i mod width) in
                      if x then N.lor b m else N.land b (wnot m)) (bv_blocks v))
  else None.

(** [push_back] (bitvector.hpp:588-600). *)
Definition bv_push (v : bitvec) (x : bool) : option bitvec :=
  let p := partial_bits v in
  if p =? 0
  then Some (BV (bv_blocks v ++ [if x then all else none]) (bv_size v + 1))
  else option_map (fun bs => BV bs (bv_size v + 1))
         (on_back (fun b => if x then N.lor b (wshl all p)
                            else N.land b (wnot (wshl all p))) (bv_blocks v)).

(** [pop_back] (bitvector.hpp:602-608). *)
Definition bv_pop (v : bitvec) : option bitvec :=
  if bv_size v =? 0 then None
  else Some (BV (if partial_bits v =? 1 then removelast (bv_blocks v) else bv_blocks v)
                (bv_size v - 1)).

(** [flip], [clear] (bitvector.hpp:617-627). *)
Definition bv_flip (v : bitvec) : bitvec := BV (map wnot (bv_blocks v)) (bv_size v).
Definition bv_clear (v : bitvec) : bitvec := bv_empty.

(** [append_block] (bitvector.hpp:658-673). *)
Definition bv_append_block (v : bitvec) (x bits : N) : option bitvec :=
  if (bits =? 0) || (width <? bits) then None
  else
    let p := partial_bits v in
    if p =? 0 then Some (BV (bv_blocks v ++ [x]) (bv_size v + bits))
    else
      option_map (fun bs =>
          let available := width - p in
          BV (if available <? bits then bs ++ [wshr x available] else bs) (bv_size v + bits))
        (on_back (fun b => N.lor (N.land b (lsb_mask p)) (wshl x p)) (bv_blocks v)).

(** [append_blocks] (bitvector.hpp:675-693). *)
Fixpoint append_blocks_go (p : N) (v : bitvec) (xs : list N) : option bitvec :=
  match xs with
  | [] => Some v
  | x :: r =>
    match on_back (fun b => N.lor (N.land b (lsb_mask p)) (wshl x p)) (bv_blocks v) with
    | None => None
    | Some bs => append_blocks_go p (BV (bs ++ [wshr x (width - p)]) (bv_size v + width)) r
    end
  end.
Definition bv_append_blocks (v : bitvec) (xs : list N) : option bitvec :=
  let p := partial_bits v in
  if p =? 0
  then let bs := bv_blocks v ++ xs in Some (BV bs (N.of_nat (length bs) * width))
  else append_blocks_go p v xs.

(** [assign] from a sequence of bits (bitvector.hpp:319-326): the blocks are
    cleared, the size is not. *)
Fixpoint push_all (v : bitvec) (xs : list bool) : option bitvec :=
  match xs with
  | [] => Some v
  | x :: r => match bv_push v x with None => None | Some v => push_all v r end
  end.
Definition bv_assign (v : bitvec) (xs : list bool) : option bitvec :=
  push_all (BV [] (bv_size v)) xs.

(** [operator==] (bitvector.hpp:629-650). *)
Fixpoint blocks_eqb (xs ys : list N) : bool :=
  match xs, ys with
  | [], [] => true
  | x :: xs, y :: ys => (x =? y) && blocks_eqb xs ys
  | _, _ => false
  end.
Definition bv_eqb (x y : bitvec) : bool :=
  if negb (bv_size x =? bv_size y) then false
  else match bv_blocks x with
       | [] => true
       | _ =>
         if negb (blocks_eqb (removelast (bv_blocks x)) (removelast (bv_blocks y))) then false
         else N.land (last (bv_blocks x) 0) (lsb_mask (partial_bits x))
              =? N.land (last (bv_blocks y) 0) (lsb_mask (partial_bits y))
       end.

(** [rank] (bitvector.hpp:695-712): whole blocks while at least [width] bits
    remain, then the rest of the last one. *)
Fixpoint bv_rank_go (bit : bool) (bs : list N) (n result : N) : option N :=
  if width <=? n
  then match bs with
       | [] => None
       | b :: r => bv_rank_go bit r (n - width)
                     (result + if bit then popcount b else width - popcount b)
       end
  else if 0 <? n
  then match bs with
       | [] => None
       | b :: _ => let lst := popcount (N.land b (lsb_mask n)) in
                   Some (result + if bit then lst else n - lst)
       end
  else Some result.
Definition bv_rank (bit : bool) (v : bitvec) : option N :=
  bv_rank_go bit (bv_blocks v) (bv_size v) 0.

(** * The uncompressed bitmap *)

(** [null_bitmap] wraps a bitvector (null_bitmap.hpp:62-63); its modifiers
    (null_bitmap.cpp:13-15,29-43). *)
Definition nb_append_bit (v : bitvec) (bit : bool) : option bitvec := bv_push v bit.
Definition nb_append_bits (v : bitvec) (bit : bool) (n : N) : option bitvec :=
  bv_resize v (bv_size v + n) bit.
Definition nb_append_block (v : bitvec) (x n : N) : option bitvec := bv_append_block v x n.
Definition nb_flip (v : bitvec) : bitvec := bv_flip v.

(** The run loop of [null_bitmap_range::scan] (null_bitmap.cpp:76-93): [rest]
    are the blocks after the current one; the result are the length of the
    run and the blocks that remain. *)
Fixpoint scan_run (partial data n : N) (rest : list N) : N * list N :=
  match rest with
  | [] => (n, [])
  | [x] =>
    if 0 <? partial
    then let m := mask partial in
         if N.land x m =? N.land data m then (n + partial, []) else (n, [x])
    else if x =? data then (n + width, []) else (n, [x])
  | x :: rest' => if x =? data then scan_run partial data (n + width) rest' else (n, rest)
  end.

(** [scan] (null_bitmap.cpp:66-97) at block [b] with [rest] after it: the
    sequence produced and the blocks after it. *)
Definition scan (size b : N) (rest : list N) : bits * list N :=
  let partial := size mod width in
  match rest with
  | [] => (mk_bits b (if partial =? 0 then width else partial), [])
  | _ =>
    if negb (all_or_none b) then (mk_bits b width, rest)
    else let '(n, rest) := scan_run partial b width rest in (mk_bits b n, rest)
  end.

(** The whole range (null_bitmap.cpp:49-64), as the list of sequences it
    yields. The fuel is the number of blocks. *)
Fixpoint nb_range_go (fuel : nat) (size : N) (bs : list N) : list bits :=
  match fuel, bs with
  | S f, b :: rest => let '(x, rest) := scan size b rest in x :: nb_range_go f size rest
  | _, _ => []
  end.
Definition nb_range (v : bitvec) : list bits :=
  nb_range_go (length (bv_blocks v)) (bv_size v) (bv_blocks v).
