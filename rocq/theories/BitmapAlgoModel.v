(** Model of libvast/vast/bitmap_algorithms.hpp and of [make_ids]
    (libvast/src/ids.cpp).

    The algorithms are templates over bit ranges; the model takes the list of
    bit sequences that a range yields. Result bitmaps are EWAH bitmaps, the
    default of [bitmap] (bitmap.hpp:41). [None] is a violated assertion. *)
From Coq Require Import List NArith Bool.
From Verif Require Import WordModel EwahModel.
Import ListNotations.
Open Scope N_scope.

(** * Binary evaluation *)

(** Fetch the next sequence if the current one is exhausted
    (bitmap_algorithms.hpp:96-107). *)
Definition fetch (b : bits) (rest : list bits) : option (bits * list bits) :=
  if bempty b then
    match rest with
    | [] => Some (b, rest)
    | b' :: rest' => if bempty b' then None else Some (b', rest')
    end
  else Some (b, rest).

(** The main loop (bitmap_algorithms.hpp:79-108). Every iteration exhausts at
    least one sequence, so the number of sequences is enough fuel. *)
Fixpoint eval_loop (fuel : nat) (op : N -> N -> N) (lb : bits) (ls : list bits)
    (rb : bits) (rs : list bits) (result : ewah)
  : option (bits * list bits * bits * list bits * ewah) :=
  if bempty lb || bempty rb then Some (lb, ls, rb, rs, result) else
  match fuel with
  | O => None
  | S f =>
    let data := op (bdata lb) (bdata rb) in
    let '(piece, lb', rb') :=
      if is_run lb && negb (is_run rb) then
        (mk_bits data (bsize rb), drop lb (bsize rb), empty_bits)
      else if negb (is_run lb) && is_run rb then
        (mk_bits data (bsize lb), empty_bits, drop rb (bsize lb))
      else
        let m := N.min (bsize lb) (bsize rb) in
        (mk_bits data m, drop lb m, drop rb m) in
    match append_seq piece result, fetch lb' ls, fetch rb' rs with
    | Some result', Some (lb2, ls2), Some (rb2, rs2) => eval_loop f op lb2 ls2 rb2 rs2 result'
    | _, _, _ => None
    end
  end.

(** The first sequence of a range (bitmap_algorithms.hpp:76-77). *)
Definition first_seq (bs : list bits) : bits * list bits :=
  match bs with [] => (empty_bits, []) | b :: bs' => (b, bs') end.

(** [binary_eval] (bitmap_algorithms.hpp:58-129) on two ranges and the sizes of
    the bitmaps. *)
Definition binary_eval_ranges (fill_lhs fill_rhs : bool) (op : N -> N -> N)
    (lsize : N) (lhs : list bits) (rsize : N) (rhs : list bits) : option ewah :=
  let '(lb, ls) := first_seq lhs in
  let '(rb, rs) := first_seq rhs in
  match eval_loop (length lhs + length rhs) op lb ls rb rs ewah_empty with
  | None => None
  | Some (lb, ls, rb, rs, result) =>
    if negb (num_bits result <=? N.max lsize rsize) then None else
    let fill (fill : bool) b bs (r : option ewah) :=
      match r with
      | None => None
      | Some r =>
        if fill then
          match (if bempty b then Some r else append_seq b r) with
          | None => None
          | Some r => append_seqs bs r
          end
        else Some r
      end in
    match fill fill_rhs rb rs (fill fill_lhs lb ls (Some result)) with
    | None => None
    | Some result =>
      let max_size := N.max lsize rsize in
      if negb (num_bits result <=? max_size) then None
      else append_bits false (max_size - num_bits result) result
    end
  end.
Definition binary_eval (fl fr : bool) (op : N -> N -> N) (lhs rhs : ewah) : option ewah :=
  match bit_range lhs, bit_range rhs with
  | Some l, Some r => binary_eval_ranges fl fr op (num_bits lhs) l (num_bits rhs) r
  | _, _ => None
  end.

(** [binary_and] ... [binary_nor] (bitmap_algorithms.hpp:178-206), the operators
    [&], [|], [^], [-] and [/] of bitmap_base.hpp:137-165. *)
Definition binary_and := binary_eval false false N.land.
Definition binary_or := binary_eval true true N.lor.
Definition binary_xor := binary_eval true true N.lxor.
Definition binary_nand := binary_eval true false (fun x y => N.land x (wnot y)).
Definition binary_nor := binary_eval true true (fun x y => N.lor x (wnot y)).

(** [nary_eval] (bitmap_algorithms.hpp:139-176). The priority queue orders by
    size only, so ties are unspecified: the model is a relation that combines
    any two elements whose sizes are minimal. *)
Inductive nary_eval (op : ewah -> ewah -> option ewah) : list ewah -> ewah -> Prop :=
| nary_none : nary_eval op [] ewah_empty
| nary_one : forall e, nary_eval op [e] e
| nary_step : forall a l1 x l2 y l3 z r,
    (a = l1 ++ x :: l2 ++ y :: l3 \/ a = l1 ++ y :: l2 ++ x :: l3) ->
    num_bits x <= num_bits y ->
    (forall w, In w (l1 ++ l2 ++ l3) -> num_bits y <= num_bits w) ->
    op x y = Some z ->
    nary_eval op (l1 ++ l2 ++ l3 ++ [z]) r ->
    nary_eval op a r.

(** * Rank and select *)

(** [rank] up to and including [i] (bitmap_algorithms.hpp:233-246). *)
Fixpoint rank_go (bit : bool) (bs : list bits) (result n i : N) : N :=
  match bs with
  | [] => result
  | b :: bs' =>
    if (n <=? i) && (i <? n + bsize b) then result + brank_at bit b (i - n)
    else rank_go bit bs' (result + (if bit then brank true b else bsize b - brank true b))
                 (n + bsize b) i
  end.
Definition rank_at (bit : bool) (size : N) (bs : list bits) (i : N) : option N :=
  if i <? size then Some (rank_go bit bs 0 0 i) else None.
(** [rank] of the whole bitmap (bitmap_algorithms.hpp:252-255). *)
Definition rank (bit : bool) (size : N) (bs : list bits) : option N :=
  if size =? 0 then Some 0 else rank_at bit size bs (size - 1).

(** [select] of the [i]-th occurrence (bitmap_algorithms.hpp:280-287); the outer
    [None] is the violated assertion [i > 0], the inner is [npos]. *)
Fixpoint select_go (bit : bool) (bs : list bits) (rnk n i : N) : option N :=
  match bs with
  | [] => None
  | b :: bs' =>
    let count := if bit then brank true b else bsize b - brank true b in
    if i <=? rnk + count then option_map (N.add n) (bselect bit b (i - rnk))
    else select_go bit bs' (rnk + count) (n + bsize b) i
  end.
Definition select_nth (bit : bool) (bs : list bits) (i : N) : option (option N) :=
  if 0 <? i then Some (select_go bit bs 0 0 i) else None.
(** [select] of the last occurrence, [i == npos] (bitmap_algorithms.hpp:270-279).
    The code searches for 1-bits whatever the template argument. *)
Fixpoint select_last_go (bs : list bits) (n : N) (last : option N) : option N :=
  match bs with
  | [] => last
  | b :: bs' =>
    select_last_go bs' (n + bsize b)
      (match find_last true b with None => last | Some l => Some (n + l) end)
  end.
Definition select_last (bit : bool) (bs : list bits) : option N := select_last_go bs 0 None.

(** * Bitwise iteration *)

(** [bitwise_range] (bitmap_algorithms.hpp:291-443): the remaining bit sequences
    of [rng_], [i_] ([None] is [npos]) and [n_]. *)
Record brange := BRange { br_rng : list bits; br_i : option N; br_n : N }.
(** The constructor (bitmap_algorithms.hpp:300-304) and [each] (447-449). *)
Definition br_init (bs : list bits) : brange :=
  BRange bs (match bs with [] => None | _ => Some 0 end) 0.
(** [done] (bitmap_algorithms.hpp:339-341). *)
Definition br_done (r : brange) : bool :=
  match br_rng r, br_i r with [], None => true | _, _ => false end.
(** [offset] and [get] (bitmap_algorithms.hpp:317-336). *)
Definition br_get (r : brange) : option N := option_map (N.add (br_n r)) (br_i r).
(** [value] (bitmap_algorithms.hpp:324-327). *)
Definition br_value (r : brange) : option bool :=
  match br_rng r, br_i r with b :: _, Some i => Some (bits_at b i) | _, _ => None end.

(** [next] (bitmap_algorithms.hpp:344-352). *)
Definition br_next (r : brange) : option brange :=
  match br_rng r, br_i r with
  | b :: rest, Some i =>
    if i + 1 =? bsize b
    then Some (BRange rest (match rest with [] => None | _ => Some 0 end) (br_n r + bsize b))
    else Some (BRange (b :: rest) (Some (i + 1)) (br_n r))
  | _, _ => None
  end.

(** The loop of [next(k)] (bitmap_algorithms.hpp:369-376), entered after moving
    to the next sequence. *)
Fixpoint br_next_loop (rng : list bits) (n k : N) : brange :=
  match rng with
  | [] => BRange [] None n
  | b :: rest =>
    if 0 <? k then
      if k <=? bsize b then BRange rng (Some (k - 1)) n
      else br_next_loop rest (n + bsize b) (k - bsize b)
    else BRange rng None n
  end.
(** [next(k)] (bitmap_algorithms.hpp:359-377). *)
Definition br_next_k (k : N) (r : brange) : option brange :=
  if k =? 0 then None else
  match br_rng r, br_i r with
  | b :: rest, Some i =>
    if bempty b then None else
    let remaining_bits := bsize b - i - 1 in
    if k <=? remaining_bits
    then br_next (BRange (b :: rest) (Some (i + (k - 1))) (br_n r))
    else Some (br_next_loop rest (br_n r + bsize b) (k - remaining_bits))
  | _, _ => None
  end.

(** [select] (bitmap_algorithms.hpp:381-392). *)
Fixpoint br_select_loop (bit : bool) (rng : list bits) (n : N) : brange :=
  match rng with
  | [] => BRange [] None n
  | b :: rest =>
    match find_first bit b with
    | Some i => BRange rng (Some i) n
    | None => br_select_loop bit rest (n + bsize b)
    end
  end.
Definition br_select (bit : bool) (r : brange) : option brange :=
  match br_rng r, br_i r with
  | b :: rest, Some i =>
    match find_next bit b i with
    | Some i' => Some (BRange (b :: rest) (Some i') (br_n r))
    | None => Some (br_select_loop bit rest (br_n r + bsize b))
    end
  | _, _ => None
  end.

(** [select(k)] (bitmap_algorithms.hpp:398-421). *)
Fixpoint br_select_k_loop (bit : bool) (rng : list bits) (n k : N) : brange :=
  match rng with
  | [] => BRange [] None n
  | b :: rest =>
    let next := br_select_k_loop bit rest (n + bsize b) (k - brank bit b) in
    if k <=? bsize b
    then match bselect bit b k with
         | Some i => BRange rng (Some i) n
         | None => next
         end
    else next
  end.
Definition br_select_k (bit : bool) (k : N) (r : brange) : option brange :=
  if k =? 0 then None else
  match br_rng r, br_i r with
  | b :: rest, Some i =>
    let prev := brank_at bit b i in
    let remaining := brank bit b - prev in
    if k <=? remaining
    then match bselect bit b (prev + k) with
         | Some i' => Some (BRange (b :: rest) (Some i') (br_n r))
         | None => None
         end
    else Some (br_select_k_loop bit rest (br_n r + bsize b) (k - remaining))
  | _, _ => None
  end.

(** [select_from] (bitmap_algorithms.hpp:426-437). *)
Definition br_select_from (bit : bool) (x : N) (r : brange) : option brange :=
  match br_get r with
  | None => None
  | Some offset =>
    if x <? offset then None else
    let r1 := if offset <? x then br_next_k (x - offset) r else Some r in
    match r1 with
    | None => None
    | Some r1 =>
      if br_done r1 then Some r1 else
      match br_value r1 with
      | None => None
      | Some v => if Bool.eqb v bit then Some r1 else br_select bit r1
      end
    end
  end.

(** [select_range] (bitmap_algorithms.hpp:455-495): constructor; [next] is
    [br_select], [next(k)] is [br_select_k] and [next_from] is [br_select_from]. *)
Definition select_init (bit : bool) (bs : list bits) : option brange :=
  let r := br_init bs in
  match bs with
  | [] => Some r
  | b :: _ => if Bool.eqb (bits_at b 0) bit then Some r else br_select bit r
  end.

(** A client loop over a range: collect [get] until [done]. *)
Fixpoint br_collect (next : brange -> option brange) (fuel : nat) (r : brange) : option (list N) :=
  if br_done r then Some [] else
  match fuel with
  | O => None
  | S f =>
    match br_get r, next r with
    | Some x, Some r' => option_map (cons x) (br_collect next f r')
    | _, _ => None
    end
  end.

(** * Traversal along intervals *)

Section SelectWith.
  Context {A : Type} (f : A -> N * N) (g : A -> bool).

  (** [std::lower_bound] with predicate [f(x).second <= y]
      (bitmap_algorithms.hpp:510-513) on a range partitioned by it: the first
      element for which the predicate is false. *)
  Fixpoint lower_bound (l : list A) (y : N) : list A :=
    match l with
    | [] => []
    | x :: l' => if snd (f x) <=? y then lower_bound l' y else l
    end.

  (** [select_with] (bitmap_algorithms.hpp:508-536). The result is the list of
      elements that [g] was applied to and whether it returned an error, which
      ends the loop. The fuel bounds the number of iterations. *)
  Fixpoint select_with_loop (fuel : nat) (rng : brange) (l : list A)
    : option (list A * bool) :=
    match l with
    | [] => Some ([], false)
    | x :: _ =>
      if br_done rng then Some ([], false) else
      match fuel with
      | O => None
      | S fu =>
        let '(first, last) := f x in
        match br_get rng with
        | None => None
        | Some p =>
          match (if p <? first then br_select_from true first rng else Some rng) with
          | None => None
          | Some rng1 =>
            if br_done rng1 then Some ([], false) else
            match br_get rng1 with
            | None => None
            | Some p1 =>
              if (first <=? p1) && (p1 <? last) then
                if g x then Some ([x], true) else
                match br_select_from true last rng1 with
                | None => None
                | Some rng2 =>
                  if br_done rng2 then Some ([x], false) else
                  match br_get rng2 with
                  | None => None
                  | Some p2 =>
                    option_map (fun r => (x :: fst r, snd r))
                               (select_with_loop fu rng2 (lower_bound l p2))
                  end
                end
              else select_with_loop fu rng1 (lower_bound l p1)
            end
          end
        end
      end
    end.
  Definition select_with (bs : list bits) (l : list A) : option (list A * bool) :=
    match select_init true bs with
    | None => None
    | Some rng => select_with_loop (length l) rng l
    end.
End SelectWith.

(** * Frame, any, all *)

(** [frame] (bitmap_algorithms.hpp:544-566): the two loops. *)
Fixpoint frame_last (bit : bool) (bs : list bits) (n : N) (second : N) : N :=
  match bs with
  | [] => second
  | b :: bs' =>
    frame_last bit bs' (n + bsize b)
      (match find_last bit b with Some l => n + l | None => second end)
  end.
Fixpoint frame_go (bit : bool) (bs : list bits) (n : N) : option (N * N) :=
  match bs with
  | [] => None
  | b :: bs' =>
    match find_first bit b with
    | Some first => Some (n + first, frame_last bit bs n (n + first))
    | None => frame_go bit bs' (n + bsize b)
    end
  end.
Definition frame (bit : bool) (bs : list bits) : option (N * N) := frame_go bit bs 0.

(** [any] (bitmap_algorithms.hpp:572-589). *)
Fixpoint any (bit : bool) (bs : list bits) : bool :=
  match bs with
  | [] => false
  | b :: bs' =>
    (if bit then negb (bdata b =? 0)
     else let x := if bsize b <? width
                   then N.lor (bdata b) (msb_fill (width - bsize b)) else bdata b in
          negb (x =? WordModel.all))
    || any bit bs'
  end.
(** [all] (bitmap_algorithms.hpp:597-602). *)
Definition all_of (bit : bool) (size : N) (bs : list bits) : bool :=
  if size =? 0 then false else negb (any (negb bit) bs).
(** [is_subset] (bitmap_algorithms.hpp:608-611). *)
Definition is_subset (xs ys : ewah) : option bool :=
  match binary_nand xs ys with
  | None => None
  | Some d => option_map (all_of false (num_bits d)) (bit_range d)
  end.

(** * ID sets *)

(** [make_ids] (ids.cpp:15-33). *)
Fixpoint make_ids_go (ranges : list (N * N)) (result : ewah) : option ewah :=
  match ranges with
  | [] => Some result
  | (first, last) :: ranges' =>
    if negb (first <? last) then None else
    let next :=
      if num_bits result <=? first then
        match append_bits false (first - num_bits result) result with
        | None => None
        | Some r => append_bits true (last - first) r
        end
      else
        match append_bits false first ewah_empty with
        | None => None
        | Some tmp =>
          match append_bits true (last - first) tmp with
          | None => None
          | Some tmp => binary_or result tmp
          end
        end in
    match next with
    | None => None
    | Some r => make_ids_go ranges' r
    end
  end.
Definition make_ids (ranges : list (N * N)) (min_size : N) (default_bit : bool) : option ewah :=
  match make_ids_go ranges ewah_empty with
  | None => None
  | Some r => if num_bits r <? min_size
              then append_bits default_bit (min_size - num_bits r) r else Some r
  end.
