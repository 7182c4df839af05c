(** Model of the bitmap coders: libvast/vast/coder.hpp and libvast/vast/base.hpp.

    The coders are templates over the bitmap type; so is the model, through
    [bitmap_ops]. [None] stands for a violated assertion or an out-of-bounds
    access. The assertion [Bitmap::max_size - size() >= n] is not modelled: sizes
    are unbounded natural numbers. Bitmaps that a coder extends lazily from const
    member functions ([mutable bitmaps_]) are extended in the model by the
    explicit operation [touch], and [decode] computes on extended copies. *)
From Coq Require Import List NArith Bool.
From Verif Require Import OperatorModel BitmapOps.
Import ListNotations.
Open Scope N_scope.

(** Replaces element [i] of a vector. *)
Fixpoint update {A} (i : nat) (f : A -> A) (l : list A) : list A :=
  match l, i with
  | [], _ => []
  | x :: l', O => f x :: l'
  | x :: l', S i' => x :: update i' f l'
  end.

(** Loops over a vector with its index. *)
Fixpoint mapi {A C} (i : nat) (f : nat -> A -> C) (l : list A) : list C :=
  match l with
  | [] => []
  | x :: l' => f i x :: mapi (S i) f l'
  end.

(** Loops over two vectors of equal size. *)
Fixpoint zip_with {A C D} (f : A -> C -> D) (xs : list A) (ys : list C) : list D :=
  match xs, ys with
  | x :: xs', y :: ys' => f x y :: zip_with f xs' ys'
  | _, _ => []
  end.

Section Coders.
  Context {B : Type} (ops : bitmap_ops B).

  (** * [singleton_coder] (coder.hpp:87-156): one bitmap *)

  (** [singleton_coder::encode] (coder.hpp:109-112). *)
  Definition single_encode (bm : B) (x : bool) (n : N) : B := b_app ops bm x n.
  (** [singleton_coder::skip] (coder.hpp:125-127). *)
  Definition single_skip (bm : B) (n : N) : B := b_app ops bm false n.
  (** [singleton_coder::append] (coder.hpp:129-131). *)
  Definition single_append (bm other : B) : B := b_append ops bm other.
  (** [singleton_coder::decode] (coder.hpp:114-123). *)
  Definition single_decode (bm : B) (op : relop) (x : bool) : option B :=
    match op with
    | op_eq => Some (if x then bm else b_not ops bm)
    | op_ne => Some (if x then b_not ops bm else bm)
    | _ => None
    end.

  (** * [vector_coder] (coder.hpp:158-213) *)

  (** Data members (coder.hpp:211-212). *)
  Record vcoder := { vsize : N; vmaps : list B }.

  (** Constructor from a bitmap count (coder.hpp:169-171). *)
  Definition vnew (n : N) : vcoder := {| vsize := 0; vmaps := repeat (b_empty ops) (N.to_nat n) |}.

  (** Number of bitmaps ([bitmap_count], coder.hpp:173-175). *)
  Definition vcount (c : vcoder) : N := N.of_nat (length (vmaps c)).

  (** The extension done by [lazy_bitmap_at] (coder.hpp:227-231, 319-323, 409-413):
      [result.append_bits(d, size_ - result.size())]. *)
  Definition fill (d : bool) (size : N) (bm : B) : B := b_app ops bm d (size - b_size ops bm).

  (** [bitmap_at] as a value; out-of-range indexes are [None]. *)
  Definition lazy_at (d : bool) (c : vcoder) (i : N) : option B :=
    option_map (fill d (vsize c)) (nth_error (vmaps c) (N.to_nat i)).

  (** [bitmap_at] as an effect: the stored bitmap stays extended. *)
  Definition touch (d : bool) (c : vcoder) (i : N) : vcoder :=
    {| vsize := vsize c; vmaps := update (N.to_nat i) (fill d (vsize c)) (vmaps c) |}.

  (** [skip] of all vector coders (coder.hpp:297-299, 386-388, 488-490). *)
  Definition vskip (c : vcoder) (n : N) : vcoder := {| vsize := vsize c + n; vmaps := vmaps c |}.

  (** [vector_coder::append] (coder.hpp:202-209). *)
  Definition vappend (d : bool) (c o : vcoder) : option vcoder :=
    if Nat.eqb (length (vmaps c)) (length (vmaps o)) then
      Some {| vsize := vsize c + vsize o;
              vmaps := zip_with (fun a b => b_append ops (fill d (vsize c) a) b) (vmaps c) (vmaps o) |}
    else None.

  (** * [equality_coder] (coder.hpp:215-304) *)

  (** [equality_coder::encode] (coder.hpp:241-246). *)
  Definition eq_encode (c : vcoder) (x n : N) : option vcoder :=
    if x <? vcount c then
      Some {| vsize := vsize c + n;
              vmaps := update (N.to_nat x) (fun bm => b_app ops (fill false (vsize c) bm) true n) (vmaps c) |}
    else None.

  (** [equality_coder::decode] (coder.hpp:248-295). *)
  Definition eq_decode (c : vcoder) (op : relop) (x : N) : option B :=
    if x <? vcount c then
      match op with
      | op_lt =>
        if x =? 0 then Some (b_new ops (vsize c) false)
        else Some (fill false (vsize c) (b_nary_or ops (firstn (N.to_nat x) (vmaps c))))
      | op_le => Some (fill false (vsize c) (b_nary_or ops (firstn (N.to_nat (x + 1)) (vmaps c))))
      | op_eq => lazy_at false c x
      | op_ne => option_map (b_not ops) (lazy_at false c x)
      | op_ge => Some (fill false (vsize c) (b_nary_or ops (skipn (N.to_nat x) (vmaps c))))
      | op_gt =>
        if vcount c - 1 <=? x then Some (b_new ops (vsize c) false)
        else Some (fill false (vsize c) (b_nary_or ops (skipn (N.to_nat (x + 1)) (vmaps c))))
      | _ => None
      end
    else None.

  (** * [range_coder] (coder.hpp:306-393) *)

  (** [range_coder::encode] (coder.hpp:333-342): the bitmaps below [x] receive zeros. *)
  Definition range_encode (c : vcoder) (x n : N) : option vcoder :=
    if x <? vcount c + 1 then
      Some {| vsize := vsize c + n;
              vmaps := mapi 0 (fun i bm => if N.of_nat i <? x then b_app ops (fill true (vsize c) bm) false n else bm)
                         (vmaps c) |}
    else None.

  (** [range_coder::decode] (coder.hpp:344-384). The assertion admits
      [x = bitmap_count()], for which [bitmap_at(x)] is out of bounds. *)
  Definition range_decode (c : vcoder) (op : relop) (x : N) : option B :=
    if x <? vcount c + 1 then
      match op with
      | op_lt => if x =? 0 then Some (b_new ops (vsize c) false) else lazy_at true c (x - 1)
      | op_le => lazy_at true c x
      | op_eq =>
        match lazy_at true c x with
        | None => None
        | Some r =>
          if 0 <? x then option_map (fun p => b_and ops r (b_not ops p)) (lazy_at true c (x - 1)) else Some r
        end
      | op_ne =>
        match lazy_at true c x with
        | None => None
        | Some r =>
          if 0 <? x then option_map (fun p => b_or ops (b_not ops r) p) (lazy_at true c (x - 1))
          else Some (b_not ops r)
        end
      | op_gt => option_map (b_not ops) (lazy_at true c x)
      | op_ge =>
        if x =? 0 then Some (b_new ops (vsize c) true)
        else option_map (b_not ops) (lazy_at true c (x - 1))
      | _ => None
      end
    else None.

  (** * [bitslice_coder] (coder.hpp:395-495) *)

  (** [bitslice_coder::encode] (coder.hpp:423-428): stores the complement of each bit. *)
  Definition slice_encode (c : vcoder) (x n : N) : vcoder :=
    {| vsize := vsize c + n;
       vmaps := mapi 0 (fun i bm => b_app ops (fill false (vsize c) bm) (negb (N.testbit x (N.of_nat i))) n) (vmaps c) |}.

  (** The loop of the inequality case (coder.hpp:449-453). *)
  Fixpoint slice_le_loop (x : N) (i : nat) (ms : list B) (result : B) : B :=
    match ms with
    | [] => result
    | bm :: ms' =>
      slice_le_loop x (S i) ms'
        (if N.testbit x (N.of_nat i) then b_or ops result bm else b_and ops result bm)
    end.

  (** The loop of the equality case (coder.hpp:463-466). *)
  Fixpoint slice_eq_loop (x : N) (i : nat) (ms : list B) (result : B) : B :=
    match ms with
    | [] => result
    | bm :: ms' =>
      slice_eq_loop x (S i) ms' (b_and ops result (if N.testbit x (N.of_nat i) then b_not ops bm else bm))
    end.

  (** The loop of the containment case (coder.hpp:477-479); bit [i] of [~x] is
      zero exactly if bit [i] of [x] is one. *)
  Fixpoint slice_in_loop (x : N) (i : nat) (ms : list B) (result : B) : B :=
    match ms with
    | [] => result
    | bm :: ms' => slice_in_loop x (S i) ms' (if N.testbit x (N.of_nat i) then b_or ops result bm else result)
    end.

  (** Inequality part of [bitslice_coder::decode] after the adjustment of [x]
      (coder.hpp:448-458); [bitmaps_[0]] needs at least one bitmap. *)
  Definition slice_ineq (c : vcoder) (op : relop) (x : N) : option B :=
    match vmaps c with
    | [] => None
    | bm0 :: ms =>
      let result := slice_le_loop x 1 ms (if N.testbit x 0 then b_new ops (vsize c) true else bm0) in
      Some (match op with op_gt | op_ge => b_not ops result | _ => result end)
    end.

  (** [bitslice_coder::decode] (coder.hpp:431-486). *)
  Definition slice_decode (c : vcoder) (op : relop) (x : N) : option B :=
    match op with
    | op_lt => if x =? 0 then Some (b_new ops (vsize c) false) else slice_ineq c op (x - 1)
    | op_ge => if x =? 0 then Some (b_new ops (vsize c) true) else slice_ineq c op (x - 1)
    | op_le | op_gt => slice_ineq c op x
    | op_eq => Some (slice_eq_loop x 0 (vmaps c) (b_new ops (vsize c) true))
    | op_ne => Some (b_not ops (slice_eq_loop x 0 (vmaps c) (b_new ops (vsize c) true)))
    | op_in =>
      if x =? 0 then Some (b_new ops (vsize c) false)
      else Some (b_not ops (slice_in_loop x 0 (vmaps c) (b_new ops (vsize c) false)))
    | op_not_in =>
      if x =? 0 then Some (b_new ops (vsize c) false)
      else Some (slice_in_loop x 0 (vmaps c) (b_new ops (vsize c) false))
    | _ => Some (b_new ops (vsize c) false)
    end.

  (** * [base] *)

  (** [base::well_defined] (base.cpp:25-28). *)
  Definition well_defined (b : list N) : bool :=
    negb (Nat.eqb (length b) 0) && forallb (fun x => 2 <=? x) b.

  (** [base::decompose] (base.hpp:61-71). *)
  Fixpoint decompose (b : list N) (x : N) : list N :=
    match b with
    | [] => []
    | d :: b' => x mod d :: decompose b' (x / d)
    end.

  (** [base::compose] (base.hpp:77-90), unbounded arithmetic: [m] is the weight
      of the current digit. *)
  Fixpoint compose_from (m : N) (b : list N) (xs : list N) : N :=
    match b, xs with
    | d :: b', x :: xs' => x * m + compose_from (m * d) b' xs'
    | _, _ => 0
    end.
  Definition compose (b xs : list N) : N := compose_from 1 b xs.

  (** * [multi_level_coder] (coder.hpp:521-706) *)

  (** Data members (coder.hpp:702-704); [xs_] is scratch space. *)
  Record mcoder := { mbase : list N; mcoders : list vcoder }.

  (** Encodes one digit per component (coder.hpp:545-546). *)
  Fixpoint encode_all (enc : vcoder -> N -> N -> option vcoder) (cs : list vcoder) (ds : list N) (n : N)
    : option (list vcoder) :=
    match cs, ds with
    | [], [] => Some []
    | c :: cs', d :: ds' =>
      match enc c d n, encode_all enc cs' ds' n with
      | Some c', Some r => Some (c' :: r)
      | _, _ => None
      end
    | _, _ => None
    end.

  (** Component coders ([init], [init_coders], coder.hpp:592-622): [k b] bitmaps
      for a digit of base [b]. *)
  Definition ml_new (k : N -> N) (b : list N) : option mcoder :=
    if well_defined b then Some {| mbase := b; mcoders := map (fun d => vnew (k d)) b |} else None.
  (** [init_coders] for range coders (coder.hpp:610-615): one bitmap less than values. *)
  Definition ml_new_range : list N -> option mcoder := ml_new (fun d => d - 1).
  (** [init_coders] for the other vector coders (coder.hpp:617-622). *)
  Definition ml_new_other : list N -> option mcoder := ml_new (fun d => d).

  (** [multi_level_coder::encode] (coder.hpp:541-547). *)
  Definition ml_encode (enc : vcoder -> N -> N -> option vcoder) (c : mcoder) (x n : N) : option mcoder :=
    option_map (fun cs => {| mbase := mbase c; mcoders := cs |})
      (encode_all enc (mcoders c) (decompose (mbase c) x) n).

  (** [multi_level_coder::skip] (coder.hpp:553-556). *)
  Definition ml_skip (c : mcoder) (n : N) : mcoder :=
    {| mbase := mbase c; mcoders := map (fun v => vskip v n) (mcoders c) |}.

  Fixpoint append_all (d : bool) (cs os : list vcoder) : option (list vcoder) :=
    match cs, os with
    | [], [] => Some []
    | c :: cs', o :: os' =>
      match vappend d c o, append_all d cs' os' with
      | Some c', Some r => Some (c' :: r)
      | _, _ => None
      end
    | _, _ => None
    end.
  (** [multi_level_coder::append] (coder.hpp:558-562); [append_all] is its loop. *)
  Definition ml_append (d : bool) (c o : mcoder) : option mcoder :=
    option_map (fun cs => {| mbase := mbase c; mcoders := cs |}) (append_all d (mcoders c) (mcoders o)).

  (** Lazy extension of bitmap [j] of component [i]. *)
  Definition ml_touch (d : bool) (c : mcoder) (i j : N) : mcoder :=
    {| mbase := mbase c; mcoders := update (N.to_nat i) (fun v => touch d v j) (mcoders c) |}.

  (** [multi_level_coder::size] (coder.hpp:564-566). *)
  Definition ml_size (c : mcoder) : N :=
    match mcoders c with [] => 0 | v :: _ => vsize v end.

  (** Inequality loop for components [1..] (coder.hpp:656-661). *)
  Fixpoint ml_le_loop (b : list N) (cs : list vcoder) (xs : list N) (result : B) : option B :=
    match b, cs, xs with
    | [], [], [] => Some result
    | bi :: b', ci :: cs', xi :: xs' =>
      let r1 :=
        if xi =? bi - 1 then Some result
        else option_map (b_and ops result) (lazy_at true ci xi) in
      match r1 with
      | None => None
      | Some r1 =>
        let r2 := if xi =? 0 then Some r1 else option_map (b_or ops r1) (lazy_at true ci (xi - 1)) in
        match r2 with
        | None => None
        | Some r2 => ml_le_loop b' cs' xs' r2
        end
      end
    | _, _, _ => None
    end.

  (** Equality loop (coder.hpp:665-672). *)
  Fixpoint ml_eq_loop (b : list N) (cs : list vcoder) (xs : list N) (result : B) : option B :=
    match b, cs, xs with
    | [], [], [] => Some result
    | bi :: b', ci :: cs', xi :: xs' =>
      let m :=
        if xi =? 0 then lazy_at true ci 0
        else if xi =? bi - 1 then option_map (b_not ops) (lazy_at true ci (bi - 2))
        else match lazy_at true ci xi, lazy_at true ci (xi - 1) with
             | Some p, Some q => Some (b_xor ops p q)
             | _, _ => None
             end in
      match m with
      | None => None
      | Some m => ml_eq_loop b' cs' xs' (b_and ops result m)
      end
    | _, _, _ => None
    end.

  (** The part of the range decoder after the adjustment of [x] (coder.hpp:643-679). *)
  Definition ml_range_eval (c : mcoder) (op : relop) (x : N) : option B :=
    let xs := decompose (mbase c) x in
    let r :=
      match op with
      | op_lt | op_le | op_gt | op_ge =>
        match mbase c, mcoders c, xs with
        | b0 :: b', c0 :: cs', x0 :: xs' =>
          match (if x0 <? b0 - 1 then lazy_at true c0 x0 else Some (b_new ops (ml_size c) true)) with
          | None => None
          | Some r0 => ml_le_loop b' cs' xs' r0
          end
        | _, _, _ => None
        end
      | op_eq | op_ne => ml_eq_loop (mbase c) (mcoders c) xs (b_new ops (ml_size c) true)
      | _ => Some (b_new ops (ml_size c) false)
      end in
    match op with
    | op_gt | op_ge | op_ne => option_map (b_not ops) r
    | _ => r
    end.

  (** Decoding with range coders (coder.hpp:624-680): [Range-Eval-Opt]. The
      assertion that all components have the same size is checked. *)
  Definition ml_range_decode (c : mcoder) (op : relop) (x : N) : option B :=
    match mcoders c with
    | [] => Some (b_empty ops)
    | _ =>
      if forallb (fun v => vsize v =? ml_size c) (mcoders c) then
        match op with
        | op_in | op_not_in => None
        | op_lt => if x =? 0 then Some (b_new ops (ml_size c) false) else ml_range_eval c op (x - 1)
        | op_ge => if x =? 0 then Some (b_new ops (ml_size c) true) else ml_range_eval c op (x - 1)
        | _ => ml_range_eval c op x
        end
      else None
    end.

  (** Conjunction over the components [1..] (coder.hpp:694-695). *)
  Fixpoint ml_and_loop (dec : vcoder -> relop -> N -> option B) (cs : list vcoder) (xs : list N) (result : B) : option B :=
    match cs, xs with
    | [], [] => Some result
    | c :: cs', x :: xs' =>
      match dec c op_eq x with
      | None => None
      | Some r => ml_and_loop dec cs' xs' (b_and ops result r)
      end
    | _, _ => None
    end.

  (** Decoding with equality or bitslice coders (coder.hpp:684-700): only [==] and [!=]. *)
  Definition ml_simple_decode (dec : vcoder -> relop -> N -> option B) (c : mcoder) (op : relop) (x : N) : option B :=
    match mcoders c, decompose (mbase c) x with
    | [], _ => Some (b_empty ops)
    | c0 :: cs, x0 :: xs =>
      match op with
      | op_eq | op_ne =>
        match dec c0 op_eq x0 with
        | None => None
        | Some r0 =>
          let r := ml_and_loop dec cs xs r0 in
          match op with op_ne => option_map (b_not ops) r | _ => r end
        end
      | _ => None
      end
    | _, _ => None
    end.
End Coders.
Arguments vcoder : clear implicits.
Arguments mcoder : clear implicits.
