(** Model of the index for strings (libvast/src/index/string_index.cpp) and of
    the one for enumerations (libvast/src/index/enumeration_index.cpp). Strings
    are lists of bytes. *)
From Coq Require Import List NArith Bool.
From Verif Require Import OperatorModel BitmapOps CoderModel ValueIndexModel.
Import ListNotations.
Open Scope N_scope.

(** The integral part of [std::log10] of a positive integer (string_index.cpp:27);
    [fuel] is at least the number of digits. *)
Fixpoint log10_loop (fuel : nat) (n : N) : nat :=
  match fuel with
  | O => O
  | S f => if n <? 10 then O else S (log10_loop f (n / 10))
  end.
Definition log10_floor (n : N) : nat := log10_loop (N.to_nat (N.size n)) n.

(** The base of the length index (string_index.cpp:27, base.hpp:38-40): the sum of
    the logarithm and the flag is truncated to an integer. [log10(0)] is not a
    number of components. *)
Definition length_base (max : N) : list N := repeat 10 (log10_floor max + (if max mod 10 =? 0 then 0 else 1))%nat.

Section StringIndex.
  Context {B : Type} (ops : bitmap_ops B).

  (** Data members (string_index.hpp:56-58). *)
  Record strindex := { st_max : N; st_len : mcoder B; st_chars : list (vcoder B) }.

  (** Constructor (string_index.cpp:23-29). *)
  Definition st_new (max : N) : option strindex :=
    if max =? 0 then None
    else option_map (fun l => {| st_max := max; st_len := l; st_chars := [] |}) (ml_new_range ops (length_base max)).

  (** The number of indexed characters (string_index.cpp:45-47, 68-70). *)
  Definition st_clip (s : strindex) (str : list N) : nat := Nat.min (length str) (N.to_nat (st_max s)).

  (** [string_index::append_impl] (string_index.cpp:41-57). *)
  Definition st_append (s : strindex) (str : list N) (pos : N) : option strindex :=
    let n := st_clip s str in
    let chars := st_chars s ++ repeat (vnew ops 8) (n - length (st_chars s)) in
    match ml_encode (range_encode ops) (ml_skip (st_len s) (pos - ml_size (st_len s))) (N.of_nat n) 1 with
    | None => None
    | Some l =>
      Some {| st_max := st_max s;
              st_len := l;
              st_chars := mapi 0 (fun i c => if Nat.ltb i n then slice_encode ops (vskip c (pos - vsize c)) (nth i str 0) 1 else c) chars |}
    end.

  (** The loop over characters of an equality lookup (string_index.cpp:88-94);
      [Some None] is the early return. *)
  Fixpoint st_eq_loop (cs : list (vcoder B)) (xs : list N) (result : B) {struct xs} : option (option B) :=
    match xs with
    | [] => Some (Some result)
    | x :: xs' =>
      match cs with
      | [] => None
      | c :: cs' =>
        match slice_decode ops c op_eq x with
        | None => None
        | Some b =>
          let result := b_and ops result b in
          if b_all ops false result then Some None else st_eq_loop cs' xs' result
        end
      end
    end.

  (** [==] and [!=] (string_index.cpp:74-98). *)
  Definition st_lookup_eq (s : strindex) (offset : N) (ne : bool) (xs : list N) : option B :=
    if Nat.eqb (length xs) 0 then
      option_map (fun r => if ne then b_not ops r else r) (ml_range_decode ops (st_len s) op_eq 0)
    else if Nat.ltb (length (st_chars s)) (length xs) then Some (b_new ops offset ne)
    else
      match ml_range_decode ops (st_len s) op_le (N.of_nat (length xs)) with
      | None => None
      | Some result =>
        if b_all ops false result then Some (b_new ops offset ne)
        else
          match st_eq_loop (st_chars s) xs result with
          | None => None
          | Some None => Some (b_new ops offset ne)
          | Some (Some result) => Some (if ne then b_not ops result else result)
          end
      end.

  (** The inner loop of a substring lookup (string_index.cpp:110-119); [Some None]
      means [skip]. *)
  Fixpoint st_window (cs : list (vcoder B)) (xs : list N) (substr : B) {struct xs} : option (option B) :=
    match xs with
    | [] => Some (Some substr)
    | x :: xs' =>
      match cs with
      | [] => None
      | c :: cs' =>
        match slice_decode ops c op_eq x with
        | None => None
        | Some bm => if b_all ops false bm then Some None else st_window cs' xs' (b_and ops substr bm)
        end
      end
    end.
  (** The outer loop (string_index.cpp:107-122); the list holds the values of [i]. *)
  Fixpoint st_windows (s : strindex) (offset : N) (xs : list N) (is : list nat) (result : B) : option B :=
    match is with
    | [] => Some result
    | i :: is' =>
      match st_window (skipn i (st_chars s)) xs (b_new ops offset true) with
      | None => None
      | Some None => st_windows s offset xs is' result
      | Some (Some substr) => st_windows s offset xs is' (b_or ops result substr)
      end
    end.
  (** [ni] and [not_ni] (string_index.cpp:99-126). *)
  Definition st_lookup_ni (s : strindex) (offset : N) (neg : bool) (xs : list N) : option B :=
    if Nat.eqb (length xs) 0 then Some (b_new ops offset (negb neg))
    else if Nat.ltb (length (st_chars s)) (length xs) then Some (b_new ops offset neg)
    else
      option_map (fun r => if neg then b_not ops r else r)
        (st_windows s offset xs (seq 0 (length (st_chars s) - length xs + 1)) (b_new ops offset false)).

  (** [string_index::lookup_impl] for strings (string_index.cpp:60-131). *)
  Definition st_lookup (s : strindex) (offset : N) (op : relop) (str : list N) : option B :=
    let xs := firstn (st_clip s str) str in
    match op with
    | op_eq => st_lookup_eq s offset false xs
    | op_ne => st_lookup_eq s offset true xs
    | op_ni => st_lookup_ni s offset false xs
    | op_not_ni => st_lookup_ni s offset true xs
    | _ => None
    end.

  Definition string_impl : index_impl B strindex (list N) (list N) :=
    {| i_append := st_append; i_lookup := st_lookup |}.

  (** [enumeration_index] (enumeration_index.cpp:20-24, 36-58): an equality coder
      with 256 bitmaps. *)
  Definition enum_new : vcoder B := vnew ops 256.
  Definition enum_impl : index_impl B (vcoder B) N N := {|
    i_append := fun s v pos => eq_encode ops (vskip s (pos - vsize s)) v 1;
    i_lookup := fun s _ op x => match op with op_in | op_not_in => None | _ => eq_decode ops s op x end
  |}.
End StringIndex.
Arguments strindex : clear implicits.
