(** Model of the hash index (libvast/vast/index/hash_index.hpp). The hash
    function and the type of digests are parameters: [hash x seed] is the digest
    of a value or of nil ([None]) (hash_index.hpp:75-80). *)
From Coq Require Import List NArith Bool.
From Verif Require Import OperatorModel BitmapOps ValueIndexModel.
Import ListNotations.
Open Scope N_scope.

Section HashIndex.
  Context {B : Type} (ops : bitmap_ops B) {V D : Type}.
  Context (eqv : V -> V -> bool) (eqd : D -> D -> bool) (hash : option V -> nat -> D).
  (** The positions of the ones of a bitmap, in increasing order: what a range
      returned by [select] visits (bitmap_algorithms.hpp:497-620). *)
  Context (ones : B -> list N).

  (** Data members (hash_index.hpp:260-267); the set and the map are lists. *)
  Record hindex := { h_digests : list D; h_unique : list D; h_seeds : list (V * nat) }.
  Definition h_new : hindex := {| h_digests := []; h_unique := []; h_seeds := [] |}.

  (** [seeds_.find(x)]. *)
  Fixpoint find_seed (x : V) (seeds : list (V * nat)) : option nat :=
    match seeds with
    | [] => None
    | (y, s) :: seeds' => if eqv y x then Some s else find_seed x seeds'
    end.
  Definition seen (d : D) (l : list D) : bool := existsb (eqd d) l.

  (** [max_hash_rounds] (hash_index.hpp:62). *)
  Definition max_hash_rounds : nat := 32.

  (** The loop of [make_digest] (hash_index.hpp:146-167) from round [i]. The outer
      [None] is a failed assertion, the inner one an empty result. *)
  Fixpoint make_digest (rounds i : nat) (s : hindex) (x : V) : option (option (D * hindex)) :=
    match rounds with
    | O => Some None
    | S rounds' =>
      let digest := hash (Some x) i in
      if negb (seen digest (h_unique s)) then
        match find_seed x (h_seeds s) with
        | Some _ => None
        | None => Some (Some (digest, {| h_digests := h_digests s; h_unique := digest :: h_unique s; h_seeds := h_seeds s ++ [(x, i)] |}))
        end
      else
        match find_seed x (h_seeds s) with
        | Some seed => Some (Some (hash (Some x) seed, s))
        | None => make_digest rounds' (S i) s x
        end
    end.

  (** [immutable] (hash_index.hpp:256-258). *)
  Definition h_immutable (s : hindex) : bool :=
    match h_unique s, h_digests s with [], _ :: _ => true | _, _ => false end.

  (** [append_impl] (hash_index.hpp:175-184). *)
  Definition h_append (s : hindex) (x : V) (pos : N) : option hindex :=
    if h_immutable s then None
    else
      match make_digest max_hash_rounds 0 s x with
      | Some (Some (d, s')) => Some {| h_digests := h_digests s' ++ [d]; h_unique := h_unique s'; h_seeds := h_seeds s' |}
      | _ => None
      end.

  (** [find_digest] (hash_index.hpp:170-173); nil is never in the map. *)
  Definition find_digest (s : hindex) (x : option V) : D :=
    match x with
    | None => hash None 0
    | Some v => match find_seed v (h_seeds s) with Some seed => hash x seed | None => hash x 0 end
    end.

  (** The loop of [scan] (hash_index.hpp:196-205); [rng] holds the positions from
      the current one on. [None] is an access to a range that is done. *)
  Fixpoint scan_loop (pred : D -> bool) (ds : list D) (i last_match : nat) (rng : list N) (result : B) : option B :=
    match ds with
    | [] => Some result
    | d :: ds' =>
      if pred d then
        match skipn (i - last_match) rng with
        | [] => None
        | (p :: _) as rng' => scan_loop pred ds' (S i) i rng' (b_app ops (b_app ops result false (p - b_size ops result)) true 1)
        end
      else scan_loop pred ds' (S i) last_match rng result
    end.
  (** [scan] (hash_index.hpp:191-207). *)
  Definition scan (mask : B) (s : hindex) (pred : D -> bool) : option B :=
    match ones mask with
    | [] => Some (b_empty ops)
    | _ => scan_loop pred (h_digests s) 0 0 (ones mask) (b_empty ops)
    end.

  (** An operand: a scalar (or nil inside of lists) or a list. *)
  Inductive hash_operand := HScalar (x : V) | HList (xs : list (option V)).

  (** [lookup_impl] (hash_index.hpp:186-248) with the mask of the base class. *)
  Definition h_lookup (mask : B) (s : hindex) (op : relop) (x : hash_operand) : option B :=
    if negb (Nat.eqb (length (ones mask)) (length (h_digests s))) then None
    else
      match op, x with
      | op_eq, HScalar x => let k := find_digest s (Some x) in scan mask s (fun d => eqd k d)
      | op_ne, HScalar x => let k := find_digest s (Some x) in scan mask s (fun d => negb (eqd k d))
      | op_in, HList xs => let ks := map (find_digest s) xs in scan mask s (fun d => existsb (fun k => eqd k d) ks)
      | op_not_in, HList xs => let ks := map (find_digest s) xs in scan mask s (fun d => negb (existsb (fun k => eqd k d) ks))
      | _, _ => None
      end.

  (** [value_index::lookup] of a hash index (value_index.cpp:62-81). *)
  Definition hash_lookup (i : vindex B hindex) (op : relop) (x : hash_operand) : option B :=
    option_map (vi_finish ops i op) (h_lookup (vi_mask i) (vi_state i) op x).

  (** The part of the index that the base class needs for [append]. *)
  Definition hash_impl : index_impl B hindex V unit := {| i_append := h_append; i_lookup := fun _ _ _ _ => None |}.

  (** What [serialize] followed by [deserialize] makes of the state
      (hash_index.hpp:89-102). *)
  Definition h_reload (s : hindex) : hindex :=
    {| h_digests := h_digests s; h_unique := []; h_seeds := filter (fun p => Nat.ltb 0 (snd p)) (h_seeds s) |}.
End HashIndex.
Arguments hindex : clear implicits.
Arguments hash_operand : clear implicits.
