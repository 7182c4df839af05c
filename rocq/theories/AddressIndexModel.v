(** Model of the indexes for addresses and subnets
    (libvast/src/index/address_index.cpp, libvast/src/index/subnet_index.cpp).

    Their byte and length indexes are [bitmap_index]es without binning, that is,
    coders (bitmap_index.hpp:66-108). *)
From Coq Require Import List NArith Bool.
From Verif Require Import OperatorModel BitmapOps CoderModel ValueIndexModel AddressModel.
Import ListNotations.
Open Scope N_scope.

(** Scalar operands the two indexes accept. *)
Inductive ip_operand := Ip (a : address) | Net (s : subnet).

Section AddressIndex.
  Context {B : Type} (ops : bitmap_ops B).

  (** Data members (address_index.hpp:48-49). *)
  Record aindex := { ai_bytes : list (vcoder B); ai_v4 : B }.

  (** Constructor (address_index.cpp:23-26): 16 byte indexes of 8 bitmaps. *)
  Definition ai_new : aindex := {| ai_bytes := repeat (vnew ops 8) 16; ai_v4 := b_empty ops |}.

  (** [address_index::append_impl] (address_index.cpp:38-50). *)
  Definition ai_append (s : aindex) (a : address) (pos : N) : option aindex :=
    Some {| ai_bytes := zip_with (fun c x => slice_encode ops (vskip c (pos - vsize c)) x 1) (ai_bytes s) a;
            ai_v4 := single_encode ops (single_skip ops (ai_v4 s) (pos - b_size ops (ai_v4 s))) (is_v4 a) 1 |}.

  (** The loop of the equality lookup (address_index.cpp:64-69); [Some None] is
      the early return. *)
  Fixpoint ai_eq_loop (cs : list (vcoder B)) (xs : list N) (result : B) : option (option B) :=
    match cs, xs with
    | c :: cs', x :: xs' =>
      match slice_decode ops c op_eq x with
      | None => None
      | Some bm =>
        let result := b_and ops result bm in
        if b_all ops false result then Some None else ai_eq_loop cs' xs' result
      end
    | _, _ => Some (Some result)
    end.

  (** The first bitmap and the first byte (address_index.cpp:63-64, 90-92). *)
  Definition ai_start (s : aindex) (offset : N) (v4 : bool) : B := if v4 then ai_v4 s else b_new ops offset true.
  Definition ai_first (v4 : bool) : nat := if v4 then 12%nat else 0%nat.

  (** Lookup of an address (address_index.cpp:59-73). *)
  Definition ai_lookup_address (s : aindex) (offset : N) (op : relop) (x : address) : option B :=
    match op with
    | op_eq | op_ne =>
      let v4 := is_v4 x in
      match ai_eq_loop (skipn (ai_first v4) (ai_bytes s)) (skipn (ai_first v4) x) (ai_start s offset v4) with
      | None => None
      | Some None => Some (b_new ops offset (relop_eqb op op_ne))
      | Some (Some result) => Some (if relop_eqb op op_ne then b_not ops result else result)
      end
    | _ => None
    end.

  (** The loop over the remaining bits (address_index.cpp:95-99). *)
  Fixpoint ai_bits_loop (ms : list B) (byte : N) (bits : list nat) (result : B) : option B :=
    match bits with
    | [] => Some result
    | j :: bits' =>
      let bit := (7 - j)%nat in
      match nth_error ms bit with
      | None => None
      | Some bm =>
        ai_bits_loop ms byte bits' (b_and ops result (if N.testbit byte (N.of_nat bit) then b_not ops bm else bm))
      end
    end.
  (** The loop over whole bytes (address_index.cpp:93-94) and the one above. *)
  Fixpoint ai_prefix_loop (cs : list (vcoder B)) (xs : list N) (topk : N) (result : B) : option B :=
    match cs, xs with
    | c :: cs', x :: xs' =>
      if 8 <=? topk then
        match slice_decode ops c op_eq x with
        | None => None
        | Some bm => ai_prefix_loop cs' xs' (topk - 8) (b_and ops result bm)
        end
      else ai_bits_loop (vmaps c) x (seq 0 (N.to_nat topk)) result
    | _, _ => if topk =? 0 then Some result else None
    end.

  (** Lookup of a subnet (address_index.cpp:74-103). *)
  Definition ai_lookup_subnet (s : aindex) (offset : N) (op : relop) (x : subnet) : option B :=
    match op with
    | op_in | op_not_in =>
      let topk := sn_length x in
      if topk =? 0 then None
      else
        let v4 := is_v4 (sn_net x) in
        if (if v4 then topk + 96 else topk) =? 128 then
          ai_lookup_address s offset (if relop_eqb op op_in then op_eq else op_ne) (sn_net x)
        else
          option_map (fun result => if relop_eqb op op_not_in then b_not ops result else result)
            (ai_prefix_loop (skipn (ai_first v4) (ai_bytes s)) (skipn (ai_first v4) (sn_net x)) topk
               (ai_start s offset v4))
    | _ => None
    end.

  (** [address_index::lookup_impl] (address_index.cpp:52-107). *)
  Definition ai_lookup (s : aindex) (offset : N) (op : relop) (x : ip_operand) : option B :=
    match x with
    | Ip a => ai_lookup_address s offset op a
    | Net n => ai_lookup_subnet s offset op n
    end.

  Definition address_impl : index_impl B aindex address ip_operand :=
    {| i_append := ai_append; i_lookup := ai_lookup |}.

  (** Data members (subnet_index.hpp:48-49): an address index with its own base
      class, and an equality-coded length. *)
  Record sindex := { si_net : vindex B aindex; si_len : vcoder B }.

  (** Constructor (subnet_index.cpp:23-28). *)
  Definition si_new : sindex := {| si_net := vi_new ops ai_new; si_len := vnew ops 129 |}.

  (** [subnet_index::append_impl] (subnet_index.cpp:40-47). *)
  Definition si_append (s : sindex) (x : subnet) (pos : N) : option sindex :=
    match eq_encode ops (vskip (si_len s) (pos - vsize (si_len s))) (sn_length x) 1 with
    | None => None
    | Some len =>
      match vi_append ops address_impl (si_net s) (Some (sn_net x)) pos with
      | None => None
      | Some net => Some {| si_net := net; si_len := len |}
      end
    end.

  (** The loop of the lookup of an address (subnet_index.cpp:62-71); the list
      holds the values of [i]. *)
  Fixpoint si_ni_address (s : sindex) (x : address) (bits : N) (is : list N) (result : B) : option B :=
    match is with
    | [] => Some result
    | i :: is' =>
      match eq_decode ops (si_len s) op_eq i,
            vi_lookup ops address_impl (si_net s) op_eq (Some (Ip (addr_mask x (128 - bits + i)))) with
      | Some len, Some net => si_ni_address s x bits is' (b_or ops result (b_and ops len net))
      | _, _ => None
      end
    end.

  (** The loop of [ni] for a subnet (subnet_index.cpp:111-118). *)
  Fixpoint si_ni_subnet (s : sindex) (x : subnet) (is : list N) (result : B) : option B :=
    match is with
    | [] => Some result
    | i :: is' =>
      match vi_lookup ops address_impl (si_net s) op_in (Some (Net (sn_make (sn_net x) i))),
            eq_decode ops (si_len s) op_eq i with
      | Some xs, Some len => si_ni_subnet s x is' (b_or ops result (b_and ops xs len))
      | _, _ => None
      end
    end.

  (** Numbers from [a], [n] of them. *)
  Definition range (a n : N) : list N := map (fun k => a + N.of_nat k) (seq 0 (N.to_nat n)).

  (** [subnet_index::lookup_impl] (subnet_index.cpp:49-127). *)
  Definition si_lookup (s : sindex) (offset : N) (op : relop) (x : ip_operand) : option B :=
    match x with
    | Ip a =>
      match op with
      | op_ni | op_not_ni =>
        let bits := if is_v4 a then 32 else 128 in
        option_map (fun result => if relop_eqb op op_not_ni then b_not ops result else result)
          (si_ni_address s a bits (range 0 (bits + 1)) (b_new ops offset false))
      | _ => None
      end
    | Net n =>
      match op with
      | op_eq | op_ne =>
        match vi_lookup ops address_impl (si_net s) op_eq (Some (Ip (sn_net n))),
              eq_decode ops (si_len s) op_eq (sn_length n) with
        | Some result, Some len =>
          let result := b_and ops result len in
          Some (if relop_eqb op op_ne then b_not ops result else result)
        | _, _ => None
        end
      | op_in | op_not_in =>
        match vi_lookup ops address_impl (si_net s) op_in (Some (Net n)),
              eq_decode ops (si_len s) op_ge (sn_length n) with
        | Some result, Some len =>
          let result := b_and ops result len in
          Some (if relop_eqb op op_not_in then b_not ops result else result)
        | _, _ => None
        end
      | op_ni | op_not_ni =>
        option_map (fun result => if relop_eqb op op_not_ni then b_not ops result else result)
          (si_ni_subnet s n (range 1 (sn_length n)) (b_empty ops))
      | _ => None
      end
    end.

  Definition subnet_impl : index_impl B sindex subnet ip_operand :=
    {| i_append := si_append; i_lookup := si_lookup |}.
End AddressIndex.
Arguments aindex : clear implicits.
Arguments sindex : clear implicits.
