(** Model of Bloom filters: libvast/vast/bloom_filter.hpp and libvast/vast/hasher.hpp.
    The hash function (xxhash64 with a seed) is an arbitrary function. Results are
    [None] for an access out of bounds, a division by zero or a violated assertion. *)
From Coq Require Import List NArith Bool Arith.
Import ListNotations.
Open Scope nat_scope.

(** [simple_hasher] and [double_hasher] (hasher.hpp:92-140, 143-188): the number of
    digests and the seeds. *)
Inductive hasher :=
| simple_hasher (k : nat) (seeds : list N)
| double_hasher (k : nat) (seed1 seed2 : N).
(** [hasher::size] (hasher.hpp:63-65). *)
Definition hasher_size (h : hasher) : nat := match h with simple_hasher k _ | double_hasher k _ _ => k end.

Definition word_size : N := (2 ^ 64)%N.

Section Hash.
  Context {V : Type}.
  (** [seeded_hash] (hasher.hpp:23-39). *)
  Variable hash : N -> V -> N.

  (** [simple_hasher::hash] (hasher.hpp:114-119), [double_hasher::hash]
      (hasher.hpp:165-171) with 64-bit arithmetic. *)
  Definition digests (h : hasher) (x : V) : list N :=
    match h with
    | simple_hasher _ seeds => map (fun s => hash s x) seeds
    | double_hasher k s1 s2 =>
      map (fun i => ((hash s1 x + N.of_nat i * hash s2 x) mod word_size)%N) (seq 0 k)
    end.

  (** [bloom_filter]: the partitioning policy, the hasher and the bits
      (bloom_filter.hpp:43-60, 150-151). *)
  Record bloom := { bf_partitioned : bool; bf_hasher : hasher; bf_bits : list bool }.

  (** [position] (bloom_filter.hpp:139-148). *)
  Definition position (f : bloom) (i : nat) (d : N) : option nat :=
    let m := length (bf_bits f) in
    if bf_partitioned f then
      if hasher_size (bf_hasher f) =? 0 then None
      else let n := m / hasher_size (bf_hasher f) in
           if n =? 0 then None else Some (i * n + N.to_nat (d mod N.of_nat n))
    else if m =? 0 then None else Some (N.to_nat (d mod N.of_nat m)).

  (** Setting a bit. *)
  Fixpoint set_bit (bs : list bool) (i : nat) : option (list bool) :=
    match bs, i with
    | [], _ => None
    | _ :: bs', O => Some (true :: bs')
    | b :: bs', S i' => option_map (cons b) (set_bit bs' i')
    end.

  (** [add] (bloom_filter.hpp:66-76): the new filter and whether some bit was unset. *)
  Fixpoint add_digests (f : bloom) (i : nat) (ds : list N) (unique : bool) : option (bloom * bool) :=
    match ds with
    | [] => Some (f, unique)
    | d :: ds' =>
      match position f i d with
      | None => None
      | Some p =>
        match nth_error (bf_bits f) p, set_bit (bf_bits f) p with
        | Some b, Some bs =>
          add_digests {| bf_partitioned := bf_partitioned f; bf_hasher := bf_hasher f; bf_bits := bs |} (S i) ds' (unique || negb b)
        | _, _ => None
        end
      end
    end.
  Definition bf_add (f : bloom) (x : V) : option (bloom * bool) := add_digests f 0 (digests (bf_hasher f) x) false.

  (** [lookup] (bloom_filter.hpp:82-89). *)
  Fixpoint lookup_digests (f : bloom) (i : nat) (ds : list N) : option bool :=
    match ds with
    | [] => Some true
    | d :: ds' =>
      match position f i d with
      | None => None
      | Some p => match nth_error (bf_bits f) p with
                  | None => None
                  | Some false => Some false
                  | Some true => lookup_digests f (S i) ds'
                  end
      end
    end.
  Definition bf_lookup (f : bloom) (x : V) : option bool := lookup_digests f 0 (digests (bf_hasher f) x).

  (** [make_bloom_filter] (bloom_filter.hpp:161-190) for the sizes [m] and [k] that
      [evaluate] computed. *)
  Definition make_bloom (partitioned simple : bool) (mk : option (nat * nat)) (seeds : list N) : option bloom :=
    match mk with
    | None => None
    | Some (m, k) =>
      if (m =? 0) || (k =? 0) then None
      else let default := if simple then map N.of_nat (seq 0 k) else [0%N; 1%N] in
           let ss := match seeds with [] => default | _ => seeds end in
           if match seeds with [] => false | _ => negb (length seeds =? k) end then None
           else if simple then Some {| bf_partitioned := partitioned; bf_hasher := simple_hasher k ss; bf_bits := repeat false m |}
           else match ss with
                | [a; b] => Some {| bf_partitioned := partitioned; bf_hasher := double_hasher k a b; bf_bits := repeat false m |}
                | _ => None
                end
    end.
End Hash.
