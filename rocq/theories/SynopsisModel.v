(** Model of column synopses: libvast/vast/min_max_synopsis.hpp, libvast/src/time_synopsis.cpp,
    libvast/src/bool_synopsis.cpp, libvast/vast/bloom_filter_synopsis.hpp,
    libvast/vast/string_synopsis.hpp, libvast/vast/address_synopsis.hpp,
    libvast/vast/buffered_synopsis.hpp, libvast/src/synopsis.cpp,
    libvast/src/synopsis_factory.cpp.

    Operations are [None] for a violated assertion, a bad variant access or undefined
    behaviour. The hash function is arbitrary, as is the floating-point computation of
    the sizes of Bloom filters. *)
From Coq Require Import List ZArith NArith Bool Arith.
From Verif Require Import OperatorModel AddressModel DataModel TypeModel BloomModel.
Import ListNotations.
Open Scope nat_scope.

(** The value types with Bloom filter synopses. *)
Inductive kind := KString | KAddress.
Definition of_kind (k : kind) (x : data) : bool :=
  match k, x with KString, DString _ | KAddress, DAddress _ => true | _, _ => false end.

(** The synopses: [bool_synopsis] with [true_] and [false_], [time_synopsis] with [min_]
    and [max_], [string_synopsis] or [address_synopsis], and [buffered_synopsis] with its
    false-positive rate and its hash set. The type of a synopsis is used only for
    serialisation and left out. *)
Inductive synopsis :=
| SBool (any_true any_false : bool)
| STime (mn mx : Z)
| SBloom (k : kind) (f : bloom)
| SBuffered (k : kind) (p : N) (xs : list data).

(** [time::min()] and [time::max()]: 64-bit nanoseconds. *)
Definition time_min : Z := (- 2 ^ 63)%Z.
Definition time_max : Z := (2 ^ 63 - 1)%Z.

Section Hash.
  Variable hash : N -> data -> N.

  (** [add] (min_max_synopsis.hpp:31-38, bool_synopsis.cpp:26-32,
      bloom_filter_synopsis.hpp:34-37, buffered_synopsis.hpp:71-75). *)
  Definition syn_add (s : synopsis) (x : data) : option synopsis :=
    match s with
    | SBool t f => match x with DBool b => Some (if b then SBool true f else SBool t true) | _ => None end
    | STime mn mx =>
      match x with
      | DTime z => Some (STime (if (z <? mn)%Z then z else mn) (if (z >? mx)%Z then z else mx))
      | _ => None
      end
    | SBloom k f => if of_kind k x then option_map (fun r => SBloom k (fst r)) (bf_add hash f x) else None
    | SBuffered k p xs =>
      if of_kind k x then Some (SBuffered k p (if existsb (view_eqb x) xs then xs else x :: xs)) else None
    end.

  (** [min_max_synopsis::lookup_impl] (min_max_synopsis.hpp:100-139). *)
  Definition min_max_impl (mn mx : Z) (op : relop) (x : Z) : option bool :=
    match op with
    | op_eq => Some ((mn <=? x) && (x <=? mx))%Z
    | op_ne => Some (negb ((mn <=? x) && (x <=? mx)))%Z
    | op_lt => Some (mn <? x)%Z
    | op_le => Some (mn <=? x)%Z
    | op_gt => Some (mx >? x)%Z
    | op_ge => Some (mx >=? x)%Z
    | _ => None
    end.
  (** [min_max_synopsis::lookup] (min_max_synopsis.hpp:40-76). The outer option is the
      assertion, the inner one the optional result. *)
  Definition time_equal (mn mx : Z) (x : data) : bool :=
    match x with DTime z => (mn <=? z)%Z && (z <=? mx)%Z | _ => false end.
  Definition min_max_lookup (mn mx : Z) (op : relop) (rhs : data) : option (option bool) :=
    match op with
    | op_in => Some (match rhs with DList xs => Some (existsb (time_equal mn mx) xs) | _ => None end)
    | op_not_in => Some (match rhs with DList xs => Some (negb (existsb (time_equal mn mx) xs)) | _ => None end)
    | op_eq | op_ne | op_lt | op_le | op_gt | op_ge =>
      match rhs with
      | DTime z => option_map Some (min_max_impl mn mx op z)
      | _ => Some None
      end
    | _ => Some None
    end.

  (** [bool_synopsis::lookup] (bool_synopsis.cpp:38-47). *)
  Definition bool_lookup (t f : bool) (op : relop) (rhs : data) : option bool :=
    match rhs, op with
    | DBool b, op_eq => Some (if b then t else f)
    | DBool b, op_ne => Some (if b then f else t)
    | _, _ => None
    end.

  (** [bloom_filter_synopsis::lookup] (bloom_filter_synopsis.hpp:39-70). *)
  Fixpoint bloom_member (k : kind) (f : bloom) (xs : list data) : option (option bool) :=
    match xs with
    | [] => Some (Some false)
    | DNone :: _ => Some None
    | x :: xs' =>
      if of_kind k x
      then match bf_lookup hash f x with
           | None => None
           | Some true => Some (Some true)
           | Some false => bloom_member k f xs'
           end
      else bloom_member k f xs'
    end.
  Definition bloom_lookup (k : kind) (f : bloom) (op : relop) (rhs : data) : option (option bool) :=
    match op with
    | op_eq => match rhs with
               | DNone => Some None
               | _ => if of_kind k rhs then option_map Some (bf_lookup hash f rhs) else Some (Some false)
               end
    | op_in => match rhs with DList xs => bloom_member k f xs | _ => Some None end
    | _ => Some None
    end.

  (** [buffered_synopsis::lookup] (buffered_synopsis.hpp:81-100): [caf::get] on a value of
      another type is undefined. *)
  Fixpoint buffered_member (k : kind) (vs xs : list data) : option (option bool) :=
    match xs with
    | [] => Some (Some false)
    | x :: xs' => if of_kind k x
                  then if existsb (view_eqb x) vs then Some (Some true) else buffered_member k vs xs'
                  else None
    end.
  Definition buffered_lookup (k : kind) (vs : list data) (op : relop) (rhs : data) : option (option bool) :=
    match op with
    | op_eq => if of_kind k rhs then Some (Some (existsb (view_eqb rhs) vs)) else None
    | op_in => match rhs with DList xs => buffered_member k vs xs | _ => Some None end
    | _ => Some None
    end.

  Definition syn_lookup (s : synopsis) (op : relop) (rhs : data) : option (option bool) :=
    match s with
    | SBool t f => Some (bool_lookup t f op rhs)
    | STime mn mx => min_max_lookup mn mx op rhs
    | SBloom k f => bloom_lookup k f op rhs
    | SBuffered k _ vs => buffered_lookup k vs op rhs
    end.

  (** Adding a column; nil is skipped (partition_synopsis.cpp:48-57). *)
  Fixpoint syn_add_all (s : synopsis) (xs : list data) : option synopsis :=
    match xs with
    | [] => Some s
    | DNone :: xs' => syn_add_all s xs'
    | x :: xs' => match syn_add s x with Some s' => syn_add_all s' xs' | None => None end
    end.

  (** * Shrinking and making synopses *)

  (** Settings: the parameters [n] and [p] from the attributes of a type
      (bloom_filter_synopsis.cpp:21-30), [max-partition-size] with the false-positive rate,
      [buffer-input-data], and [evaluate] (bloom_filter_parameters.cpp:22-71), which gives
      the number of bits and hash functions. *)
  Record syn_options := {
    o_attribute : meta -> option (N * N);
    o_default : kind -> option (N * N);
    o_buffered : bool;
    o_evaluate : N * N -> option (nat * nat)
  }.
  Variable opts : syn_options.

  (** The loop in [buffered_synopsis::shrink] (buffered_synopsis.hpp:47-50) from [n] on,
      with enough fuel for a 64-bit size. *)
  Fixpoint power_from (fuel : nat) (size n : N) : N :=
    match fuel with
    | O => n
    | S fuel' => if (n <? size)%N then power_from fuel' size (n * 2)%N else n
    end.
  (** [make_string_synopsis] and [make_address_synopsis] for given parameters
      (string_synopsis.hpp:82-94, address_synopsis.hpp:81-93): null if the Bloom filter
      cannot be made. *)
  Definition make_filter (k : kind) (params : N * N) : option synopsis :=
    option_map (SBloom k) (make_bloom false false (o_evaluate opts params) []).
  (** [shrink] (synopsis.cpp:38-40, buffered_synopsis.hpp:46-68): the outer option is
      undefined behaviour, the inner one the null pointer. *)
  Definition shrink (s : synopsis) : option (option synopsis) :=
    match s with
    | SBuffered k p xs =>
      match make_filter k (power_from 64 (N.of_nat (length xs)) 1, p) with
      | None => Some None
      | Some b => option_map Some (syn_add_all b xs)
      end
    | _ => Some None
    end.

  (** [factory<synopsis>::make] (synopsis_factory.hpp:36-58, synopsis_factory.cpp:19-24,
      string_synopsis.hpp:114-152, address_synopsis.hpp:114-153): the key looks through
      aliases, the constructors for bool, string and address require the type itself. *)
  Fixpoint behind_aliases (t : ty) : ty := match t with TAlias _ u => behind_aliases u | _ => t end.
  Definition make_bloom_synopsis (k : kind) (m : meta) : option synopsis :=
    match o_attribute opts m with
    | Some params => make_filter k params
    | None => match o_default opts k with
              | None => None
              | Some params => if o_buffered opts then Some (SBuffered k (snd params) []) else make_filter k params
              end
    end.
  Definition make_synopsis (t : ty) : option (option synopsis) :=
    match behind_aliases t, t with
    | TBasic _ BTime, _ => Some (Some (STime time_max time_min))
    | TBasic _ BBool, TBasic _ _ => Some (Some (SBool false false))
    | TBasic _ BString, TBasic m _ => Some (make_bloom_synopsis KString m)
    | TBasic _ BAddress, TBasic m _ => Some (make_bloom_synopsis KAddress m)
    | TBasic _ BBool, _ | TBasic _ BString, _ | TBasic _ BAddress, _ => None
    | _, _ => Some None
    end.
End Hash.
