(** Model of the MessagePack encoding: libvast/vast/msgpack.hpp, libvast/src/msgpack.cpp,
    libvast/vast/msgpack_builder.hpp, and of the table slices stored in it:
    libvast/src/msgpack_table_slice_builder.cpp, libvast/src/msgpack_table_slice.cpp.

    A buffer is a list of bytes, an overlay is what is left of the buffer. [None] stands for a
    read behind the end of the buffer, a failed assertion or [die]; for the builder also for a
    returned zero, which the callers below turn into a failed assertion or another zero. *)
From Coq Require Import List ZArith NArith Bool Arith.
From Verif Require Import OperatorModel AddressModel DataModel TypeModel.
Import ListNotations.
Open Scope N_scope.

(** * Bytes *)

(** [to_network_order] followed by [write_data] (msgpack_builder.hpp:366-383): [k] bytes, the
    most significant one first. *)
Fixpoint be (k : nat) (n : N) : list N :=
  match k with
  | O => []
  | S k' => be k' (n / 256) ++ [n mod 256]
  end.
(** [to_num] of unsigned types (msgpack.hpp:310-313). *)
Definition of_be (bs : list N) : N := fold_left (fun a b => a * 256 + b) bs 0.
(** The same in the byte order of the machine, which is taken to be little-endian. *)
Definition le (k : nat) (n : N) : list N := rev (be k n).
Definition of_le (bs : list N) : N := of_be (rev bs).
(** [static_cast] between signed and unsigned numbers of [k] bytes (msgpack.hpp:314-317). *)
Definition unsigned (k : nat) (z : Z) : N := Z.to_N (z mod 256 ^ Z.of_nat k).
Definition signed (k : nat) (n : N) : Z :=
  let m := 256 ^ N.of_nat k in if n <? m / 2 then Z.of_N n else (Z.of_N n - Z.of_N m)%Z.

(** The first [k] bytes and the rest. *)
Definition take (k : N) (buf : list N) : option (list N * list N) :=
  if N.of_nat (length buf) <? k then None
  else Some (firstn (N.to_nat k) buf, skipn (N.to_nat k) buf).
Definition drop (k : N) (buf : list N) : option (list N) := option_map snd (take k buf).
(** A number of [k] bytes and the rest. *)
Definition num (k : nat) (buf : list N) : option (N * list N) :=
  match take (N.of_nat k) buf with Some (a, r) => Some (of_be a, r) | None => None end.

(** * Formats *)

(** [format] (msgpack.hpp:65-111) as sorted out by [is_positive_fixint] to [fixmap_size]
    (msgpack.hpp:119-202) and by the switches of [visit] and [overlay::next]. Numbers are the
    payload of the byte or the width in bytes of the number that follows. *)
Inductive fmt :=
| FPosFix (n : N) | FNegFix (z : Z) | FFixStr (n : N) | FFixArray (n : N) | FFixMap (n : N)
| FNil | FFalse | FTrue | FUint (k : nat) | FInt (k : nat) | FFloat32 | FFloat64
| FStr (k : nat) | FBin (k : nat) | FArray (k : nat) | FMap (k : nat)
| FFixExt (n : N) | FExt (k : nat) | FUnknown.
Definition format_of (b : N) : fmt :=
  if N.shiftr b 7 =? 0 then FPosFix b
  else if N.shiftr b 5 =? 7 then FNegFix (signed 1 b)
  else if N.shiftr b 5 =? N.shiftr 191 5 then FFixStr (N.land b 31)
  else if N.shiftr b 4 =? N.shiftr 159 4 then FFixArray (N.land b 15)
  else if N.shiftr b 4 =? N.shiftr 143 4 then FFixMap (N.land b 15)
  else match b with
  | 192 => FNil | 194 => FFalse | 195 => FTrue
  | 204 => FUint 1 | 205 => FUint 2 | 206 => FUint 4 | 207 => FUint 8
  | 208 => FInt 1 | 209 => FInt 2 | 210 => FInt 4 | 211 => FInt 8
  | 202 => FFloat32 | 203 => FFloat64
  | 217 => FStr 1 | 218 => FStr 2 | 219 => FStr 4
  | 196 => FBin 1 | 197 => FBin 2 | 198 => FBin 4
  | 220 => FArray 2 | 221 => FArray 4
  | 222 => FMap 2 | 223 => FMap 4
  | 212 => FFixExt 1 | 213 => FFixExt 2 | 214 => FFixExt 4 | 215 => FFixExt 8 | 216 => FFixExt 16
  | 199 => FExt 1 | 200 => FExt 2 | 201 => FExt 4
  | _ => FUnknown
  end.

(** [size * 2u] of a 16-bit number is computed in 32 bits, of a 32-bit number as well
    (msgpack.hpp:520-525, msgpack.cpp:94-107). *)
Definition twice (n : N) : N := (n * 2) mod 2 ^ 32.

(** * Reading *)

(** The argument [visit] (msgpack.hpp:428-599) passes on. *)
Inductive object :=
| ONil
| OBool (b : bool)
| OUint (k : nat) (n : N)
| OInt (k : nat) (z : Z)
| OFloat32
| OFloat64 (p : N)
| OString (s : list N)
| OBinary (s : list N)
| OArray (map : bool) (size : N) (data : list N)
| OExt (type : N) (data : list N)
| OTime (ns : Z)
| OFormat.

(** The part of [visit] for extension types (msgpack.hpp:526-594); type -1 marks timestamps. *)
Definition visit_ext (fix8 : bool) (width : nat) (type : N) (d : list N) : object :=
  if type =? 255 then
    match fix8, width, length d with
    | true, _, 4%nat => OTime (signed 4 (of_be d) * 1000000000)
    | true, _, 8%nat => OTime (Z.of_N (N.land (of_be d) 17179869183) * 1000000000 + Z.of_N (N.shiftr (of_be d) 34))
    | false, 1%nat, 0%nat => OExt type d
    | false, 1%nat, 12%nat => OTime (signed 8 (of_be (skipn 4 d)) * 1000000000 + Z.of_N (of_be (firstn 4 d)))
    | false, 1%nat, _ => OFormat
    | _, _, _ => OExt type d
    end
  else OExt type d.

(** [visit] on the object at the start of a buffer, which is not empty (msgpack.hpp:428-599,
    msgpack.cpp:25-28). *)
Definition visit (buf : list N) : option object :=
  match buf with
  | [] => None
  | b :: r =>
    match format_of b with
    | FPosFix n => Some (OUint 1 n)
    | FNegFix z => Some (OInt 1 z)
    | FFixStr n => match take n r with Some (s, _) => Some (OString s) | None => None end
    | FFixArray n => Some (OArray false n r)
    | FFixMap n => Some (OArray true (twice n) r)
    | FNil => Some ONil
    | FFalse => Some (OBool false)
    | FTrue => Some (OBool true)
    | FUint k => match num k r with Some (n, _) => Some (OUint k n) | None => None end
    | FInt k => match num k r with Some (n, _) => Some (OInt k (signed k n)) | None => None end
    | FFloat32 => match take 4 r with Some _ => Some OFloat32 | None => None end
    | FFloat64 => match take 8 r with Some (s, _) => Some (OFloat64 (of_le s)) | None => None end
    | FStr k => match num k r with
                | Some (n, r') => match take n r' with Some (s, _) => Some (OString s) | None => None end
                | None => None
                end
    | FBin k => match num k r with
                | Some (n, r') => match take n r' with Some (s, _) => Some (OBinary s) | None => None end
                | None => None
                end
    | FArray k => match num k r with Some (n, r') => Some (OArray false n r') | None => None end
    | FMap k => match num k r with Some (n, r') => Some (OArray true (twice n) r') | None => None end
    | FFixExt n => match r with
                   | [] => None
                   | t :: r' => match take n r' with Some (d, _) => Some (visit_ext true 0 t d) | None => None end
                   end
    | FExt k => match num k r with
                | Some (n, t :: r') => match take n r' with Some (d, _) => Some (visit_ext false k t d) | None => None end
                | _ => None
                end
    | FUnknown => Some OFormat
    end
  end.

(** Repeats a step that consumes bytes. *)
Fixpoint times (f : list N -> option (list N)) (n : nat) (buf : list N) : option (list N) :=
  match n with
  | O => Some buf
  | S n' => match f buf with Some r => times f n' r | None => None end
  end.

(** [overlay::next] (msgpack.cpp:30-127): what is left behind the object. An unknown format,
    on which the code stays where it is, counts as a failure also inside of containers, and so
    does moving behind the end. The recursion ends with the buffer. *)
Fixpoint next_f (fuel : nat) (buf : list N) : option (list N) :=
  match fuel, buf with
  | O, _ | _, [] => None
  | S f, b :: r =>
    match format_of b with
    | FPosFix _ | FNegFix _ | FNil | FFalse | FTrue => Some r
    | FFixStr n => drop n r
    | FFixArray n => times (next_f f) (N.to_nat n) r
    | FFixMap n => times (next_f f) (N.to_nat (twice n)) r
    | FUint k | FInt k => drop (N.of_nat k) r
    | FFloat32 => drop 4 r
    | FFloat64 => drop 8 r
    | FStr 1 | FBin 1 =>
        (* [advance(1 + n)] forgets the byte that holds [n] (msgpack.cpp:72-74) *)
        match r with n :: _ => drop n r | [] => None end
    | FStr k | FBin k => match num k r with Some (n, r') => drop n r' | None => None end
    | FArray k => match num k r with Some (n, r') => times (next_f f) (N.to_nat n) r' | None => None end
    | FMap k => match num k r with Some (n, r') => times (next_f f) (N.to_nat (twice n)) r' | None => None end
    | FFixExt n => drop (1 + n) r
    | FExt k => match num k r with Some (n, r') => drop (1 + n) r' | None => None end
    | FUnknown => None
    end
  end.
Definition next (buf : list N) : option (list N) := next_f (length buf) buf.
(** [overlay::next(n)] (msgpack.cpp:129-137). *)
Definition nexts (n : nat) (buf : list N) : option (list N) := times next n buf.

(** * Writing *)

(** [put] of signed numbers (msgpack_builder.hpp:467-503), for 64 bits; the narrower types
    take the same branches. [add_format] writes the low byte of [x & Format]. *)
Definition put_signed (z : Z) : list N :=
  if (z <? - 2 ^ 31)%Z then 211 :: be 8 (unsigned 8 z)
  else if (z <? - 2 ^ 15)%Z then 210 :: be 4 (unsigned 4 z)
  else if (z <? - 2 ^ 7)%Z then 209 :: be 2 (unsigned 2 z)
  else if (z <? - 32)%Z then 208 :: be 1 (unsigned 1 z)
  else if (z <? 0)%Z then [unsigned 1 (Z.land z 255)]
  else if (z <? 32)%Z then [unsigned 1 (Z.land z 127)]
  else if (z <=? 127)%Z then 208 :: be 1 (unsigned 1 z)
  else if (z <=? 2 ^ 15 - 1)%Z then 209 :: be 2 (unsigned 2 z)
  else if (z <=? 2 ^ 31 - 1)%Z then 210 :: be 4 (unsigned 4 z)
  else 211 :: be 8 (unsigned 8 z).
(** [put] of [integer] (msgpack_builder.hpp:505-508). *)
Definition put_integer (z : Z) : list N := 211 :: be 8 (unsigned 8 z).
(** [put] of unsigned numbers (msgpack_builder.hpp:510-533). *)
Definition put_unsigned (n : N) : list N :=
  if n <? 32 then [N.land n 127]
  else if n <=? 255 then 204 :: be 1 n
  else if n <=? 65535 then 205 :: be 2 n
  else if n <=? 4294967295 then 206 :: be 4 n
  else 207 :: be 8 n.
(** [put] of [double] (msgpack_builder.hpp:542-545, 402-407). *)
Definition put_double (p : N) : list N := 203 :: le 8 p.
(** [add<fixstr>] (msgpack_builder.hpp:409-413) with the check of [validate] (346-348). *)
Definition add_fixstr (s : list N) : option (list N) :=
  if N.of_nat (length s) <=? 31 then Some (N.lor 160 (N.of_nat (length s)) :: s) else None.
(** [put] of strings (msgpack_builder.hpp:549-558). *)
Definition put_string (s : list N) : option (list N) :=
  let n := N.of_nat (length s) in
  if n <=? 31 then add_fixstr s
  else if n <=? 65535 then Some (218 :: be 2 n ++ s)
  else if n <=? 4294967295 then Some (219 :: be 4 n ++ s)
  else None.
(** [put] of byte sequences (msgpack_builder.hpp:562-572). *)
Definition put_binary (s : list N) : option (list N) :=
  let n := N.of_nat (length s) in
  if n <=? 255 then Some (196 :: be 1 n ++ s)
  else if n <=? 65535 then Some (197 :: be 2 n ++ s)
  else if n <=? 4294967295 then Some (198 :: be 4 n ++ s)
  else None.
(** [add<str8>] (msgpack_builder.hpp:415-428), which [put] does not use. *)
Definition add_str8 (s : list N) : option (list N) :=
  let n := N.of_nat (length s) in if n <=? 255 then Some (217 :: be 1 n ++ s) else None.

(** [add] of a time (msgpack_builder.hpp:281-317), in nanoseconds. *)
Definition add_time (t : Z) : list N :=
  let secs := Z.quot t 1000000000 in
  let ns := Z.rem t 1000000000 in
  if (Z.shiftr secs 34 =? 0)%Z then
    let data64 := unsigned 8 (Z.lor (Z.shiftl ns 34) secs) in
    if N.land data64 18446744069414584320 =? 0 then 214 :: 255 :: be 4 (data64 mod 2 ^ 32)
    else 215 :: 255 :: be 8 data64
  else 199 :: 12 :: 255 :: be 4 (unsigned 4 ns) ++ be 8 (unsigned 8 secs).

(** The state of a proxy: its capacity and the number of objects added so far. The builder
    itself has no capacity and its count is not looked at. *)
Notation step := (N -> option (list N * N)).

(** [proxy::add] (msgpack_builder.hpp:92-108) checks the capacity for single objects, *)
Definition add_scalar (cap : option N) (b : option (list N)) : step := fun size =>
  match cap, b with
  | _, None => None
  | Some c, Some b => if c <=? size then None else Some (b, size + 1)
  | None, Some b => Some (b, size + 1)
  end.
(** but not for finished containers (msgpack_builder.hpp:74-86). *)
Definition add_nested (b : list N) : step := fun size => Some (b, size + 1).

(** One after the other. *)
Fixpoint cats (fs : list step) : step := fun size =>
  match fs with
  | [] => Some ([], size)
  | f :: fs' =>
    match f size with
    | None => None
    | Some (b, s) => match cats fs' s with None => None | Some (b', s') => Some (b ++ b', s') end
    end
  end.

(** Capacity and header of the array and map formats (msgpack_builder.hpp:601-606, 634-639,
    145-169, msgpack.hpp:276-303). *)
Definition array_kind (n : N) : option (N * (N -> list N)) :=
  if n <=? 15 then Some (15, fun s => [N.lor (N.land 159 240) s])
  else if n <=? 65535 then Some (65535, fun s => 220 :: be 2 s)
  else if n <=? 4294967295 then Some (4294967295, fun s => 221 :: be 4 s)
  else None.
Definition map_kind (n : N) : option (N * (N -> list N)) :=
  if n <=? 15 then Some (15, fun s => [N.lor (N.land 143 240) s])
  else if n <=? 65535 then Some (65535, fun s => 222 :: be 2 s)
  else if n <=? 4294967295 then Some (4294967295, fun s => 223 :: be 4 s)
  else None.

(** [put_array] and [put_map] (msgpack_builder.hpp:589-647) with [proxy::finish] (145-169):
    the capacity is asserted on the number of objects, also for maps, where keys and values
    count separately. *)
Definition put_array (n : nat) (body : option N -> step) : step := fun size =>
  match array_kind (N.of_nat n) with
  | None => None
  | Some (c, header) =>
    match body (Some c) 0 with
    | None => None
    | Some (b, s) => if c <? s then None else add_nested (header s ++ b) size
    end
  end.
Definition put_map (n : nat) (body : option N -> step) : step := fun size =>
  match map_kind (N.of_nat n) with
  | None => None
  | Some (c, header) =>
    match body (Some c) 0 with
    | None => None
    | Some (b, s) =>
      if c <? s then None
      else if negb (s mod 2 =? 0) then None
      else add_nested (header (s / 2) ++ b) size
    end
  end.

(** The string for an address (msgpack_table_slice_builder.cpp:34-43). *)
Definition address_string (a : address) : list N := if is_v4 a then skipn 12 a else a.

(** [encode] and [put] of [data_view] (msgpack_table_slice_builder.cpp:26-89). The name of a
    record field is not stored, its value follows the previous one. *)
Fixpoint put (x : data) (cap : option N) : step :=
  match x with
  | DNone => add_scalar cap (Some [192])
  | DBool b => add_scalar cap (Some [if b then 195 else 194])
  | DInt z => add_scalar cap (Some (put_integer z))
  | DCount n => add_scalar cap (Some (put_unsigned n))
  | DReal p => add_scalar cap (Some (put_double p))
  | DDuration z | DTime z => add_scalar cap (Some (put_signed z))
  | DString s | DPattern s => add_scalar cap (put_string s)
  | DAddress a => add_scalar cap (add_fixstr (address_string a))
  | DSubnet s => fun size =>
      match cats [add_scalar (Some 15) (add_fixstr (address_string (sn_net s)));
                  add_scalar (Some 15) (Some (204 :: be 1 (sn_length s)))] 0 with
      | None => None
      | Some (b, n) => add_nested (N.lor (N.land 159 240) n :: b) size
      end
  | DEnum n => add_scalar cap (Some (put_unsigned n))
  | DList xs => put_array (length xs) (fun c => cats (map (fun y => put y c) xs))
  | DMap xs => put_map (length xs) (fun c => cats (flat_map (fun p => match p with (k, v) => [put k c; put v c] end) xs))
  | DRecord xs => fun size =>
      match cats (map (fun p => match p with (_, y) => put y cap end) xs) size with
      | Some ([], _) | None => None
      | Some (b, s) => Some (b, s)
      end
  end.

(** * Reading values back *)

(** [address(bytes, family, network)] (address.cpp:42-62). *)
Definition make_address (s : list N) : address :=
  if Nat.eqb (length s) 4 then v4_prefix ++ s else firstn 16 s.

(** [make_signed_visitor], [make_unsigned_visitor] (msgpack_table_slice.cpp:103-128): anything
    else becomes null. *)
Definition signed_view (f : Z -> data) (o : object) : data :=
  match o with
  | OUint 1 n => f (signed 1 n)
  | OInt _ z => f z
  | _ => DNone
  end.
Definition unsigned_view (o : object) : data :=
  match o with OUint _ n => DCount n | _ => DNone end.

(** Collects the results, fails if one fails. *)
Fixpoint all_some {A} (xs : list (option A)) : option (list A) :=
  match xs with
  | [] => Some []
  | None :: _ => None
  | Some x :: xs' => option_map (cons x) (all_some xs')
  end.

(** [decode] (msgpack_table_slice.cpp:133-221) with the views of arrays and maps (223-239) read
    from the first to the last element. *)
Fixpoint decode (t : ty) (buf : list N) {struct t} : option data :=
  match visit buf with
  | None => None
  | Some ONil => Some DNone
  | Some o =>
    match t with
    | TNull | TNone _ => None
    | TBasic _ BBool => match o with OBool b => Some (DBool b) | _ => None end
    | TBasic _ BInteger => Some (signed_view DInt o)
    | TBasic _ BCount => Some (unsigned_view o)
    | TBasic _ BReal => match o with OFloat64 p => Some (DReal p) | _ => None end
    | TBasic _ BDuration => Some (signed_view DDuration o)
    | TBasic _ BTime => Some (signed_view DTime o)
    | TBasic _ BString => match o with OString s => Some (DString s) | _ => None end
    | TBasic _ BPattern => match o with OString s => Some (DPattern s) | _ => None end
    | TBasic _ BAddress =>
        match o with
        | OString s => if (Nat.eqb (length s) 4 || Nat.eqb (length s) 16)%bool then Some (DAddress (make_address s)) else None
        | _ => None
        end
    | TBasic _ BSubnet =>
        match o with
        | OArray _ 2 d =>
          match visit d, next d with
          | Some (OString s), Some d' =>
            match visit d' with Some (OUint 1 n) => Some (DSubnet (sn_make (make_address s) n)) | _ => None end
          | _, _ => None
          end
        | _ => None
        end
    | TEnum _ _ => match o with OUint 1 n => Some (DEnum n) | _ => None end
    | TList _ v =>
        match o with
        | OArray _ n d =>
          option_map DList
            (all_some (map (fun i => match nexts i d with Some d' => decode v d' | None => None end) (seq 0 (N.to_nat n))))
        | _ => None
        end
    | TMap _ k v =>
        match o with
        | OArray true n d =>
          option_map DMap
            (all_some (map (fun i =>
                              match nexts (i * 2) d with
                              | Some d' =>
                                match decode k d', next d' with
                                | Some a, Some d'' => match decode v d'' with Some b => Some (a, b) | None => None end
                                | _, _ => None
                                end
                              | None => None
                              end) (seq 0 (N.to_nat (n / 2)))))
        | _ => None
        end
    | TRecord _ _ => None
    | TAlias _ v => decode v buf
    end
  end.

(** * Table slices *)

(** [msgpack_table_slice_builder]: [column_], [offset_table_], [data_]
    (msgpack_table_slice_builder.hpp). *)
Record builder := { b_column : nat; b_offsets : list nat; b_data : list N }.
Definition empty_builder : builder := {| b_column := 0; b_offsets := []; b_data := [] |}.

(** [add_impl] (msgpack_table_slice_builder.cpp:177-187); [None] for the failed assertion. *)
Definition add (cols : list ty) (x : data) (b : builder) : option (bool * builder) :=
  match nth_error cols (b_column b) with
  | None => None
  | Some t =>
    if negb (type_check t x) then Some (false, b)
    else
      let offsets := if Nat.eqb (b_column b) 0 then b_offsets b ++ [length (b_data b)] else b_offsets b in
      match put x None 0 with
      | None => None
      | Some (bytes, _) =>
          Some (true, {| b_column := (b_column b + 1) mod length cols; b_offsets := offsets;
                         b_data := b_data b ++ bytes |})
      end
  end.
(** Adding one value after the other, as the callers of [add] do. *)
Fixpoint add_all (cols : list ty) (xs : list data) (b : builder) : option (list bool * builder) :=
  match xs with
  | [] => Some ([], b)
  | x :: xs' =>
    match add cols x b with
    | None => None
    | Some (r, b') => match add_all cols xs' b' with None => None | Some (rs, b'') => Some (r :: rs, b'') end
    end
  end.

(** [finish] (msgpack_table_slice_builder.cpp:110-151) keeps the offsets and the data; a slice
    is what it stores. *)
Record slice := { s_cols : list ty; s_offsets : list nat; s_data : list N }.
Definition finish (cols : list ty) (b : builder) : option slice :=
  if Nat.eqb (b_column b) 0 then Some {| s_cols := cols; s_offsets := b_offsets b; s_data := b_data b |} else None.
(** [rows] and [at] (msgpack_table_slice.cpp:269-272, 304-320). The type of a column is that of
    the leaf with its index, which [cols] lists. *)
Definition rows (s : slice) : nat := length (s_offsets s).
Definition at_ (s : slice) (row column : nat) : option data :=
  match nth_error (s_offsets s) row, nth_error (s_cols s) column with
  | Some o, Some t =>
    if (o <? length (s_data s))%nat then
      match nexts column (skipn o (s_data s)) with Some d => decode t d | None => None end
    else None
  | _, _ => None
  end.
