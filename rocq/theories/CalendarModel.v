(** Times as text: the calendar of the time printer and the time parser, and the floating point
    arithmetic with which seconds, durations and reals are read and written
    (libvast/vast/concept/printable/std/chrono.hpp, libvast/vast/concept/parseable/vast/time.hpp,
    libvast/vast/concept/parseable/numeric/real.hpp, libvast/vast/concept/printable/numeric). *)
From Coq Require Import String Ascii List ZArith NArith Bool Arith.
From Coq Require Import Floats.SpecFloat.
From Coq Require Import Init.Datatypes.
From Verif Require Import EscapeModel AddressModel DataModel LiteralModel.
Import ListNotations.
Open Scope Z_scope.

(** ** Days and dates *)

(** [unsigned] arithmetic, which wraps around, and the cast to [unsigned short] and
    [unsigned char]. *)
Definition u32 (z : Z) : Z := z mod 2 ^ 32.
Definition u16 (z : Z) : Z := z mod 2 ^ 16.
Definition u8 (z : Z) : Z := z mod 2 ^ 8.
(** [from_days] (printable/std/chrono.hpp:111-131); [days::rep] is [int]. *)
Definition from_days (dp : Z) : Z * Z * Z :=
  let z := dp + 719468 in
  let era := Z.quot (if 0 <=? z then z else z - 146096) 146097 in
  let doe := u32 (z - era * 146097) in
  let yoe := u32 (doe - doe / 1460 + doe / 36524 - doe / 146096) / 365 in
  let y := yoe + era * 400 in
  let doy := u32 (doe - (365 * yoe + yoe / 4 - yoe / 100)) in
  let mp := u32 (5 * doy + 2) / 153 in
  let d := u8 (u32 (doy - u32 (153 * mp + 2) / 5 + 1)) in
  let m := u8 (if mp <? 10 then mp + 3 else mp - 9) in
  (u16 (y + (if m <=? 2 then 1 else 0)), m, d).
(** [to_days] (parseable/vast/time.hpp:128-146). *)
Definition to_days (year month day : Z) : Z :=
  let y := year - (if month <=? 2 then 1 else 0) in
  let era := Z.quot (if 0 <=? y then y else y - 399) 400 in
  let yoe := u32 (y - era * 400) in
  let doy := u32 (u32 (153 * (if 2 <? month then month - 3 else month + 9) + 2) / 5 + day - 1) in
  let doe := u32 (yoe * 365 + yoe / 4 - yoe / 100 + doy) in
  era * 146097 + doe - 719468.

(** ** Printing times *)

(** [pad] of [integral_printer] (printable/numeric/integral.hpp:40-47): zeros up to [n] digits.
    [log10], cut off to an integer, is taken to be one less than the number of digits. *)
Definition pad (n : nat) (x : Z) : text :=
  let ds := digits (Z.to_N x) in repeat 48%N (n - length ds) ++ ds.
Definition ns_day : Z := 86400000000000.
Definition in_int64 (z : Z) : bool := (- 2 ^ 63 <=? z) && (z <? 2 ^ 63).
(** [time_point_printer::print] (printable/std/chrono.hpp:149-188). [None]: the start of the day is
    no 64-bit number of nanoseconds, and converting it overflows. *)
Definition show_time (tp : Z) : option text :=
  let sd := tp / ns_day in
  if negb (in_int64 (sd * ns_day)) then None
  else
    let '(y, m, d) := from_days sd in
    let t := tp - sd * ns_day in
    let h := Z.quot t 3600000000000 in
    let mi := Z.quot (t - h * 3600000000000) 60000000000 in
    let s := Z.quot (t - h * 3600000000000 - mi * 60000000000) 1000000000 in
    let sub := t - h * 3600000000000 - mi * 60000000000 - s * 1000000000 in
    let date := digits (Z.to_N y) ++ chars "-" ++ pad 2 m ++ chars "-" ++ pad 2 d ++ chars "T" ++ pad 2 h ++ chars ":" ++ pad 2 mi ++ chars ":" ++ pad 2 s in
    Some (date ++
      if sub =? 0 then []
      else chars "." ++ (if Z.rem sub 1000000 =? 0 then pad 3 (Z.quot sub 1000000)
                         else if Z.rem sub 1000 =? 0 then pad 6 (Z.quot sub 1000)
                         else pad 9 sub)).

(** ** Floating point *)

(** [double]: IEEE 754 binary64, rounding to nearest even. The operations are those of Coq's
    specification of floating point numbers. *)
Definition double := spec_float.
Definition dadd : double -> double -> double := SFadd 53 1024.
Definition dmul : double -> double -> double := SFmul 53 1024.
Definition ddiv : double -> double -> double := SFdiv 53 1024.
Definition of_Z (z : Z) : double := binary_normalize 53 1024 z 0 false.
(** The cast to an integer, towards zero. Beyond the range of the type it is undefined; the model
    gives the number. *)
Definition trunc (x : double) : Z :=
  match x with
  | S754_finite s m e => let a := if 0 <=? e then Z.pos m * 2 ^ e else Z.pos m / 2 ^ (- e) in if s then - a else a
  | _ => 0
  end.
Definition dle (x y : double) : bool := match SFcompare x y with Some Lt | Some Eq => true | _ => false end.
Definition dlt (x y : double) : bool := match SFcompare x y with Some Lt => true | _ => false end.
(** [integral_parser::parse_pos] into a [double] (parseable/numeric/integral.hpp:54-82): every digit
    is a multiplication and an addition. *)
Definition dnum (ds : text) : double := fold_left (fun x c => dadd (dmul x (of_Z 10)) (of_Z (Z.of_N (c - 48)))) ds (of_Z 0).
(** [real_parser] (parseable/numeric/real.hpp:52-63, 100-117): the fraction is divided by a power of
    ten. There are up to 20 digits, and [pow] is taken to be exact there. *)
Definition dreal (x : decimal) : double :=
  let f := match d_frac x with [] => of_Z 0 | ds => ddiv (dnum ds) (of_Z (10 ^ Z.of_nat (length ds))) end in
  let v := dadd (dnum (d_int x)) f in
  if d_neg x then SFopp v else v.

(** [sec] of [ymdhms_parser] (parseable/vast/time.hpp:158-159). *)
Definition secs_ok (x : decimal) : bool := dle (of_Z 0) (dreal x) && dle (dreal x) (of_Z 60).
(** The time that [ymdhms_parser::parse] puts together (parseable/vast/time.hpp:189-194); [z] is the
    offset of the zone in minutes. Integers become a [double] number of seconds, and that becomes an
    integral number of nanoseconds. The sum may leave the range of the type, which is undefined; the
    model gives the number. *)
Definition make_time (y mon d h m : Z) (sec : option decimal) (z : Z) : Z :=
  let secs := match sec with Some x => dreal x | None => of_Z 0 end in
  let delta := dadd (dmul (of_Z (h * 60 + m - z)) (of_Z 60)) secs in
  to_days (u16 y) (u8 mon) (u8 d) * ns_day + trunc (dmul delta (of_Z 1000000000)).
(** [unix_ts] (parseable/vast/time.hpp:204-208). *)
Definition make_unix (x : decimal) : Z := trunc (dmul (dreal x) (of_Z 1000000000)).
(** [multiply] of [duration_parser] (parseable/vast/time.hpp:81-86). *)
Definition make_dur (x : decimal) (u : Z) : Z := trunc (dmul (of_Z u) (dreal x)).

(** ** Printing reals and durations *)

(** [std::modf] (printable/numeric/real.hpp:33): the integral part is cut off towards zero, and the
    difference is exact. For numbers that are not negative. *)
Definition modf (x : double) : double * Z := let l := trunc x in (dadd x (SFopp (of_Z l)), l).
(** [std::round]: to the nearest integer, away from zero in the middle. For numbers that are not
    negative. *)
Definition nearest (x : double) : Z :=
  match x with
  | S754_finite _ m e => if 0 <=? e then Z.pos m * 2 ^ e else (Z.pos m * 2 + 2 ^ (- e)) / (2 * 2 ^ (- e))
  | _ => 0
  end.
(** The decimal zeros in front of the digits (printable/numeric/real.hpp:40-42): [i] counts up from 1
    while it is less than [max - log10(right)]. The logarithm is taken to be accurate enough for
    that, and for [right = 0] the code takes [max] for it. *)
Definition lead (max : nat) (right : Z) : text :=
  if right =? 0 then []
  else flat_map (fun i => if right <? 10 ^ (Z.of_nat max - Z.of_nat i) then [48%N] else []) (seq 1 max).
(** Chop off trailing zeros (printable/numeric/real.hpp:44-45); [n] bounds their number. *)
Fixpoint chop (n : nat) (x : Z) : Z :=
  match n with O => x | S n' => if (0 <? x) && (x mod 10 =? 0) then chop n' (x / 10) else x end.
(** [real_printer::print] (printable/numeric/real.hpp:26-54), for finite numbers whose parts fit into
    64 bits; casting others is undefined. *)
Definition show_real (max : nat) (x : double) : text :=
  let neg := dlt x (of_Z 0) in
  let x := if neg then SFopp x else x in
  let '(frac, whole) := modf x in
  let right := nearest (dmul frac (of_Z (10 ^ Z.of_nat max))) in
  (if neg then [45%N] else []) ++ digits (Z.to_N whole) ++ [46%N] ++ lead max right ++ digits (Z.to_N (chop 20 right)).
(** [duration_printer::print] (printable/std/chrono.hpp:79-104): the largest unit that fits, with two
    decimals. [count] divides in [double]. The absolute value of the smallest number overflows; the
    model gives it. *)
Definition show_dur (d : Z) : text :=
  let unit (u : Z) (name : text) := show_real 2 (ddiv (of_Z d) (of_Z u)) ++ name in
  let a := Z.abs d in
  if 86400000000000 <=? a then unit 86400000000000 (chars "d")
  else if 3600000000000 <=? a then unit 3600000000000 (chars "h")
  else if 60000000000 <=? a then unit 60000000000 (chars "m")
  else if 1000000000 <=? a then unit 1000000000 (chars "s")
  else if 1000000 <=? a then unit 1000000 (chars "ms")
  else if 1000 <=? a then unit 1000 (chars "us")
  else unit 1 (chars "ns").

(** The bits of a [double], by which [data] keeps reals, and back. *)
Definition bits_of (x : double) : N :=
  match x with
  | S754_zero s => if s then (2 ^ 63)%N else 0%N
  | S754_infinity s => ((if s then 2 ^ 63 else 0) + 2047 * 2 ^ 52)%N
  | S754_nan => (2047 * 2 ^ 52 + 2 ^ 51)%N
  | S754_finite s m e => ((if s then 2 ^ 63 else 0) +
      (if Npos m <? 2 ^ 52 then Npos m else Z.to_N (e + 1075) * 2 ^ 52 + (Npos m - 2 ^ 52)))%N
  end.
Definition of_bits (b : N) : double :=
  let s := (2 ^ 63 <=? b)%N in
  let r := (b mod 2 ^ 63)%N in
  let e := (r / 2 ^ 52)%N in
  let m := (r mod 2 ^ 52)%N in
  if (e =? 2047)%N then (if (m =? 0)%N then S754_infinity s else S754_nan)
  else if (e =? 0)%N then match m with N0 => S754_zero s | Npos p => S754_finite s p (-1074) end
  else match (m + 2 ^ 52)%N with N0 => S754_zero s | Npos p => S754_finite s p (Z.of_N e - 1075) end.

(** The arithmetic that the parsers and printers of [LiteralModel] leave open; the clock and the
    conversion of v6 addresses stay open. *)
Definition ieee (now : Z) (pton : text -> option address) (ntop : address -> text) : arith :=
  {| a_real := fun x => bits_of (dreal x);
     a_secs := secs_ok;
     a_time := make_time;
     a_unix := make_unix;
     a_dur := make_dur;
     a_now := now;
     a_pton := pton;
     a_ntop := ntop;
     a_show_real := fun b => show_real 10 (of_bits b);
     a_show_dur := show_dur;
     a_show_time := fun t => match show_time t with Some x => x | None => [] end |}.
