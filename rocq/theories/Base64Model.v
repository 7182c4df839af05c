(** * Base64 coding

    Models [/repo/libvast/vast/detail/base64.hpp] and
    [/repo/libvast/src/detail/base64.cpp]. A byte is a number below 256; the
    code reads the source of [encode] through plain [char]s, whose sign does
    not matter because every read is masked before it is used. *)

From Coq Require Import Arith NArith ZArith List Bool Ascii String.
Import ListNotations.
Open Scope string_scope.
Open Scope list_scope.
Open Scope N_scope.
Notation length := List.length.

(** The string literal [alphabet], base64.hpp:17-20. *)
Definition alphabet_chars : list N :=
  map N_of_ascii (list_ascii_of_string
    "ABCDEFGHIJKLMNOPQRSTUVWXYZabcdefghijklmnopqrstuvwxyz0123456789+/").

(** Indexing [alphabet]; an index of 64 reads the terminating NUL, and no larger
    one occurs. *)
Definition alphabet (i : N) : N := nth (N.to_nat i) alphabet_chars 0.

(** The table [inverse], base64.hpp:22-39. *)
Definition inverse_table : list Z :=
  [
   -1; -1; -1; -1; -1; -1; -1; -1; -1; -1; -1; -1; -1; -1; -1; -1;
   -1; -1; -1; -1; -1; -1; -1; -1; -1; -1; -1; -1; -1; -1; -1; -1;
   -1; -1; -1; -1; -1; -1; -1; -1; -1; -1; -1; 62; -1; -1; -1; 63;
   52; 53; 54; 55; 56; 57; 58; 59; 60; 61; -1; -1; -1; -1; -1; -1;
   -1; 0; 1; 2; 3; 4; 5; 6; 7; 8; 9; 10; 11; 12; 13; 14;
   15; 16; 17; 18; 19; 20; 21; 22; 23; 24; 25; -1; -1; -1; -1; -1;
   -1; 26; 27; 28; 29; 30; 31; 32; 33; 34; 35; 36; 37; 38; 39; 40;
   41; 42; 43; 44; 45; 46; 47; 48; 49; 50; 51; -1; -1; -1; -1; -1;
   -1; -1; -1; -1; -1; -1; -1; -1; -1; -1; -1; -1; -1; -1; -1; -1;
   -1; -1; -1; -1; -1; -1; -1; -1; -1; -1; -1; -1; -1; -1; -1; -1;
   -1; -1; -1; -1; -1; -1; -1; -1; -1; -1; -1; -1; -1; -1; -1; -1;
   -1; -1; -1; -1; -1; -1; -1; -1; -1; -1; -1; -1; -1; -1; -1; -1;
   -1; -1; -1; -1; -1; -1; -1; -1; -1; -1; -1; -1; -1; -1; -1; -1;
   -1; -1; -1; -1; -1; -1; -1; -1; -1; -1; -1; -1; -1; -1; -1; -1;
   -1; -1; -1; -1; -1; -1; -1; -1; -1; -1; -1; -1; -1; -1; -1; -1;
   -1; -1; -1; -1; -1; -1; -1; -1; -1; -1; -1; -1; -1; -1; -1; -1
  ]%Z.

(** Indexing [inverse]; [None] is the value -1. *)
Definition inverse (c : N) : option N :=
  match nth (N.to_nat c) inverse_table (-1)%Z with
  | Zneg _ => None
  | v => Some (Z.to_N v)
  end.

(** [encoded_size], base64.hpp:42-44, without the wrap-around of [size_t]. *)
Definition encoded_size (n : nat) : nat := (4 * ((n + 2) / 3))%nat.

(** [decoded_size], base64.hpp:47-49. *)
Definition decoded_size (n : nat) : nat := (n / 4 * 3)%nat.

(** The character ['='], base64.cpp:38,43-44,66. *)
Definition pad : N := 61.

(** [encode], base64.cpp:23-50: the characters written to [dst]. The loop over
    [len / 3] groups followed by the switch on [len % 3] is the recursion over
    three bytes at a time. *)
Fixpoint encode (src : list N) : list N :=
  match src with
  | a :: b :: c :: rest =>
    alphabet (N.shiftr (N.land a 252) 2)
    :: alphabet (N.shiftl (N.land a 3) 4 + N.shiftr (N.land b 240) 4)
    :: alphabet (N.shiftr (N.land c 192) 6 + N.shiftl (N.land b 15) 2)
    :: alphabet (N.land c 63)
    :: encode rest
  | [a; b] =>
    [alphabet (N.shiftr (N.land a 252) 2);
     alphabet (N.shiftl (N.land a 3) 4 + N.shiftr (N.land b 240) 4);
     alphabet (N.shiftl (N.land b 15) 2);
     pad]
  | [a] =>
    [alphabet (N.shiftr (N.land a 252) 2);
     alphabet (N.shiftl (N.land a 3) 4);
     pad; pad]
  | [] => []
  end.

(** The three bytes [c3] made of the four values [c4], base64.cpp:73-75 and
    82-84; an [unsigned char] keeps the low eight bits. *)
Definition group (v0 v1 v2 v3 : N) : list N :=
  [(N.shiftl v0 2 + N.shiftr (N.land v1 48) 4) mod 256;
   (N.shiftl (N.land v1 15) 4 + N.shiftr (N.land v2 60) 2) mod 256;
   (N.shiftl (N.land v2 3) 6 + v3) mod 256].

(** What remains in [c4] when the loop ends, base64.cpp:81-87: with [i] values
    present, [i - 1] bytes are written. The entries beyond the values present
    are leftovers of an earlier group or were never set, and none of the bytes
    written depends on them; they are given as [junk]. *)
Definition flush (junk : N) (c4 : list N) : list N :=
  match c4 with
  | [] => []
  | _ => firstn (length c4 - 1)
           (group (nth 0 c4 junk) (nth 1 c4 junk) (nth 2 c4 junk)
              (nth 3 c4 junk))
  end.

(** The loop of [decode], base64.cpp:66-80: [c4] holds the values collected so
    far. The result is the bytes written to [dst] and the number of characters
    read. The loop ends at the end of the input, at ['='] and at a character
    that is not in the alphabet. *)
Fixpoint decode_loop (junk : N) (c4 : list N) (src : list N) : list N * nat :=
  match src with
  | [] => (flush junk c4, 0%nat)
  | ch :: rest =>
    if ch =? pad then (flush junk c4, 0%nat)
    else match inverse ch with
         | None => (flush junk c4, 0%nat)
         | Some v =>
           match c4 with
           | [v0; v1; v2] =>
             let '(out, n) := decode_loop junk [] rest in
             (group v0 v1 v2 v ++ out, S n)
           | _ =>
             let '(out, n) := decode_loop junk (c4 ++ [v]) rest in
             (out, S n)
           end
         end
  end.

(** [decode] into a buffer, base64.cpp:60-90. *)
Definition decode_raw (junk : N) (src : list N) : list N * nat :=
  decode_loop junk [] src.

(** [encode] of a string, base64.cpp:52-58: [None] when the bytes written
    exceed the buffer, whose size is given by [encoded_size]. *)
Definition encode_string (s : list N) : option (list N) :=
  let out := encode s in
  if (length out <=? encoded_size (length s))%nat then Some out else None.

(** [decode] of a string, base64.cpp:92-98: [None] when the bytes written
    exceed the buffer, whose size is given by [decoded_size]. *)
Definition decode_string (junk : N) (s : list N) : option (list N) :=
  let '(out, _) := decode_raw junk s in
  if (length out <=? decoded_size (length s))%nat then Some out else None.
