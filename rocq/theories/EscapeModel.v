(** * Escaping and unescaping of strings

    Models [/repo/libvast/vast/detail/escapers.hpp],
    [/repo/libvast/vast/detail/coding.hpp] and the functions of
    [/repo/libvast/src/detail/string.cpp] and
    [/repo/libvast/vast/detail/string.hpp] that use them. A character is a byte,
    that is, a number below 256. The classification functions of [<cctype>] are
    those of the "C" locale; the code passes them plain [char]s, and for bytes
    above 127 the model answers as glibc does. *)

From Coq Require Import Arith NArith List Bool.
Import ListNotations.
Open Scope N_scope.

(** The C library's [isprint], [iscntrl], [isalnum] and [isxdigit], used in
    escapers.hpp:32,39,74,166,179. *)
Definition isprint (c : N) : bool := (32 <=? c) && (c <=? 126).
Definition iscntrl (c : N) : bool := (c <? 32) || (c =? 127).
Definition isalnum (c : N) : bool :=
  ((48 <=? c) && (c <=? 57)) || ((65 <=? c) && (c <=? 90)) ||
  ((97 <=? c) && (c <=? 122)).
Definition isxdigit (c : N) : bool :=
  ((48 <=? c) && (c <=? 57)) || ((65 <=? c) && (c <=? 70)) ||
  ((97 <=? c) && (c <=? 102)).

(** The characters named in escapers.hpp. *)
Definition c_backslash : N := 92.
Definition c_quote : N := 34.
Definition c_slash : N := 47.
Definition c_percent : N := 37.
Definition c_x : N := 120.
Definition c_u : N := 117.
Definition c_zero : N := 48.

(** A nibble in the upper case alphabet, coding.hpp:57-61. *)
Definition hex_digit (n : N) : N := if n <? 10 then 48 + n else 65 + (n - 10).

(** [byte_to_hex], coding.hpp:44-50 with the policy [uppercase]: the high and the
    low nibble. *)
Definition byte_to_hex (x : N) : N * N :=
  (hex_digit (N.land (N.shiftr x 4) 15), hex_digit (N.land x 15)).

(** [hex_to_byte] of one character, coding.hpp:94-104. *)
Definition hex_value (c : N) : N :=
  if (48 <=? c) && (c <=? 57) then c - 48
  else if (65 <=? c) && (c <=? 70) then c - 65 + 10
  else if (97 <=? c) && (c <=? 102) then c - 97 + 10
  else 0.

(** [hex_to_byte] of two characters, coding.hpp:110-114. *)
Definition hex_to_byte (hi lo : N) : N :=
  (N.lor (N.shiftl (hex_value hi) 4) (hex_value lo)) mod 256.

(** ** Escapers: what one input byte turns into *)

(** [hex_escaper], escapers.hpp:19-25. *)
Definition hex_escaper (c : N) : list N :=
  let '(hi, lo) := byte_to_hex c in [c_backslash; c_x; hi; lo].

(** [print_escaper], escapers.hpp:38-43. *)
Definition print_escaper (c : N) : list N :=
  if isprint c then [c] else hex_escaper c.

(** Membership in a [string_view], [find(c) != npos]. *)
Definition mem (c : N) (set : list N) : bool := existsb (N.eqb c) set.

(** [make_extra_print_escaper], escapers.hpp:201-210. *)
Definition extra_print_escaper (extra : list N) (c : N) : list N :=
  if mem c extra then [c_backslash; c] else print_escaper c.

(** [json_escaper], escapers.hpp:68-111, with its local [escape_char] and
    [json_print_escaper]. *)
Definition json_escaper (c : N) : list N :=
  if (c =? c_quote) || (c =? c_backslash) then [c_backslash; c]
  else if c =? 8 then [c_backslash; 98]
  else if c =? 12 then [c_backslash; 102]
  else if c =? 13 then [c_backslash; 114]
  else if c =? 10 then [c_backslash; 110]
  else if c =? 9 then [c_backslash; 116]
  else if negb (iscntrl c) then [c]
  else let '(hi, lo) := byte_to_hex c in
       [c_backslash; c_u; c_zero; c_zero; hi; lo].

(** [percent_escaper], escapers.hpp:177-189. *)
Definition percent_escaper (c : N) : list N :=
  if isalnum c || (c =? 45) || (c =? 95) || (c =? 46) || (c =? 126) then [c]
  else let '(hi, lo) := byte_to_hex c in [c_percent; hi; lo].

(** [make_double_escaper], escapers.hpp:212-218. *)
Definition double_escaper (esc : list N) (c : N) : list N :=
  if mem c esc then [c; c] else [c].

(** [escape], string.hpp:24-33: the escapers take one byte at a time. *)
Definition escape (escaper : N -> list N) (s : list N) : list N :=
  flat_map escaper s.

(** ** Unescapers: one step at the front of the remaining input *)

(** A step fails, appends bytes and leaves a rest, or reads behind the end of
    the input. *)
Inductive step :=
| Fail
| Next (out rest : list N)
| Behind.

(** [hex_unescaper], escapers.hpp:27-36. *)
Definition hex_unescaper (s : list N) : step :=
  match s with
  | [] => Behind
  | [_] => Fail
  | hi :: lo :: rest =>
    if negb (isxdigit hi) || negb (isxdigit lo) then Fail
    else Next [hex_to_byte hi lo] rest
  end.

(** [byte_unescaper], escapers.hpp:45-57. *)
Definition byte_unescaper (s : list N) : step :=
  match s with
  | [] => Behind
  | c :: rest =>
    if negb (c =? c_backslash) then Next [c] rest
    else if (length s <? 4)%nat then Fail
    else match rest with
         | [] => Behind
         | d :: rest' =>
           if negb (d =? c_x) then Next [d] rest' else hex_unescaper rest'
         end
  end.

(** [json_unescaper], escapers.hpp:113-175. The input ends where the closing
    quote of the string is: reading one byte too many yields that quote, and the
    position that results lies behind the end. *)
Definition json_unescaper (s : list N) : step :=
  match s with
  | [] => Behind
  | c :: rest =>
    if c =? c_quote then Fail
    else if negb (c =? c_backslash) then Next [c] rest
    else match rest with
         | [] => Fail
         | d :: rest' =>
           if d =? c_backslash then Next [c_backslash] rest'
           else if d =? c_quote then Next [c_quote] rest'
           else if d =? c_slash then Next [c_slash] rest'
           else if d =? 98 then Next [8] rest'
           else if d =? 102 then Next [12] rest'
           else if d =? 114 then Next [13] rest'
           else if d =? 110 then Next [10] rest'
           else if d =? 116 then Next [9] rest'
           else if d =? c_u then
             match rest' with
             | b0 :: b1 :: b2 :: b3 :: rest'' =>
               if negb (b0 =? c_zero) || negb (b1 =? c_zero) then
                 Next [c_backslash; c_u; b0; b1; b2; b3] rest''
               else if negb (isxdigit b2) || negb (isxdigit b3) then Fail
               else Next [hex_to_byte b2 b3] rest''
             | [b0; b1; b2] =>
               (* l - f is 4: the fourth byte is the closing quote *)
               if negb (b0 =? c_zero) || negb (b1 =? c_zero) then Behind
               else Fail
             | _ => Fail
             end
           else Fail
         end
  end.

(** [percent_unescaper], escapers.hpp:191-199. *)
Definition percent_unescaper (s : list N) : step :=
  match s with
  | [] => Behind
  | c :: rest =>
    if negb (c =? c_percent) then Next [c] rest
    else if (length s <? 3)%nat then Fail
    else hex_unescaper rest
  end.

(** [make_double_unescaper], escapers.hpp:220-233. *)
Definition double_unescaper (esc : list N) (s : list N) : step :=
  match s with
  | [] => Behind
  | [x] => Next [x] []
  | x :: y :: rest =>
    if (x =? y) && negb (mem x esc) then Next [x; y] rest else Next [x] rest
  end.

(** What a call yields: a string, or an access behind the end of the input. *)
Inductive outcome :=
| Returns (s : list N)
| Overrun.

(** The loop of [unescape], string.hpp:46-49, and of [json_unescape],
    string.cpp:64-66; a failing step makes the result empty. [fuel] counts
    steps; every step consumes at least one byte. *)
Fixpoint unescape_loop (unescaper : list N -> step) (fuel : nat)
  (s acc : list N) : outcome :=
  match s with
  | [] => Returns acc
  | _ =>
    match fuel with
    | O => Overrun
    | S fuel =>
      match unescaper s with
      | Fail => Returns []
      | Behind => Overrun
      | Next out rest => unescape_loop unescaper fuel rest (acc ++ out)
      end
    end
  end.

(** [unescape], string.hpp:40-50. *)
Definition unescape (unescaper : list N -> step) (s : list N) : outcome :=
  unescape_loop unescaper (length s) s [].

(** ** The functions of string.cpp:20-84 *)

(** [byte_escape], string.cpp:20-22. *)
Definition byte_escape (s : list N) : list N := escape print_escaper s.

(** [byte_escape] with extra characters, string.cpp:24-26. *)
Definition byte_escape_extra (s extra : list N) : list N :=
  escape (extra_print_escaper extra) s.

(** [byte_escape_all], string.cpp:28-30. *)
Definition byte_escape_all (s : list N) : list N := escape hex_escaper s.

(** [byte_unescape], string.cpp:32-34. *)
Definition byte_unescape (s : list N) : outcome := unescape byte_unescaper s.

(** [json_escape], string.cpp:36-49. *)
Definition json_escape (s : list N) : list N :=
  c_quote :: escape json_escaper s ++ [c_quote].

(** [json_unescape], string.cpp:51-68. *)
Definition json_unescape (s : list N) : outcome :=
  match s with
  | q :: c :: rest =>
    if (q =? c_quote) && (last (c :: rest) 0 =? c_quote)
    then unescape json_unescaper (removelast (c :: rest))
    else Returns []
  | _ => Returns []
  end.

(** [percent_escape], string.cpp:70-72. *)
Definition percent_escape (s : list N) : list N := escape percent_escaper s.

(** [percent_unescape], string.cpp:74-76. *)
Definition percent_unescape (s : list N) : outcome :=
  unescape percent_unescaper s.

(** [double_escape], string.cpp:78-80. *)
Definition double_escape (s esc : list N) : list N :=
  escape (double_escaper esc) s.

(** [double_unescape], string.cpp:82-84. *)
Definition double_unescape (s esc : list N) : outcome :=
  unescape (double_unescaper esc) s.
