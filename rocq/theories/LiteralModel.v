(** Model of the text form of values: the parser combinators of
    libvast/vast/concept/parseable/core, the parsers for numbers, strings, patterns,
    addresses, subnets, durations, times and data under libvast/vast/concept/parseable, and
    the printers for the same under libvast/vast/concept/printable.

    A character is a byte. Iterators are the texts that are left. Classification of
    characters is that of the "C" locale (see [EscapeModel]). *)
From Coq Require Import String Ascii List ZArith NArith Bool Arith.
From Coq Require Import Init.Datatypes.
From Verif Require Import OperatorModel EscapeModel AddressModel DataModel.
Import ListNotations.
Open Scope N_scope.

Notation text := (list N).
(** The string and character literals of the parsers, e.g. vast/data.hpp:47-83, as bytes. *)
Fixpoint chars (s : string) : text := match s with EmptyString => [] | String c r => N_of_ascii c :: chars r end.
Definition chr (c : ascii) : N := N_of_ascii c.

(** ** Combinators *)

(** What a parser does: it succeeds with an attribute and what is left, it fails, or it does
    not return ([Bad]: unbounded recursion, or undefined behaviour such as signed overflow). *)
Inductive res (A : Type) := Ok (a : A) (r : text) | No | Bad.
Arguments Ok {A}. Arguments No {A}. Arguments Bad {A}.
Definition parser (A : Type) := text -> res A.

(** [sequence_parser] (core/sequence.hpp:68-75), which gives back the input if it fails. *)
Definition bind {A B} (p : parser A) (f : A -> parser B) : parser B :=
  fun s => match p s with Ok a r => f a r | No => No | Bad => Bad end.
Definition ret {A} (a : A) : parser A := fun s => Ok a s.
Definition then_ {A B} (p : parser A) (q : parser B) : parser B := bind p (fun _ => q).
Definition skip_ {A B} (p : parser A) (q : parser B) : parser A := bind p (fun a => bind q (fun _ => ret a)).
(** [action_parser] (core/action.hpp:43-74). *)
Definition act {A B} (f : A -> B) (p : parser A) : parser B := bind p (fun a => ret (f a)).
(** [choice_parser] (core/choice.hpp:64-74, 77-100). *)
Definition alt {A} (p q : parser A) : parser A := fun s => match p s with No => q s | x => x end.
Definition any_of {A} (ps : list (parser A)) : parser A := fold_right alt (fun _ => No) ps.
(** [maybe_parser] and [optional_parser] (core/maybe.hpp:27-31, core/optional.hpp:35-45). *)
Definition maybe {A} (p : parser A) : parser (option A) :=
  fun s => match p s with Ok a r => Ok (Some a) r | No => Ok None s | Bad => Bad end.
(** [not_parser] (core/not.hpp:26-30). *)
Definition not_ {A} (p : parser A) : parser unit :=
  fun s => match p s with Ok _ _ => No | No => Ok tt s | Bad => Bad end.
(** [guard_parser] (core/guard.hpp:38-56). It leaves the input behind what it has rejected;
    where that can be seen, the model of the caller says so. *)
Definition guard {A} (p : parser A) (f : A -> bool) : parser A := bind p (fun a => if f a then ret a else fun _ => No).
(** [kleene_parser] (core/kleene.hpp:27-32). The loop ends when the inner parser fails; all
    inner parsers of the grammar consume input. *)
Fixpoint kleene_ {A} (n : nat) (p : parser A) (s : text) : res (list A) :=
  match n with
  | O => Bad
  | S n' => match p s with
            | No => Ok [] s
            | Bad => Bad
            | Ok a r => match kleene_ n' p r with Ok l r' => Ok (a :: l) r' | No => No | Bad => Bad end
            end
  end.
Definition kleene {A} (p : parser A) : parser (list A) := fun s => kleene_ (S (length s)) p s.
(** [plus_parser] (core/plus.hpp:27-34). *)
Definition plus {A} (p : parser A) : parser (list A) := bind p (fun a => act (cons a) (kleene p)).
(** [list_parser] (core/list.hpp:32-41). *)
Definition list_ {A B} (p : parser A) (sep : parser B) : parser (list A) := bind p (fun a => act (cons a) (kleene (then_ sep p))).
(** [parse_repeat] (core/repeat.hpp:20-38): at most [hi] times, at least [lo] times. *)
Fixpoint rep {A} (lo hi : nat) (p : parser A) (s : text) : res unit :=
  match hi with
  | O => match lo with O => Ok tt s | _ => No end
  | S hi' => match p s with
             | Ok _ r => rep (pred lo) hi' p r
             | No => match lo with O => Ok tt s | _ => No end
             | Bad => Bad
             end
  end.

(** [char_class_parser] (string/char_class.hpp:41-48). *)
Definition sat (f : N -> bool) : parser N := fun s => match s with c :: r => if f c then Ok c r else No | [] => No end.
(** [dynamic_char_parser] (string/char.hpp:24-31). *)
Definition ch (c : N) : parser N := sat (N.eqb c).
(** [literal_parser] (string/literal.hpp:26-36). *)
Fixpoint lit (l : text) : parser unit :=
  fun s => match l with
           | [] => Ok tt s
           | c :: l' => match s with d :: s' => if c =? d then lit l' s' else No | [] => No end
           end.

(** [std::isspace] and [std::isdigit]. *)
Definition isspace (c : N) : bool := (c =? 32) || ((9 <=? c) && (c <=? 13)).
Definition isdigit (c : N) : bool := (48 <=? c) && (c <=? 57).
(** [ignore( *parsers::space)], e.g. data.hpp:42. *)
Definition ws : parser unit := act (fun _ => tt) (kleene (sat isspace)).

(** ** Numbers *)

(** The loop of [integral_parser::accumulate] (numeric/integral.hpp:54-70): up to [max]
    characters of the class. The code looks at the character behind the end before it compares
    iterators; this is the null byte of a string. *)
Fixpoint take (f : N -> bool) (max : nat) (s : text) : text * text :=
  match max, s with
  | S m, c :: r => if f c then let '(d, t) := take f m r in (c :: d, t) else ([], s)
  | _, _ => ([], s)
  end.
(** The number the accumulated digits make (numeric/integral.hpp:54-70), before it wraps. *)
Definition num (ds : text) : N := fold_left (fun n c => n * 10 + (c - 48)) ds 0.
(** [integral_parser] for an unsigned type of [bits] bits (numeric/integral.hpp:72-112):
    arithmetic wraps around. *)
Definition udec (max min : nat) (bits : N) : parser N :=
  fun s => let '(ds, r) := take isdigit max s in if (length ds <? min)%nat then No else Ok (num ds mod 2 ^ bits) r.
(** [parse_sign] (numeric/integral.hpp:21-29). *)
Definition sign (s : text) : bool * text :=
  match s with c :: r => if c =? 45 then (true, r) else if c =? 43 then (false, r) else (false, s) | [] => (false, s) end.
(** [integral_parser] for a signed type of [bits] bits: overflow is undefined. *)
Definition sdec (max min : nat) (bits : Z) : parser Z :=
  fun s => let '(neg, s') := sign s in
    let '(ds, r) := take isdigit max s' in
    if (length ds <? min)%nat then No
    else let z := if neg then (- Z.of_N (num ds))%Z else Z.of_N (num ds) in
      if ((- 2 ^ (bits - 1) <=? z) && (z <? 2 ^ (bits - 1)))%Z then Ok z r else Bad.

(** A number with an optional fraction, as text. *)
Record decimal := { d_neg : bool; d_int : text; d_frac : text }.
(** [real_parser] (numeric/real.hpp:71-115). The integral and the fractional part have up to
    20 digits; behind 20 digits, the fraction may follow without a dot. *)
Definition real_ (require_dot : bool) : parser decimal :=
  fun s => let '(neg, s1) := sign s in
    let '(i, s2) := take isdigit 20 s1 in
    let '(dot, s3) := match s2 with c :: r => if c =? 46 then (true, r) else (false, s2) | [] => (false, s2) end in
    let got := match i with [] => false | _ => true end in
    if negb dot && (negb got || require_dot) then No
    else let '(f, s4) := take isdigit 20 s3 in
      match f with
      | [] => if got then Ok {| d_neg := neg; d_int := i; d_frac := f |} s4 else No
      | _ => Ok {| d_neg := neg; d_int := i; d_frac := f |} s4
      end.

(** [si_parser] (vast/si.hpp:26-50); [mul] multiplies in the type. *)
Definition suffixes : list (text * N) :=
  [(chars "Ki", 2 ^ 10); (chars "Mi", 2 ^ 20); (chars "Gi", 2 ^ 30); (chars "Ti", 2 ^ 40); (chars "Pi", 2 ^ 50); (chars "Ei", 2 ^ 60);
   (chars "k", 10 ^ 3); (chars "M", 10 ^ 6); (chars "G", 10 ^ 9); (chars "T", 10 ^ 12); (chars "P", 10 ^ 15); (chars "E", 10 ^ 18)].
Definition si {A} (number : parser A) (mul : A -> N -> res A) : parser A :=
  fold_right (fun x p => alt (bind number (fun n => then_ ws (then_ (lit (fst x)) (fun s => match mul n (snd x) with Ok m _ => Ok m s | _ => Bad end)))) p)
    number suffixes.
(** [parsers::count] (vast/si.hpp:54) and [integer_parser] (vast/integer.hpp:20-33). *)
Definition count_p : parser N := si (udec 20 1 64) (fun n f => Ok ((n * f) mod 2 ^ 64) []).
Definition integer_p : parser Z :=
  si (sdec 19 1 64) (fun n f => let z := (n * Z.of_N f)%Z in if ((- 2 ^ 63 <=? z) && (z <? 2 ^ 63))%Z then Ok z [] else Bad).

(** ** What is left to the floating point unit, the clock and the C library *)

Record arith := {
  a_real : decimal -> N;  (** the value of a decimal (numeric/real.hpp:117-124) *)
  a_secs : decimal -> bool;  (** between 0.0 and 60.0 (vast/time.hpp:150-151) *)
  a_time : Z -> Z -> Z -> Z -> Z -> option decimal -> Z -> Z;  (** vast/time.hpp:186-191 *)
  a_unix : decimal -> Z;  (** vast/time.hpp:204-208 *)
  a_dur : decimal -> Z -> Z;  (** a decimal times a unit (vast/time.hpp:81-86) *)
  a_now : Z;
  a_pton : text -> option address;  (** [inet_pton] (vast/address.hpp:125-136) *)
  a_ntop : address -> text;  (** [inet_ntop] for addresses that are not v4 (printable/vast/address.hpp:27-35) *)
  a_show_real : N -> text;  (** printable/numeric/real.hpp:21-50 *)
  a_show_dur : Z -> text;  (** printable/std/chrono.hpp:79-104 *)
  a_show_time : Z -> text;  (** printable/std/chrono.hpp:149-188 *)
}.

Section Parsers.
  Variable A : arith.

  (** ** Durations and times *)

  (** The units of [duration_parser] (vast/time.hpp:37-71), in nanoseconds. *)
  Definition units : list (text * Z) :=
    [(chars "nanoseconds", 1); (chars "nsecs", 1); (chars "nsec", 1); (chars "ns", 1);
     (chars "microseconds", 1000); (chars "usecs", 1000); (chars "usec", 1000); (chars "us", 1000);
     (chars "milliseconds", 1000000); (chars "msecs", 1000000); (chars "msec", 1000000); (chars "ms", 1000000);
     (chars "seconds", 1000000000); (chars "secs", 1000000000); (chars "sec", 1000000000); (chars "s", 1000000000);
     (chars "minutes", 60000000000); (chars "mins", 60000000000); (chars "min", 60000000000); (chars "m", 60000000000);
     (chars "hours", 3600000000000); (chars "hour", 3600000000000); (chars "hrs", 3600000000000); (chars "h", 3600000000000);
     (chars "days", 86400000000000); (chars "day", 86400000000000); (chars "d", 86400000000000);
     (chars "weeks", 604800000000000); (chars "week", 604800000000000); (chars "w", 604800000000000);
     (chars "years", 31536000000000000); (chars "year", 31536000000000000); (chars "y", 31536000000000000)]%Z.
  Definition unit_p : parser Z := fold_right (fun x p => alt (act (fun _ => snd x) (lit (fst x))) p) (fun _ => No) units.
  (** [duration_parser::parse] (vast/time.hpp:30-91). *)
  Definition duration1 : parser Z := bind (real_ false) (fun x => then_ ws (bind unit_p (fun u => ret (a_dur A x u)))).
  (** [compound_duration_parser::parse] (vast/time.hpp:98-106). A component that is not positive
      ends the loop behind it, because the guard does not give back the input. *)
  Fixpoint more_durations (n : nat) (x : Z) (s : text) : res Z :=
    match n with
    | O => Bad
    | S n' => match duration1 s with
              | Ok d r => if (0 <? d)%Z then more_durations n' (x + d)%Z r else Ok x r
              | No => Ok x s
              | Bad => Bad
              end
    end.
  Definition duration_p : parser Z := bind duration1 (fun x s => more_durations (S (length s)) x s).

  (** The ranges that the guards of [ymdhms_parser] check (vast/time.hpp:142-166). *)
  Definition between (lo hi : Z) (z : Z) : bool := ((lo <=? z) && (z <=? hi))%Z.
  (** The zone, in minutes (vast/time.hpp:156-170). *)
  Definition zone_p : parser Z :=
    alt (act (fun _ => 0%Z) (ch (chr "Z")))
        (bind (alt (act (fun _ => 1%Z) (ch (chr "+"))) (act (fun _ => (-1)%Z) (ch (chr "-")))) (fun sg =>
         bind (guard (sdec 2 2 32) (between 0 23)) (fun h =>
         bind (maybe (then_ (maybe (ch (chr ":"))) (guard (sdec 2 2 32) (between 0 59)))) (fun m =>
         ret ((h * 60 + match m with Some x => x | None => 0 end) * sg)%Z)))).
  (** [ymdhms_parser::parse] (vast/time.hpp:140-193). *)
  Definition ymdhms : parser Z :=
    bind (guard (sdec 4 4 32) (fun y => 1900 <=? y)%Z) (fun y =>
    then_ (ch (chr "-")) (bind (guard (sdec 2 2 32) (between 1 12)) (fun mon =>
    bind (maybe (then_ (ch (chr "-")) (bind (guard (sdec 2 2 32) (between 1 31)) (fun d =>
      bind (maybe (then_ (alt (ch (chr "+")) (alt (ch (chr "T")) (ch (chr " ")))) (bind (guard (sdec 2 2 32) (between 0 23)) (fun h =>
        bind (maybe (then_ (ch (chr ":")) (bind (guard (sdec 2 2 32) (between 0 59)) (fun m =>
          bind (maybe (then_ (ch (chr ":")) (guard (real_ false) (a_secs A)))) (fun sec =>
          bind (maybe zone_p) (fun z => ret (m, sec, z)))))))
        (fun ms => ret (h, ms))))))
      (fun hms => ret (d, hms)))))) (fun dhms =>
    let d := match dhms with Some (d, _) => d | None => 1%Z end in
    let hms := match dhms with Some (_, Some x) => Some x | _ => None end in
    let h := match hms with Some (h, _) => h | None => 0%Z end in
    let ms := match hms with Some (_, Some x) => Some x | _ => None end in
    let m := match ms with Some (m, _, _) => m | None => 0%Z end in
    let sec := match ms with Some (_, sec, _) => sec | None => None end in
    let z := match ms with Some (_, _, Some z) => z | _ => 0%Z end in
    ret (a_time A y mon d h m sec z))))).
  (** [time_parser::parse] (vast/time.hpp:217-230). *)
  Definition time_p : parser Z :=
    any_of [
      ymdhms;
      then_ (ch (chr "@")) (act (a_unix A) (real_ false));
      then_ (lit (chars "now")) (then_ ws
        (alt (then_ (ch (chr "+")) (then_ ws (act (fun d => a_now A + d)%Z duration_p)))
             (then_ (ch (chr "-")) (then_ ws (act (fun d => a_now A - d)%Z duration_p)))));
      act (fun _ => a_now A) (lit (chars "now"));
      then_ (lit (chars "in")) (then_ ws (act (fun d => a_now A + d)%Z duration_p));
      skip_ (act (fun d => a_now A - d)%Z duration_p) (then_ ws (lit (chars "ago")))].

  (** ** Addresses and subnets *)

  (** [address_parser::make_v4] (vast/address.hpp:28-37). *)
  Definition dec : parser N := guard (udec 3 1 16) (fun x => x <? 256).
  Definition dot : parser N := ch (chr ".").
  Definition v4 : parser text :=
    bind (skip_ dec dot) (fun a => bind (skip_ dec dot) (fun b => bind (skip_ dec dot) (fun c => bind dec (fun d => ret [a; b; c; d])))).
  (** [address_parser::make_v6] (vast/address.hpp:39-78). *)
  Definition h16 : parser unit := rep 1 4 (sat isxdigit).
  Definition colon : parser N := ch (chr ":").
  Definition colons : parser unit := lit (chars "::").
  Definition h16_colon : parser unit := then_ h16 (then_ colon (not_ colon)).
  Definition ls32 : parser unit := alt (then_ h16 (then_ colon h16)) (act (fun _ => tt) v4).
  Definition groups (n : nat) : parser unit := rep n n (then_ h16 colon).
  Definition upto (n : nat) : parser (option unit) := maybe (then_ (rep 0 n h16_colon) h16).
  Definition v6 : parser unit :=
    any_of [
      then_ (groups 6) ls32;
      then_ colons (then_ (groups 5) ls32);
      then_ (maybe h16) (then_ colons (then_ (groups 4) ls32));
      then_ (upto 1) (then_ colons (then_ (groups 3) ls32));
      then_ (upto 2) (then_ colons (then_ (groups 2) ls32));
      then_ (upto 3) (then_ colons (then_ h16 (then_ colon ls32)));
      then_ (upto 4) (then_ colons ls32);
      then_ (upto 5) (then_ colons h16);
      then_ (upto 6) colons].
  (** [access::parser<address>::parse] (vast/address.hpp:104-138). *)
  Definition addr_p : parser address :=
    alt (act (fun b => v4_prefix ++ b) v4)
        (fun s => match v6 s with
                  | Ok _ r => match a_pton A (firstn (length s - length r) s) with Some a => Ok a r | None => No end
                  | No => No
                  | Bad => Bad
                  end).
  (** [access::parser<subnet>] (vast/subnet.hpp:22-42). The length is parsed into 8 bits, and
      whether [initialize] succeeds is not looked at. *)
  Definition net_make (a : address) (n : N) : subnet :=
    if is_v4 a && (32 <? n) then {| sn_net := a; sn_bits := n |} else sn_make a n.
  (** [access::parser<subnet>::parse] (vast/subnet.hpp:22-42). *)
  Definition net_p : parser subnet :=
    bind (skip_ addr_p (ch (chr "/"))) (fun a => bind (guard (udec 3 1 8) (fun x => x <=? 128)) (fun n => ret (net_make a n))).

  (** ** Strings and patterns *)

  (** [quoted_string_parser::parse] (string/quoted_string.hpp:33-51). The action for a doubled
      escape character appends one to the string and returns another that is appended, too. *)
  Definition str_chr (q : N) : parser text :=
    alt (then_ (ch c_backslash) (act (fun c => [c]) (ch q)))
    (alt (then_ (ch c_backslash) (act (fun _ => [c_backslash; c_backslash]) (ch c_backslash)))
         (act (fun c => [c]) (sat (fun c => negb (c =? q) && negb (iscntrl c))))).
  Definition quoted (q : N) : parser text := then_ (ch q) (skip_ (act (@concat N) (kleene (str_chr q))) (ch q)).

  (** ** Data *)

  (** [identifier] (vast/identifier.hpp:20-21). *)
  Definition identifier_char (c : N) : bool := isalnum c || (c =? 95) || (c =? 46).
  Definition identifier : parser text := plus (sat identifier_char).
  (** [stable_map_policy::add] (detail/stable_map.hpp:20-27): a pair with a key that is there
      is dropped. *)
  Definition add_pair {K V : Type} (eqb : K -> K -> bool) (m : list (K * V)) (x : K * V) : list (K * V) :=
    if existsb (fun y => eqb (fst y) (fst x)) m then m else m ++ [x].
  (** The elements of an optional list (vast/data.hpp:61-77): an absent list leaves the
      container empty. *)
  Definition or_nil {B : Type} (x : option (list B)) : list B := match x with Some l => l | None => [] end.

  (** [data_parser::make] (vast/data.hpp:38-85). *)
  Fixpoint data_p (n : nat) : parser data :=
    match n with
    | O => fun _ => Bad
    | S n' =>
      let x := then_ ws (skip_ (data_p n') ws) in
      let comma := ch (chr ",") in
      let trailing := maybe (then_ comma ws) in
      let field := then_ ws (bind (skip_ identifier (lit (chars ":"))) (fun k => act (pair k) x)) in
      let kvp := bind (skip_ x (lit (chars "->"))) (fun k => act (pair k) x) in
      any_of [
        act DTime time_p;
        act DDuration duration_p;
        act DSubnet net_p;
        act DAddress addr_p;
        act (fun d => DReal (a_real A d)) (real_ true);
        act DCount count_p;
        act DInt integer_p;
        alt (act (fun _ => DBool true) (ch (chr "T"))) (act (fun _ => DBool false) (ch (chr "F")));
        act DString (quoted c_quote);
        act DPattern (quoted c_slash);
        then_ (ch (chr "[")) (bind (maybe (list_ x comma)) (fun l => then_ trailing (then_ (ch (chr "]")) (ret (DList (or_nil l))))));
        then_ (ch (chr "{")) (bind (maybe (list_ kvp comma)) (fun l => then_ trailing (then_ (ch (chr "}")) (ret (DMap (fold_left (add_pair data_eqb) (or_nil l) []))))));
        then_ (ch (chr "<")) (bind (maybe (list_ field comma)) (fun l => then_ trailing (then_ (ch (chr ">")) (ret (DRecord (fold_left (add_pair bytes_eqb) (or_nil l) []))))));
        then_ (ch (chr "<")) (bind (list_ x comma) (fun l => then_ trailing (then_ (ch (chr ">")) (ret (DRecord (map (pair []) l))))));
        act (fun _ => DNone) (lit (chars "nil"));
        act (fun _ => DNone) (ch (chr "_"))]
    end.

  (** ** Printing *)

  (** [print_numeric] (printable/detail/print_numeric.hpp:19-34): the digits from the last to the
      first; [k] bounds their number. *)
  Fixpoint digits_rev (k : nat) (x : N) : text :=
    match k with
    | O => []
    | S k' => if x =? 0 then [] else 48 + x mod 10 :: digits_rev k' (x / 10)
    end.
  (** [print_numeric], for an unsigned number. *)
  Definition digits (x : N) : text := if x =? 0 then [48] else rev (digits_rev 20 x).
  (** [integral_printer] with [force_sign] (printable/numeric/integral.hpp:50-65): negating the
      smallest number overflows. *)
  Definition show_int (z : Z) : option text :=
    if (z =? - 2 ^ 63)%Z then None
    else if (z <? 0)%Z then Some (45 :: digits (Z.to_N (- z))) else Some (43 :: digits (Z.to_N z)).
  (** [address_printer] (printable/vast/address.hpp:23-36). *)
  Definition show_addr (a : address) : text :=
    if is_v4 a then
      match skipn 12 a with
      | [x; y; z; w] => digits x ++ 46 :: digits y ++ 46 :: digits z ++ 46 :: digits w
      | _ => []
      end
    else a_ntop A a.
  (** [detail::join] and the list printer (printable/vast/data.hpp:70-106): a separator between
      neighbours. *)
  Definition join_text (sep : text) (l : list text) : text :=
    match l with [] => [] | x :: r => x ++ flat_map (fun y => sep ++ y) r end.
  (** Printing a sequence fails if one element cannot be printed. *)
  Fixpoint all_some {B : Type} (l : list (option B)) : option (list B) :=
    match l with
    | [] => Some []
    | Some x :: r => option_map (cons x) (all_some r)
    | None :: _ => None
    end.
  (** [data_printer], [vast_list_printer], [map_printer] and [record_printer]
      (printable/vast/data.hpp:28-106); [subnet_printer] (printable/vast/subnet.hpp:20-27);
      [None] is undefined behaviour. *)
  Fixpoint show (d : data) : option text :=
    match d with
    | DNone => Some (chars "nil")
    | DBool b => Some [if b then chr "T" else chr "F"]
    | DInt z => show_int z
    | DCount n => Some (digits n)
    | DReal p => Some (a_show_real A p)
    | DDuration z => Some (a_show_dur A z)
    | DTime z => Some (a_show_time A z)
    | DString s => Some (c_quote :: escape (extra_print_escaper [c_quote]) s ++ [c_quote])
    | DPattern s => Some (c_slash :: s ++ [c_slash])
    | DAddress a => Some (show_addr a)
    | DSubnet s => Some (show_addr (sn_net s) ++ c_slash :: digits (sn_length s))
    | DEnum n => Some (digits n)
    | DList l => option_map (fun l => chr "[" :: join_text (chars ", ") l ++ [chr "]"]) (all_some (map show l))
    | DMap l =>
        option_map (fun l => chr "{" :: join_text (chars ", ") l ++ [chr "}"])
          (all_some (map (fun p => match show (fst p), show (snd p) with Some k, Some v => Some (k ++ chars " -> " ++ v) | _, _ => None end) l))
    | DRecord l =>
        option_map (fun l => chr "<" :: join_text (chars ", ") l ++ [chr ">"])
          (all_some (map (fun p => option_map (fun v => fst p ++ chars ": " ++ v) (show (snd p))) l))
    end.
End Parsers.
