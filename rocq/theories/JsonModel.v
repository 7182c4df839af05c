(** Model of the export and import of events as JSON: [json_printer] for one line
    (libvast/vast/concept/printable/vast/json.hpp:40-240), [print_record]
    (libvast/vast/format/ostream_writer.hpp:72-150), the writer (libvast/src/format/json.cpp:422-440),
    and the conversion of JSON objects to events (json.cpp:56-418, 446-474) with the choice of a
    layout (libvast/vast/format/json/default_selector.hpp:29-97).

    Not modelled: the library that parses JSON (simdjson), of which the specification of JSON in
    [JsonProofs] takes the place; numbers inside of JSON strings (a parameter here); maps and records
    inside of columns when reading; the loop of the reader, which is the one of [CsvModel]. *)
From Coq Require Import List ZArith NArith Bool Arith String Ascii.
From Coq Require Import Init.Datatypes Floats.SpecFloat.
From Verif Require Import AddressModel DataModel EscapeModel LiteralModel CalendarModel CsvModel ImporterModel.
Import ListNotations.
Open Scope N_scope.

(** A field of a layout: a column, or a record (type.hpp). *)
Inductive lfield := Leaf (name : text) (t : column) | Node (name : text) (fs : list lfield).

(** ** Printing *)

(** [std::to_string] for integers. *)
Definition int_text (z : Z) : text := if (z <? 0)%Z then 45 :: print_N (Z.to_N (- z)) else print_N (Z.to_N z).
(** Rounding a quotient to the nearest integer, to even in the middle. *)
Definition round_even (a b : Z) : Z :=
  let q := (a / b)%Z in
  match (2 * (a mod b) ?= b)%Z with
  | Lt => q
  | Gt => (q + 1)%Z
  | Eq => if Z.even q then q else (q + 1)%Z
  end.
(** The millionths of a finite number, without its sign: what [std::to_string(double)] prints, which
    is [%f]. *)
Definition millionths (m : positive) (e : Z) : Z :=
  if (0 <=? e)%Z then (Z.pos m * 2 ^ e * 1000000)%Z else round_even (Z.pos m * 1000000) (2 ^ (- e)).
(** Whether [modf] leaves nothing (json.hpp:82). *)
Definition integral (m : positive) (e : Z) : bool := (0 <=? e)%Z || (Z.pos m mod 2 ^ (- e) =? 0)%Z.
(** Six digits behind the point. *)
Definition six (x : Z) : text :=
  map (fun d => 48 + Z.to_N (x / d mod 10)) [100000; 10000; 1000; 100; 10; 1]%Z.
(** [str.erase(str.find_last_not_of('0') + 1)] (json.hpp:87), behind the point. *)
Fixpoint strip (s : text) : text :=
  match s with
  | [] => []
  | c :: r => match strip r with [] => if c =? 48 then [] else [c] | r' => c :: r' end
  end.
(** The branch for arithmetic types (json.hpp:75-90), for [double]. *)
Definition real_text (x : double) : text :=
  match x with
  | S754_zero s => (if s then [45] else []) ++ [48]
  | S754_infinity _ | S754_nan => chars "null"
  | S754_finite s m e =>
      let a := millionths m e in
      (if s then [45] else []) ++ print_N (Z.to_N (a / 1000000)) ++
      (if integral m e then [] else 46 :: strip (six (a mod 1000000)))
  end.
(** [operator()(std::string_view)] (json.hpp:101-104) is [json_escape]: the string in quotes. *)
Definition qstr (s : text) : text := json_escape s.
(** The layout of arrays and objects on one line (json.hpp:119-205). *)
Definition array (l : list text) : text := 91 :: join_text (chars ", ") l ++ [93].
Definition object (l : list (text * text)) : text := 123 :: join_text (chars ", ") (map (fun p => fst p ++ chars ": " ++ snd p) l) ++ [125].

Section Printer.
  Variable A : arith.
  (** [vast.export.json.numeric-durations] (json.cpp:425-426, 437-439). *)
  Variable numeric : bool.

  (** [print_visitor] (json.hpp:52-235). A duration as a number is a number of seconds
      (src/time.cpp:16-29). Addresses and subnets become strings (src/address.cpp:155-158,
      src/subnet.cpp:66-69). The keys of a map are printed like other values. *)
  Fixpoint jprint (v : data) : text :=
    match v with
    | DNone => chars "null"
    | DBool b => if b then chars "true" else chars "false"
    | DInt z => int_text z
    | DCount n | DEnum n => print_N n
    | DReal p => real_text (of_bits p)
    | DDuration z => if numeric then real_text (ddiv (of_Z z) (of_Z 1000000000)) else 34 :: a_show_dur A z ++ [34]
    | DTime z => 34 :: a_show_time A z ++ [34]
    | DString s | DPattern s => qstr s
    | DAddress a => qstr (show_addr A a)
    | DSubnet s => qstr (show_addr A (sn_net s) ++ c_slash :: digits (sn_length s))
    | DList l => array (map jprint l)
    | DMap l => object (map (fun p => (jprint (fst p), jprint (snd p))) l)
    | DRecord l => object (map (fun p => (qstr (fst p), jprint (snd p))) l)
    end.

  (** [to_canonical] (src/view.cpp:329-339). *)
  Definition canonical (t : column) (v : data) : data :=
    match t, v with
    | KEnum names, DEnum n => match nth_error names (N.to_nat n) with Some x => DString x | None => DNone end
    | _, _ => v
    end.
  (** The loop over fields of [print_record] (ostream_writer.hpp:90-105), for one field: what it
      prints, and the cells that are left. [None]: there is no such column, which violates an
      assertion. *)
  Definition each (f : lfield -> list data -> option (text * list data)) : list lfield -> list data -> option (list text * list data) :=
    fix go (fs : list lfield) (row : list data) :=
      match fs with
      | [] => Some ([], row)
      | x :: r => match f x row with
                  | Some (t, row') => match go r row' with Some (ts, row'') => Some (t :: ts, row'') | None => None end
                  | None => None
                  end
      end.
  Definition braces (ts : list text) : text := 123 :: join_text (chars ", ") ts ++ [125].
  Fixpoint field_text (f : lfield) (row : list data) : option (text * list data) :=
    match f with
    | Leaf n t => match row with v :: r => Some (qstr n ++ chars ": " ++ jprint (canonical t v), r) | [] => None end
    | Node n fs => match each field_text fs row with Some (ts, r) => Some (qstr n ++ chars ": " ++ braces ts, r) | None => None end
    end.
  (** [flatten(const record_type&)] (src/type.cpp:593-606). *)
  Fixpoint flatten_field (prefix : text) (f : lfield) : list (text * column) :=
    match f with
    | Leaf n t => [(prefix ++ n, t)]
    | Node n fs => flat_map (flatten_field (prefix ++ n ++ [46])) fs
    end.
  Definition flatten (fs : list lfield) : list (text * column) := flat_map (flatten_field []) fs.
  (** [writer::write] (json.cpp:429-440) and [print] (ostream_writer.hpp:129-147), for one row. *)
  Definition line (flat : bool) (fs : list lfield) (row : list data) : option text :=
    let fs' := if flat then map (fun p => Leaf (fst p) (snd p)) (flatten fs) else fs in
    match each field_text fs' row with Some (ts, _) => Some (braces ts) | None => None end.
End Printer.

(** ** Reading *)

(** What the library makes of a document. Numbers are given by their sign and digits before and
    behind the point, and an exponent. *)
Inductive json :=
| JNull
| JBool (b : bool)
| JNum (neg : bool) (whole frac : text) (exp : option Z)
| JStr (s : text)
| JArr (l : list json)
| JObj (l : list (text * json)).

Section Reader.
  Variable A : arith.
  (** The nearest [double] of a number. *)
  Variable double_of : bool -> text -> text -> option Z -> double.
  (** The parsers for numbers in JSON strings (json_int, json_count, json_number;
      parseable/vast/json.hpp:24-40). *)
  Variable number_in_string : column -> text -> option data.

  (** The kinds of numbers: [INT64], [UINT64] and [DOUBLE]. *)
  Inductive num_kind := Int64 (z : Z) | Uint64 (n : N) | Double (x : double).
  Definition kind (neg : bool) (whole frac : text) (exp : option Z) : num_kind :=
    match frac, exp with
    | [], None =>
        let z := if neg then (- Z.of_N (num whole))%Z else Z.of_N (num whole) in
        if ((- 2 ^ 63 <=? z) && (z <? 2 ^ 63))%Z then Int64 z
        else if ((0 <=? z) && (z <? 2 ^ 64))%Z then Uint64 (Z.to_N z)
        else Double (double_of neg whole frac exp)
    | _, _ => Double (double_of neg whole frac exp)
    end.
  (** The whole text has to be parsed (core/parser.hpp:62-66). *)
  Definition full {B} (p : parser B) (f : B -> data) (s : text) : option data :=
    match p s with Ok x [] => Some (f x) | _ => None end.
  (** [to_duration_convert_impl] (json.cpp:179-183). *)
  Definition seconds (x : double) : Z := trunc (dmul x (of_Z 1000000000)).
  Definition num_double (k : num_kind) : double := match k with Int64 z => of_Z z | Uint64 n => of_Z (Z.of_N n) | Double x => x end.
  (** [convert] of an array (json.cpp:261-275): an element that fails is the result. *)
  Definition convert_all (f : json -> option data) : list json -> option (list data) :=
    fix go (l : list json) :=
      match l with
      | [] => Some []
      | x :: r => match f x with Some v => option_map (cons v) (go r) | None => None end
      end.
  (** [convert] (json.cpp:377-397) with all [type_biased_convert_impl] (json.cpp:80-275). [None] is an
      error. *)
  Fixpoint convert (t : column) (j : json) : option data :=
    match j, t with
    | JNull, _ => Some DNone
    | JBool b, KBool => Some (DBool b)
    | JBool b, KString => Some (DString [if b then 84 else 70])
    | JNum neg w f e, _ =>
        let k := kind neg w f e in
        match t, k with
        | KInt, Int64 z => Some (DInt z)
        | KCount, Int64 z => Some (DCount (Z.to_N (z mod 2 ^ 64)))
        | KCount, Uint64 n => Some (DCount n)
        | KReal, _ => Some (DReal (bits_of (num_double k)))
        | KDuration, _ => Some (DDuration (seconds (num_double k)))
        | KTime, _ => Some (DTime (seconds (num_double k)))
        | KString, Int64 z => Some (DString (int_text z))
        | KString, Uint64 n => Some (DString (print_N n))
        | KString, Double x => Some (DString (show_real 10 x))
        | _, _ => None
        end
    | JStr s, KBool => if bytes_eqb s (chars "true") then Some (DBool true) else if bytes_eqb s (chars "false") then Some (DBool false) else None
    | JStr s, KInt | JStr s, KCount | JStr s, KReal => number_in_string t s
    | JStr s, KDuration => full (duration_p A) DDuration s
    | JStr s, KTime => full (time_p A) DTime s
    | JStr s, KString => Some (DString s)
    | JStr s, KPattern => full (quoted c_slash) DPattern s
    | JStr s, KAddress => full (addr_p A) DAddress s
    | JStr s, KSubnet => full (net_p A) DSubnet s
    | JStr s, KEnum names => option_map DEnum (find_name s 0 names)
    | JArr l, KList e => option_map DList (convert_all (convert e) l)
    | _, _ => None
    end.

  (** [dom::object::at_key]: the first of that name. *)
  Definition at_key (k : text) (o : list (text * json)) : option json :=
    option_map snd (find (fun p => bytes_eqb (fst p) k) o).
  (** [field.find('.')] and what is before and behind it. *)
  Fixpoint at_dot (s : text) : option (text * text) :=
    match s with
    | [] => None
    | c :: r => if c =? 46 then Some ([], r) else option_map (fun p => (c :: fst p, snd p)) (at_dot r)
    end.
  (** [lookup] (json.cpp:399-418); [n] bounds the number of dots. *)
  Fixpoint lookup (n : nat) (k : text) (o : list (text * json)) : option json :=
    match n with
    | O => None
    | S n' =>
        match at_dot k with
        | None => at_key k o
        | Some (first, rest) =>
            match at_key first o with
            | None => at_key k o
            | Some (JObj o') => lookup n' rest o'
            | Some _ => None
            end
        end
    end.
  (** [add] (json.cpp:446-474): the row that is added, and whether there was an error, in which case
      the line counts as invalid (json.hpp:213-224). *)
  Fixpoint add_row (cols : list (text * column)) (o : list (text * json)) : list data * bool :=
    match cols with
    | [] => ([], false)
    | (k, t) :: r =>
        let '(row, err) := add_row r o in
        match lookup (S (List.length k)) k o with
        | None => (DNone :: row, err)
        | Some j => match convert t j with Some v => (v :: row, err) | None => (DNone :: row, true) end
        end
    end.
End Reader.

(** ** The choice of a layout *)

Definition lname (f : lfield) : text := match f with Leaf n _ | Node n _ => n end.
(** A set of names, as sorted sequences are compared: each occurs as often in both. *)
Definition same_names (a b : list text) : bool :=
  (List.length a =? List.length b)%nat &&
  forallb (fun x => List.length (filter (bytes_eqb x) a) =? List.length (filter (bytes_eqb x) b))%nat (a ++ b).
(** [make_names_layout] (default_selector.hpp:31-53): the names of values that are no objects. *)
Fixpoint object_names (prefix : text) (j : json) : list text :=
  match j with
  | JObj l => flat_map (fun p => match snd p with JObj _ => object_names (prefix ++ fst p ++ [46]) (snd p) | _ => [prefix ++ fst p] end) l
  | _ => []
  end.
(** [schema] (default_selector.hpp:71-87): the cache is keyed by the names of the fields, and the
    first layout for a set of names stays. *)
Definition cache (layouts : list (list lfield)) : list (list lfield) :=
  fold_left (fun c l => if existsb (fun x => same_names (map lname x) (map lname l)) c then c else c ++ [l]) layouts [].
(** [default_selector::operator()] (default_selector.hpp:56-69). *)
Definition select (layouts : list (list lfield)) (o : list (text * json)) : option (list lfield) :=
  match cache layouts with
  | [] => None
  | [l] => Some l
  | c => find (fun l => same_names (map lname l) (object_names [] (JObj o))) c
  end.
