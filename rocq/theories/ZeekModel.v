(** Model of Zeek logs: the reader (libvast/src/format/zeek.cpp:42-98, 186-452,
    libvast/vast/format/zeek.hpp:42-205, libvast/src/detail/string.cpp:96-146,
    single_layout_reader.cpp:30-50) and the writer (zeek.cpp:98-184, 466-665,
    libvast/vast/format/ostream_writer.hpp:67-145, ostream_writer.cpp:40-44).

    Not modelled: attributes and names of types that [zeekify] and the schema add to the layout
    (zeek.cpp:388-431), which change how columns are indexed and not what they hold; how bytes are
    cut into lines (C65); files and directories, other than which bytes go to which file. Lines are
    not empty: the range of lines skips those (detail/line_range.cpp:24-36). *)
From Coq Require Import List ZArith NArith Bool Arith String Ascii.
From Coq Require Import Init.Datatypes.
From Verif Require Import AddressModel DataModel EscapeModel LiteralModel CsvModel.
Import ListNotations.
Open Scope N_scope.

(** Types of columns, without records: both sides flatten those. [ZPort] is the count that is named
    "port" (zeek.cpp:67-72, 105-107). *)
Inductive kind :=
| ZBool | ZInt | ZCount | ZPort | ZReal | ZDuration | ZTime | ZString | ZPattern | ZAddress | ZSubnet | ZEnum | ZMap
| ZList (e : kind).

(** ** Text *)

(** [detail::starts_with]. *)
Fixpoint starts (p t : text) : bool :=
  match p, t with
  | [], _ => true
  | x :: p', y :: t' => (x =? y) && starts p' t'
  | _ :: _, [] => false
  end.
(** [std::string::find] and what is behind the match. *)
Fixpoint after (sep t : text) : option text :=
  if starts sep t then Some (skipn (List.length sep) t)
  else match t with [] => None | _ :: r => after sep r end.
(** [detail::split] (string.cpp:96-146) without escapes and limit; [skip] counts the bytes of a
    separator that are still to be left out. What is behind the last separator is dropped if it is
    empty. *)
Fixpoint split_ (sep : text) (skip : nat) (cur t : text) : list text :=
  match t with
  | [] => match cur with [] => [] | _ => [cur] end
  | c :: r =>
      match skip with
      | S k => split_ sep k cur r
      | O => if starts sep t then cur :: split_ sep (List.length sep - 1) [] r else split_ sep 0 (cur ++ [c]) r
      end
  end.
Definition split (sep t : text) : list text := split_ sep 0 [] t.

(** Positions for [find] and [rfind] of one character (zeek.cpp:82-83). *)
Fixpoint find_chr (c : N) (t : text) : option nat :=
  match t with
  | [] => None
  | x :: r => if x =? c then Some 0%nat else option_map S (find_chr c r)
  end.
Fixpoint rfind_chr (c : N) (t : text) : option nat :=
  match t with
  | [] => None
  | x :: r => match rfind_chr c r with Some i => Some (S i) | None => if x =? c then Some 0%nat else None end
  end.

(** ** The header *)

(** [parse_type] (zeek.cpp:45-98): types without brackets. *)
Definition basic (t : text) : option kind :=
  let is s := bytes_eqb t (chars s) in
  if is "enum"%string || is "string"%string || is "file"%string then Some ZString
  else if is "bool"%string then Some ZBool
  else if is "int"%string then Some ZInt
  else if is "count"%string then Some ZCount
  else if is "double"%string then Some ZReal
  else if is "time"%string then Some ZTime
  else if is "interval"%string then Some ZDuration
  else if is "pattern"%string then Some ZPattern
  else if is "addr"%string then Some ZAddress
  else if is "subnet"%string then Some ZSubnet
  else if is "port"%string then Some ZPort
  else None.
(** [parse_type] (zeek.cpp:45-98); the length of the substring wraps around if the brackets are in
    the wrong order, and then it goes to the end. [n] bounds the recursion: each step cuts off a
    bracket. *)
Fixpoint parse_type_ (n : nat) (t : text) : option kind :=
  match basic t with
  | Some k => Some k
  | None =>
      if starts (chars "vector") t || starts (chars "set") t || starts (chars "table") t then
        match find_chr (chr "[") t, rfind_chr (chr "]") t with
        | Some i, Some j =>
            let inner := if (j <=? i)%nat then skipn (S i) t else firstn (j - i - 1) (skipn (S i) t) in
            match n with O => None | S n' => option_map ZList (parse_type_ n' inner) end
        | _, _ => None
        end
      else None
  end.
Definition parse_type (t : text) : option kind := parse_type_ (List.length t) t.

(** [std::stoi] in base 16 for at most two characters (zeek.cpp:347): spaces, a sign, digits. [None]
    is the exception for a text without digits, which nothing catches, or the violated assertion for
    a negative number. *)
Definition stoi (t : text) : option N :=
  match t with
  | [a] => if isxdigit a then Some (hex_value a) else None
  | [a; b] =>
      if isxdigit a then Some (if isxdigit b then 16 * hex_value a + hex_value b else hex_value a)
      else if (isspace a || (a =? 43)) && isxdigit b then Some (hex_value b)
      else if (a =? 45) && (b =? 48) then Some 0
      else None
  | _ => None
  end.
(** The bytes behind each "\x" of the first line (zeek.cpp:341-351). *)
Fixpoint separators (t : text) : option text :=
  match t with
  | [] => Some []
  | _ :: r =>
      if starts (chars "\x") t then match stoi (firstn 2 (skipn 2 t)), separators r with Some c, Some s => Some (c :: s) | _, _ => None end
      else separators r
  end.
(** The prefixes (zeek.cpp:353-356). *)
Definition prefixes : list text :=
  map chars ["#set_separator"; "#empty_field"; "#unset_field"; "#path"; "#open"; "#fields"; "#types"]%string.
(** The loop over them (zeek.cpp:358-374): the values of the header, and the lines behind it. *)
Fixpoint values (sep : text) (ps lines : list text) : option (list text * list text) :=
  match ps, lines with
  | [], _ => Some ([], lines)
  | p :: ps', l :: lines' =>
      if starts p l then
        match after sep l with
        | Some (c :: v) => option_map (fun x => ((c :: v) :: fst x, snd x)) (values sep ps' lines')
        | _ => None
        end
      else None
  | _ :: _, [] => None
  end.

(** What the reader knows about a log: [separator_], [set_separator_], [empty_field_],
    [unset_field_] and [layout_] with its name (zeek.hpp:238-249). *)
Record log := { g_sep : text; g_set : text; g_empty : text; g_unset : text; g_name : text; g_columns : list (text * kind) }.
(** How [parse_header] ends. *)
Inductive head := HLog (g : log) (rest : list text) | HError | HCrash.
(** [parse_header] (zeek.cpp:333-452). An empty separator violates the precondition of [split]. *)
Definition parse_header (lines : list text) : head :=
  match lines with
  | [] => HError
  | l :: lines' =>
      if starts (chars "#separator ") l then
        match separators (skipn 11 l) with
        | None => HCrash
        | Some sep =>
            match values sep prefixes lines' with
            | Some ([set; empty; unset; path; _; fields; types], rest) =>
                match sep with
                | [] => HCrash
                | _ =>
                    let names := split sep fields in
                    let kinds := split sep types in
                    if negb (List.length names =? List.length kinds)%nat then HError
                    else match all_some (map parse_type kinds) with
                    | Some ks => HLog {| g_sep := sep; g_set := set; g_empty := empty; g_unset := unset;
                                         g_name := chars "zeek." ++ path; g_columns := combine names ks |} rest
                    | None => HError
                    end
                end
            | _ => HError
            end
        end
      else HError
  end.

Section Zeek.
  Variable A : arith.
  (** [duration_cast<duration>(double_seconds(x))] (zeek.hpp:149-162), left to the floating point
      unit. *)
  Variable seconds : decimal -> Z.

  (** ** Cells *)

  (** [detail::byte_unescape] of what was parsed (zeek.hpp:164-182); it does not read behind the end
      (C43). *)
  Definition unescaped (s : text) : text := match byte_unescape s with Returns t => t | Overrun => [] end.
  (** A string inside of a list ends at the set separator, others do not (zeek.hpp:164-172). *)
  Definition bytes_p (sep : text) : parser text :=
    act unescaped (plus (match sep with [] => sat (fun _ => true) | _ => but [sep] end)).
  (** [zeek_parser_factory] (zeek.hpp:116-200). A pattern yields a string, not a pattern; there is no
      parser for enumerations and maps. *)
  Fixpoint value_p (sep : text) (k : kind) : parser data :=
    match k with
    | ZBool => alt (act (fun _ => DBool true) (ch (chr "T"))) (act (fun _ => DBool false) (ch (chr "F")))
    | ZInt => act DInt (sdec 19 1 64)
    | ZCount | ZPort => act DCount (udec 20 1 64)
    | ZReal => act (fun d => DReal (a_real A d)) (real_ true)
    | ZDuration => act (fun d => DDuration (seconds d)) (real_ true)
    | ZTime => act (fun d => DTime (seconds d)) (real_ true)
    | ZString => act DString (bytes_p sep)
    | ZPattern => act DString (bytes_p sep)
    | ZAddress => act DAddress (addr_p A)
    | ZSubnet => act DSubnet (net_p A)
    | ZList e => act DList (list_ (value_p sep e) (lit sep))
    | ZEnum | ZMap => fun _ => Bad
    end.
  (** [make_zeek_parser] (zeek.hpp:203-209). *)
  Definition cell_p (g : log) (k : kind) : parser data :=
    value_p (match k with ZList _ => g_set g | _ => [] end) k.
  (** [construct] (type.cpp:969-986). *)
  Definition construct (k : kind) : data :=
    match k with
    | ZBool => DBool false | ZInt => DInt 0 | ZCount | ZPort => DCount 0 | ZReal => DReal 0 | ZDuration => DDuration 0 | ZTime => DTime 0
    | ZString => DString [] | ZPattern => DPattern [] | ZAddress => DAddress (repeat 0 16)
    | ZSubnet => DSubnet {| sn_net := repeat 0 16; sn_bits := 0 |} | ZEnum => DEnum 0 | ZMap => DMap [] | ZList _ => DList []
    end.
  (** What becomes of a cell or a row: values, an error, or a crash in a parser. *)
  Inductive got (B : Type) := Got (x : B) | Wrong | Broken.
  Arguments Got {B}. Arguments Wrong {B}. Arguments Broken {B}.
  (** One cell (zeek.cpp:298-305); the parser has to consume it (core/parser.hpp:62-66). *)
  Definition cell (g : log) (k : kind) (t : text) : got data :=
    if bytes_eqb t (g_unset g) then Got DNone
    else if bytes_eqb t (g_empty g) then Got (construct k)
    else match cell_p g k t with Ok v [] => Got v | Ok _ _ => Wrong | No => Wrong | Bad => Broken end.
  (** All cells (zeek.cpp:297-306). *)
  Fixpoint cells (g : log) (ks : list kind) (ts : list text) : got (list data) :=
    match ks, ts with
    | k :: ks', t :: ts' =>
        match cell g k t with
        | Got v => match cells g ks' ts' with Got vs => Got (v :: vs) | x => x end
        | Wrong => Wrong
        | Broken => Broken
        end
    | _, _ => Got []
    end.
  (** Whether the builder of a column takes a value (arrow_table_slice_builder.cpp:255-262,
      300-315). *)
  Fixpoint takes (k : kind) (v : data) : bool :=
    match v, k with
    | DNone, _ => true
    | DBool _, ZBool | DInt _, ZInt | DCount _, ZCount | DCount _, ZPort | DReal _, ZReal | DDuration _, ZDuration | DTime _, ZTime
    | DString _, ZString | DPattern _, ZPattern | DAddress _, ZAddress | DSubnet _, ZSubnet => true
    | DList l, ZList e => forallb (takes e) l
    | _, _ => false
    end.
  (** How many values of a row the builder takes (zeek.cpp:307-312). *)
  Fixpoint taken (ks : list kind) (vs : list data) : nat :=
    match ks, vs with
    | k :: ks', v :: vs' => if takes k v then S (taken ks' vs') else 0%nat
    | _, _ => 0%nat
    end.

  (** ** Reading *)

  (** How a call ends (zeek.cpp:211-325): enough events, end of input, timeout of the batch, no input
      yet, an error; or a violated assertion of the builder (a slice with an incomplete row,
      arrow_table_slice_builder.cpp:523), or a crash. *)
  Inductive ending := Enough | End | Timeout | Stall | Failed | Violation | Crash.
  (** The state: what is left of the input and whether its end was seen, the log that is read and the
      rows of the builder, and the slices that the consumer got. *)
  Record reader := { r_lines : list text; r_done : bool; r_log : option log; r_rows : list (list data); r_slices : list (log * list (list data)) }.
  (** [reset] (zeek.cpp:190-194). *)
  Definition start (lines : list text) : reader := {| r_lines := lines; r_done := false; r_log := None; r_rows := []; r_slices := [] |}.
  Definition with_lines (ls : list text) (r : reader) : reader :=
    {| r_lines := ls; r_done := r_done r; r_log := r_log r; r_rows := r_rows r; r_slices := r_slices r |}.
  Definition with_rows (rows : list (list data)) (r : reader) : reader :=
    {| r_lines := r_lines r; r_done := r_done r; r_log := r_log r; r_rows := rows; r_slices := r_slices r |}.
  Definition with_log (g : log) (ls : list text) (r : reader) : reader :=
    {| r_lines := ls; r_done := r_done r; r_log := Some g; r_rows := []; r_slices := r_slices r |}.
  Definition with_done (r : reader) : reader :=
    {| r_lines := r_lines r; r_done := true; r_log := r_log r; r_rows := r_rows r; r_slices := r_slices r |}.
  (** [single_layout_reader::finish] (single_layout_reader.cpp:30-41). *)
  Definition finish (r : reader) : reader :=
    match r_rows r, r_log r with
    | [], _ => r
    | rows, Some g => {| r_lines := r_lines r; r_done := r_done r; r_log := r_log r; r_rows := []; r_slices := r_slices r ++ [(g, rows)] |}
    | _, None => r
    end.

  (** The loop of [read_impl] (zeek.cpp:246-325); [n] bounds it: each turn consumes a line. [waits] is
      what happens before each line. *)
  Fixpoint loop (n size events : nat) (waits : list wait) (r : reader) : ending * reader :=
    match n with
    | O => (Crash, r)
    | S n' =>
        match events with
        | O => (Enough, finish r)
        | S events' =>
            match hd Now waits with
            | Late => (Timeout, finish r)
            | Stalled => (Stall, r)
            | Now =>
                match r_lines r, r_log r with
                | [], _ => (End, finish (with_done r))
                | _, None => (Crash, r)
                | l :: ls, Some g =>
                    if starts (chars "#separator") l then
                      let r1 := finish r in
                      match parse_header (l :: ls) with
                      | HLog g' rest => loop n' size events (tl waits) (with_log g' rest r1)
                      | HError => (Failed, with_lines ls r1)
                      | HCrash => (Crash, r1)
                      end
                    else if starts (chars "#") l then loop n' size events (tl waits) (with_lines ls r)
                    else
                      let fields := split (g_sep g) l in
                      let ks := map snd (g_columns g) in
                      let r1 := with_lines ls r in
                      if negb (List.length fields =? List.length ks)%nat then loop n' size events (tl waits) r1
                      else match cells g ks fields with
                      | Wrong => (Failed, finish r1)
                      | Broken => (Crash, r1)
                      | Got vs =>
                          let k := taken ks vs in
                          if (k =? List.length ks)%nat then
                            let r2 := with_rows (r_rows r1 ++ [vs]) r1 in
                            loop n' size events' (tl waits) (if (List.length (r_rows r2) =? size)%nat then finish r2 else r2)
                          else match k, r_rows r1 with
                          | O, _ => (Failed, finish r1)
                          | _, [] => (Failed, r1)
                          | _, _ => (Violation, r1)
                          end
                      end
                end
            end
        end
    end.
  (** [read_impl] (zeek.cpp:211-325). *)
  Definition read (size events : nat) (waits : list wait) (r : reader) : ending * reader :=
    if r_done r then (End, r)
    else match r_log r with
    | Some _ => loop (S (List.length (r_lines r))) size events waits r
    | None =>
        match hd Now waits with
        | Stalled => (Stall, r)
        | _ => match parse_header (r_lines r) with
               | HLog g rest => loop (S (List.length rest)) size events (tl waits) (with_log g rest r)
               | HError => (Failed, r)
               | HCrash => (Crash, r)
               end
        end
    end.
  (** A source calls [read] again and again, and stops at the end of the input or if there is an error
      (libvast/src/system/source.cpp:223-262). *)
  Fixpoint run (size : nat) (calls : list (nat * list wait)) (r : reader) : ending * reader :=
    match calls with
    | [] => (Stall, r)
    | (events, waits) :: calls' =>
        match read size events waits r with
        | (Enough, r') | (Timeout, r') | (Stall, r') => run size calls' r'
        | x => x
        end
    end.

  (** ** Writing *)

  (** How printing ends: as it should, with [ec::print_error], or in undefined behaviour. *)
  Inductive outcome := Done | Unprintable | Undefined.
  (** [real_printer<real, 6, 6>] (zeek.cpp:535), and what comes before it for times and durations
      (zeek.cpp:502-512): left to the floating point unit. *)
  Variable real6 : N -> text.
  Variable seconds6 : Z -> text.

  (** The printer for strings (zeek.cpp:514-529). *)
  Definition string_chr (c : N) : text :=
    if iscntrl c || (c =? 9) || (c =? 44) then let '(hi, lo) := byte_to_hex c in [92; 120; hi; lo] else [c].
  (** The elements of a list that is not empty (zeek.cpp:484-494): printing stops at the first one
      that fails. *)
  Definition elements (f : data -> text * outcome) : bool -> list data -> text * outcome :=
    fix go (first : bool) (l : list data) :=
      match l with
      | [] => ([], Done)
      | x :: r =>
          let '(t, o) := f x in
          let t' := if first then t else 44 :: t in
          match o with Done => let '(t2, o2) := go false r in (t' ++ t2, o2) | _ => (t', o) end
      end.
  (** [zeek_printer] (zeek.cpp:466-538). Values of enumerations are their names already
      ([to_canonical], view.cpp:329-339). *)
  Fixpoint render (v : data) : text * outcome :=
    match v with
    | DNone => (chars "-", Done)
    | DList [] => (chars "(empty)", Done)
    | DList l => elements render true l
    | DMap _ => ([], Unprintable)
    | DReal p => (real6 p, Done)
    | DTime z | DDuration z => (seconds6 z, Done)
    | DString s => (flat_map string_chr s, Done)
    | v => match show A v with Some t => (t, Done) | None => ([], Undefined) end
    end.
  (** [print_record] (ostream_writer.hpp:67-103), for a flat layout. *)
  Fixpoint row (first : bool) (vs : list data) : text * outcome :=
    match vs with
    | [] => ([], Done)
    | v :: r =>
        let '(t, o) := render v in
        let t' := if first then t else 9 :: t in
        match o with Done => let '(t2, o2) := row false r in (t' ++ t2, o2) | _ => (t', o) end
    end.

  (** [zeek_type_printer] (zeek.cpp:100-133) and [kind_tbl] (type.cpp:995-999). *)
  Fixpoint kind_text (k : kind) : text :=
    match k with
    | ZBool => chars "bool" | ZInt => chars "int" | ZCount => chars "count" | ZPort => chars "port" | ZReal => chars "double"
    | ZDuration => chars "interval" | ZTime => chars "time" | ZString => chars "string" | ZPattern => chars "pattern"
    | ZAddress => chars "addr" | ZSubnet => chars "subnet" | ZEnum => chars "enumeration" | ZMap => chars "map"
    | ZList e => chars "vector[" ++ kind_text e ++ chars "]"
    end.
  (** A table slice: the name of its layout, the columns with their keys, and the rows. *)
  Record slice := { s_name : text; s_columns : list (text * kind); s_rows : list (list data) }.
  (** The path (zeek.cpp:157-164). *)
  Definition path_of (name : text) : text := if starts (chars "zeek.") name then skipn 5 name else name.
  (** The lines of [print_header] (zeek.cpp:156-182); [opened] is the time, if times are shown. *)
  Definition header (opened : option text) (x : slice) : list text :=
    [chars "#separator " ++ [9]; chars "#set_separator" ++ [9; 44]; chars "#empty_field" ++ 9 :: chars "(empty)"; chars "#unset_field" ++ 9 :: chars "-";
     chars "#path" ++ 9 :: path_of (s_name x)] ++
    match opened with Some t => [chars "#open" ++ 9 :: t] | None => [] end ++
    [chars "#fields" ++ flat_map (fun f => 9 :: fst f) (s_columns x); chars "#types" ++ flat_map (fun f => 9 :: kind_text (snd f)) (s_columns x)].
  (** Lines in a stream. *)
  Definition lines_text (ls : list text) : text := flat_map (fun l => l ++ [10]) ls.

  (** One [writer_child]: its buffer, and what it has written (zeek.cpp:540-569). *)
  Record child := { c_buf : text; c_out : text }.
  (** [print] (ostream_writer.hpp:125-145). *)
  Fixpoint rows (l : list (list data)) (c : child) : child * outcome :=
    match l with
    | [] => (c, Done)
    | vs :: r =>
        let '(t, o) := row true vs in
        match o with
        | Done => rows r {| c_buf := []; c_out := c_out c ++ c_buf c ++ t ++ [10] |}
        | _ => ({| c_buf := c_buf c ++ t; c_out := c_out c |}, o)
        end
    end.
  (** Whether two layouts are the same (zeek.cpp:585). *)
  Fixpoint kind_eqb (a b : kind) : bool :=
    match a, b with
    | ZList x, ZList y => kind_eqb x y
    | ZBool, ZBool | ZInt, ZInt | ZCount, ZCount | ZPort, ZPort | ZReal, ZReal | ZDuration, ZDuration | ZTime, ZTime | ZString, ZString
    | ZPattern, ZPattern | ZAddress, ZAddress | ZSubnet, ZSubnet | ZEnum, ZEnum | ZMap, ZMap => true
    | _, _ => false
    end.
  Fixpoint columns_eqb (a b : list (text * kind)) : bool :=
    match a, b with
    | [], [] => true
    | x :: a', y :: b' => bytes_eqb (fst x) (fst y) && kind_eqb (snd x) (snd y) && columns_eqb a' b'
    | _, _ => false
    end.
  (** The writer for the standard output: one child, and the last layout (zeek.cpp:575-588). *)
  Record console := { o_last : option (text * list (text * kind)); o_child : child }.
  Definition fresh : console := {| o_last := None; o_child := {| c_buf := []; c_out := [] |} |}.
  (** [writer::write] without a directory (zeek.cpp:571-588, 624-626). *)
  Definition write (opened : option text) (x : slice) (w : console) : console * outcome :=
    let same := match o_last w with Some (n, cs) => bytes_eqb n (s_name x) && columns_eqb cs (s_columns x) | None => false end in
    let c := o_child w in
    let c' := if same then c else {| c_buf := c_buf c; c_out := c_out c ++ lines_text (header opened x) |} in
    let '(c'', o) := rows (s_rows x) c' in
    ({| o_last := Some (s_name x, s_columns x); o_child := c'' |}, o).
  (** A sink writes slices until there is an error (sink.cpp:90-99). *)
  Fixpoint write_all (opened : option text) (xs : list slice) (w : console) : console * outcome :=
    match xs with
    | [] => (w, Done)
    | x :: r => match write opened x w with (w', Done) => write_all opened r w' | y => y end
    end.
  (** The writer for a directory: a file for each name (zeek.cpp:589-623). *)
  Definition folder := list (text * child).
  Fixpoint find_file (n : text) (f : folder) : option child :=
    match f with
    | [] => None
    | (m, c) :: r => if bytes_eqb m n then Some c else find_file n r
    end.
  Fixpoint put_file (n : text) (c : child) (f : folder) : folder :=
    match f with
    | [] => [(n, c)]
    | (m, d) :: r => if bytes_eqb m n then (m, c) :: r else (m, d) :: put_file n c r
    end.
  (** [writer::write] with a directory (zeek.cpp:589-626). *)
  Definition write_dir (opened : option text) (x : slice) (f : folder) : folder * outcome :=
    let c := match find_file (s_name x) f with Some c => c | None => {| c_buf := []; c_out := lines_text (header opened x) |} end in
    let '(c', o) := rows (s_rows x) c in
    (put_file (s_name x) c' f, o).
  Fixpoint write_all_dir (opened : option text) (xs : list slice) (f : folder) : folder * outcome :=
    match xs with
    | [] => (f, Done)
    | x :: r => match write_dir opened x f with (f', Done) => write_all_dir opened r f' | y => y end
    end.
  (** The end of an output, written by the destructor of a child (zeek.cpp:549-552). *)
  Definition closed (at_ : option text) (c : child) : text := c_out c ++ match at_ with Some t => chars "#close" ++ 9 :: t ++ [10] | None => [] end.
End Zeek.
Arguments Got {B}. Arguments Wrong {B}. Arguments Broken {B}.
