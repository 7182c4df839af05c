(** Model of the import of comma-separated values: the parsers that
    libvast/src/format/csv.cpp:206-380 builds for the columns of a layout, the table slice
    builder they fill (libvast/src/arrow_table_slice_builder.cpp:519-575, 621-623, 650-658), and
    the loop that reads lines (csv.cpp:421-478, single_layout_reader.cpp:30-41).

    Not modelled: the header and the choice of a layout (csv.cpp:178-202, 399-419); columns that
    are maps or that have an attribute [unit]; how bytes are cut into lines
    (detail/absorb_line.hpp). Lines are not empty: the range of lines skips those
    (detail/line_range.cpp:24-36). *)
From Coq Require Import List ZArith NArith Bool Arith String Ascii.
From Coq Require Import Init.Datatypes.
From Verif Require Import AddressModel DataModel EscapeModel LiteralModel.
Import ListNotations.
Open Scope N_scope.

(** The types of columns (libvast/vast/type.hpp), without aliases, maps and records. *)
Inductive column :=
| KBool | KInt | KCount | KReal | KDuration | KTime | KString | KPattern | KAddress | KSubnet
| KEnum (fields : list text)
| KList (e : column).

(** [options] (csv.hpp:27-31). *)
Record options := { o_sep : N; o_set : text; o_kvp : text }.
(** [defaults::import::csv] (defaults.hpp:55-62). *)
Definition defaults : options := {| o_sep := chr ","; o_set := chars ","; o_kvp := chars "=" |}.

(** [parsers::any - a - b] (core/difference.hpp:31-38, string/any.hpp): one character, unless one
    of the separators starts here. *)
Definition but (seps : list text) : parser N :=
  fun s => if existsb (fun l => match lit l s with Ok _ _ => true | _ => false end) seps then No
           else match s with c :: r => Ok c r | [] => No end.

(** [std::find] in the names of an enumeration and [narrow_cast] (csv.cpp:233-241, 337-345). *)
Fixpoint find_name (s : text) (i : nat) (fields : list text) : option N :=
  match fields with
  | [] => None
  | f :: r => if bytes_eqb f s then Some (N.of_nat i mod 256) else find_name s (S i) r
  end.

Section Csv.
  Variable A : arith.
  Variable o : options.

  (** [make_parser] for the types that have one (numeric/bool.hpp:79-82, numeric/integral.hpp:128-131,
      numeric/real.hpp:111-114, vast/integer.hpp:34-37, vast/time.hpp, vast/address.hpp:144-147,
      vast/subnet.hpp). A count takes no suffix here, other than in queries. *)
  Definition make_parser (t : column) : option (parser data) :=
    match t with
    | KBool => Some (alt (act (fun _ => DBool true) (ch (chr "T"))) (act (fun _ => DBool false) (ch (chr "F"))))
    | KInt => Some (act DInt integer_p)
    | KCount => Some (act DCount (udec 20 1 64))
    | KReal => Some (act (fun d => DReal (a_real A d)) (real_ true))
    | KDuration => Some (act DDuration (duration_p A))
    | KTime => Some (act DTime (time_p A))
    | KAddress => Some (act DAddress (addr_p A))
    | KSubnet => Some (act DSubnet (net_p A))
    | _ => None
    end.

  (** [container_parser_builder] (csv.cpp:206-276): what is inside of a list. *)
  Fixpoint element (t : column) : parser data :=
    match t with
    | KString => act DString (plus (but [o_set o; o_kvp o]))
    | KPattern => act DPattern (plus (but [o_set o; o_kvp o]))
    | KEnum fields =>
        bind (plus (but [o_set o; o_kvp o])) (fun s => match find_name s 0 fields with Some i => ret (DEnum i) | None => fun _ => No end)
    | KList e =>
        then_ (ch (chr "[")) (bind (maybe (list_ (element e) (lit (o_set o)))) (fun l =>
        then_ (ch (chr "]")) (ret (DList (or_nil l)))))
    | _ => match make_parser t with Some p => then_ ws (skip_ p ws) | None => fun _ => No end
    end.

  (** [field] (csv.cpp:297-298). *)
  Definition field : parser text := alt (quoted c_quote) (plus (but [o_set o])).

  (** A value that is there, or null (core/optional.hpp:35-45). *)
  Definition or_null (p : parser data) : parser data := act (fun x => match x with Some v => v | None => DNone end) (maybe p).
  (** [csv_parser_factory] (csv.cpp:295-361): the value of a cell. *)
  Definition cell (t : column) : parser data :=
    match t with
    | KString => or_null (act DString field)
    | KPattern => or_null (act DPattern (plus (but [[o_sep o] ])))
    | KEnum fields => act (fun s => match find_name s 0 fields with Some i => DEnum i | None => DNone end) field
    | KList e => or_null (element (KList e))
    | _ => match make_parser t with Some p => or_null p | None => fun _ => No end
    end.

  (** ** The builder *)

  (** Whether the builder of a column takes a value (arrow_table_slice_builder.cpp:255-262,
      300-315). *)
  Fixpoint fits (t : column) (v : data) : bool :=
    match v, t with
    | DNone, _ => true
    | DBool _, KBool | DInt _, KInt | DCount _, KCount | DReal _, KReal | DDuration _, KDuration | DTime _, KTime
    | DString _, KString | DPattern _, KPattern | DAddress _, KAddress | DSubnet _, KSubnet | DEnum _, KEnum _ => true
    | DList l, KList e => forallb (fits e) l
    | _, _ => false
    end.

  (** The rows that are complete, and the cells of the row that is not
      ([rows_], [column_] and the column builders). *)
  Record builder := { b_rows : list (list data); b_cur : list data }.
  (** [add_impl] (arrow_table_slice_builder.cpp:650-658). A value that is not taken leaves the
      builder as it is. *)
  Definition add (ts : list column) (b : builder) (v : data) : bool * builder :=
    match nth_error ts (List.length (b_cur b)) with
    | Some t =>
        if fits t v then
          let cur := b_cur b ++ [v] in
          (true, if (List.length cur =? List.length ts)%nat then {| b_rows := b_rows b ++ [cur]; b_cur := [] |}
                 else {| b_rows := b_rows b; b_cur := cur |})
        else (false, b)
    | None => (false, b)
    end.

  (** ** Lines *)

  (** What becomes of a line. *)
  Inductive verdict := Good | Invalid | Broken.
  (** The parser of [make_csv_parser] (csv.cpp:367-380): the cells are added to the builder while
      the line is parsed ([add_t], csv.cpp:287-293), and nothing takes them out if the rest of the
      line fails. The line has to be consumed (core/parser.hpp:62-66). *)
  Fixpoint cells (all ts : list column) (first : bool) (s : text) (b : builder) : verdict * builder :=
    match ts with
    | [] => (match s with [] => Good | _ => Invalid end, b)
    | t :: ts' =>
        match (if first then Ok 0 s else ch (o_sep o) s) with
        | Ok _ s' =>
            match cell t s' with
            | Ok v r => let '(taken, b') := add all b v in if taken then cells all ts' false r b' else (Invalid, b')
            | No => (Invalid, b)
            | Bad => (Broken, b)
            end
        | _ => (Invalid, b)
        end
    end.
  Definition line_p (ts : list column) (s : text) (b : builder) : verdict * builder := cells ts ts true s b.

  (** ** Reading *)

  (** What happens before a line is read (csv.cpp:448-455): nothing, the batch has waited for too
      long, or the input has nothing to offer yet. *)
  Inductive wait := Now | Late | Stalled.
  (** How a call ends (csv.cpp:443-477): enough events, end of input, timeout of the batch, no
      input yet; or a violated assertion of the builder, or undefined behaviour in a parser. *)
  Inductive ending := Enough | End | Timeout | Stall | Violation | Crash.

  Record reader := {
    r_lines : list text;  (** what is left of the input *)
    r_builder : builder;
    r_slices : list (list (list data));  (** what the consumer got *)
    r_num : nat;  (** [num_lines_] *)
    r_invalid : nat;  (** [num_invalid_lines_] *)
  }.

  (** [single_layout_reader::finish] (single_layout_reader.cpp:30-41), and [finish] of the builder,
      which asserts that no row is incomplete (arrow_table_slice_builder.cpp:523). *)
  Definition finish (e : ending) (r : reader) : ending * reader :=
    match b_rows (r_builder r) with
    | [] => (e, r)
    | rows => match b_cur (r_builder r) with
              | [] => (e, {| r_lines := r_lines r; r_builder := {| b_rows := []; b_cur := [] |}; r_slices := r_slices r ++ [rows];
                             r_num := r_num r; r_invalid := r_invalid r |})
              | _ => (Violation, r)
              end
    end.

  (** [read_impl] (csv.cpp:441-478), behind the header; [events] is how many of [max_events] are
      missing, [waits] is what happens before each line. *)
  Fixpoint read_lines (ts : list column) (size : nat) (lines : list text) (events : nat) (waits : list wait) (r : reader) : ending * reader :=
    match events with
    | O => finish Enough r
    | S events' =>
        match lines with
        | [] => finish End r
        | l :: lines' =>
            match hd Now waits with
            | Late => finish Timeout r
            | Stalled => (Stall, r)
            | Now =>
                let '(v, b) := line_p ts l (r_builder r) in
                let r' k := {| r_lines := lines'; r_builder := b; r_slices := r_slices r; r_num := S (r_num r); r_invalid := k + r_invalid r |} in
                match v with
                | Broken => (Crash, r' 0%nat)
                | Invalid => read_lines ts size lines' events (tl waits) (r' 1%nat)
                | Good =>
                    if (List.length (b_rows b) =? size)%nat then
                      match finish Enough (r' 0%nat) with
                      | (Enough, r'') => read_lines ts size lines' events' (tl waits) r''
                      | x => x
                      end
                    else read_lines ts size lines' events' (tl waits) (r' 0%nat)
                end
            end
        end
    end.
  Definition read (ts : list column) (size events : nat) (waits : list wait) (r : reader) : ending * reader :=
    read_lines ts size (r_lines r) events waits r.

  (** How many events the consumer got (format/reader.hpp:73-97). *)
  Definition count (r : reader) : nat := List.length (List.concat (r_slices r)).
  (** A source calls [read] again and again with what its consumers ask for
      (libvast/src/system/source.cpp:223-246), cut down to what is missing of the events that the
      user requested; it stops when it has those or at the end of the input, and the process stops
      if an assertion fails. *)
  Fixpoint run (ts : list column) (size : nat) (limit : option nat) (calls : list (nat * list wait)) (r : reader) : ending * reader :=
    match calls with
    | [] => (Stall, r)
    | (events, waits) :: calls' =>
        let events' := match limit with Some n => Nat.min events (n - count r) | None => events end in
        let '(e, r') := read ts size events' waits r in
        match e with
        | Enough | Timeout | Stall =>
            if match limit with Some n => (n <=? count r')%nat | None => false end then (Enough, r') else run ts size limit calls' r'
        | _ => (e, r')
        end
    end.
  (** [reset] (csv.cpp:154-158) and [reset_builder] (single_layout_reader.cpp:43-50). *)
  Definition start (lines : list text) : reader :=
    {| r_lines := lines; r_builder := {| b_rows := []; b_cur := [] |}; r_slices := []; r_num := 0; r_invalid := 0 |}.
End Csv.
