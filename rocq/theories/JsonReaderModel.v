(** Model of the import of JSON lines: the loop of the reader (libvast/vast/format/json.hpp:155-235), the
    builders for several layouts (libvast/src/format/multi_layout_reader.cpp:29-85), the report
    (json.hpp:134-153) and the selectors that look at a field
    (libvast/vast/format/json/field_selector.hpp:21-75).

    Lines come from [LineModel] (without empty ones, detail/line_range.cpp:24-36); the parser of JSON is
    [document] of [JsonProofs]; objects become rows by [add_row] of [JsonModel]. Not modelled: the number
    of lines, which is only logged; builders that fail (their columns take what [convert] returns). *)
From Coq Require Import List ZArith NArith Bool Arith String Ascii.
From Coq Require Import Init.Datatypes.
From Verif Require Import AddressModel DataModel EscapeModel LiteralModel CsvModel JsonModel JsonProofs.
Import ListNotations.
Open Scope N_scope.
Local Notation length := List.length.

Notation rows := (list (list data)).
(** How a call ends: enough events, end of input, batch timeout, or no input yet. *)
Inductive ending := Enough | End | Timeout | Stall.

Section Loop.
  (** Layouts, their equality, and their columns. *)
  Variable key : Type.
  Variable eqb : key -> key -> bool.
  Variable columns_of : key -> list (text * column).
  (** The selector. *)
  Variable choose : list (text * json) -> option key.
  (** [add] (json.cpp:446-474): the row and whether values could not be converted. *)
  Variable row_of : list (text * column) -> list (text * json) -> list data * bool.
  (** The order in which [unordered_map] hands out its entries. *)
  Variable order : list (key * rows) -> list (key * rows).

  (** The state: the input, the builders, what the consumer got, [batch_events_], and the numbers of
      invalid lines and of lines with unknown layout since the last report. *)
  Record reader := { j_lines : list text; j_builders : list (key * rows); j_slices : list (key * rows); j_batch : nat; j_invalid : nat; j_unknown : nat }.
  Definition start (lines : list text) : reader := {| j_lines := lines; j_builders := []; j_slices := []; j_batch := 0; j_invalid := 0; j_unknown := 0 |}.

  (** [builder] (multi_layout_reader.cpp:69-84) and [add] to it. *)
  Fixpoint put (k : key) (row : list data) (bs : list (key * rows)) : list (key * rows) :=
    match bs with
    | [] => [(k, [row])]
    | (k', rs) :: r => if eqb k k' then (k', rs ++ [row]) :: r else (k', rs) :: put k row r
    end.
  (** The rows of a builder. *)
  Fixpoint rows_of (k : key) (bs : list (key * rows)) : rows :=
    match bs with
    | [] => []
    | (k', rs) :: r => if eqb k k' then rs else rows_of k r
    end.
  (** A builder after its slice is finished. *)
  Fixpoint clear (k : key) (bs : list (key * rows)) : list (key * rows) :=
    match bs with
    | [] => []
    | (k', rs) :: r => if eqb k k' then (k', []) :: r else (k', rs) :: clear k r
    end.
  (** [finish] for one builder (multi_layout_reader.cpp:34-59). *)
  Definition finish_one (k : key) (r : reader) : reader :=
    match rows_of k (j_builders r) with
    | [] => r
    | rs => {| j_lines := j_lines r; j_builders := clear k (j_builders r); j_slices := j_slices r ++ [(k, rs)]; j_batch := (j_batch r - length rs)%nat;
               j_invalid := j_invalid r; j_unknown := j_unknown r |}
    end.
  (** [finish] for all builders (multi_layout_reader.cpp:61-67). *)
  Definition finish (r : reader) : reader := fold_left (fun r b => finish_one (fst b) r) (order (j_builders r)) r.

  (** One line (json.hpp:187-233). *)
  Definition next (ls : list text) (r : reader) : reader :=
    {| j_lines := ls; j_builders := j_builders r; j_slices := j_slices r; j_batch := j_batch r; j_invalid := j_invalid r; j_unknown := j_unknown r |}.
  Definition count_invalid (r : reader) : reader :=
    {| j_lines := j_lines r; j_builders := j_builders r; j_slices := j_slices r; j_batch := j_batch r; j_invalid := S (j_invalid r); j_unknown := j_unknown r |}.
  Definition count_unknown (r : reader) : reader :=
    {| j_lines := j_lines r; j_builders := j_builders r; j_slices := j_slices r; j_batch := j_batch r; j_invalid := j_invalid r; j_unknown := S (j_unknown r) |}.
  Definition add_event (k : key) (row : list data) (r : reader) : reader :=
    {| j_lines := j_lines r; j_builders := put k row (j_builders r); j_slices := j_slices r; j_batch := S (j_batch r); j_invalid := j_invalid r; j_unknown := j_unknown r |}.
  Definition line (size : nat) (l : text) (r : reader) : reader * bool :=
    match document l with
    | Some (JObj o) =>
        match choose o with
        | None => (count_unknown r, false)
        | Some k =>
            let '(row, err) := row_of (columns_of k) o in
            let r1 := add_event k row (if err then count_invalid r else r) in
            (if (length (rows_of k (j_builders r1)) =? size)%nat then finish_one k r1 else r1, true)
        end
    | _ => (count_invalid r, false)
    end.
  (** The loop of [read_impl] (json.hpp:156-235), for the lines that are left. [waits] is what happens before
      each line; the batch timeout is looked at only if there are events. *)
  Fixpoint loop (ls : list text) (size events : nat) (waits : list wait) (r : reader) : ending * reader :=
    match events with
    | O => (Enough, finish (next ls r))
    | S events' =>
        match hd Now waits, j_batch r with
        | Late, S _ => (Timeout, finish (next ls r))
        | Stalled, _ => (Stall, next ls r)
        | _, _ =>
            match ls with
            | [] => (End, finish (next [] r))
            | l :: ls' =>
                let '(r', produced) := line size l r in
                loop ls' size (if produced then events' else events) (tl waits) r'
            end
        end
    end.
  Definition read (size events : nat) (waits : list wait) (r : reader) : ending * reader := loop (j_lines r) size events waits r.
  (** [status] (json.hpp:134-153). *)
  Definition status (r : reader) : (nat * nat) * reader :=
    ((j_invalid r, j_unknown r), {| j_lines := j_lines r; j_builders := j_builders r; j_slices := j_slices r; j_batch := j_batch r; j_invalid := 0; j_unknown := 0 |}).

  (** The source calls [read] again and again and stops at the end of the input
      (libvast/src/system/source.cpp:213-284); now and then it sends a report (source.cpp:112-144). *)
  Inductive call := Read (events : nat) (waits : list wait) | Report.
  Fixpoint run (size : nat) (calls : list call) (r : reader) : ending * reader * list (nat * nat) :=
    match calls with
    | [] => (Stall, r, [])
    | Report :: cs => let '(x, r') := status r in let '(e, r'', l) := run size cs r' in (e, r'', x :: l)
    | Read events waits :: cs =>
        match read size events waits r with
        | (End, r') => let '(x, r'') := status r' in (End, r'', [x])
        | (_, r') => run size cs r'
        end
    end.
End Loop.

(** [field_selector] (field_selector.hpp:27-67): the value of a field, which has to be a string, names the
    layout behind a prefix. [types] is filled from the schema (field_selector.hpp:52-67); a later layout
    of a name replaces an earlier one. Names of types with more or less than two parts are left out;
    nothing behind a last point is no part (string.cpp:151-152). *)
Definition two_parts (name : text) : option (text * text) :=
  match at_dot name with
  | Some (a, b) =>
      match at_dot b, b with
      | None, [] => None
      | None, _ => Some (a, b)
      | Some (c, []), _ => Some (a, c)
      | Some _, _ => None
      end
  | None => None
  end.
(** The same. *)
Definition field_types {B} (prefix : text) (schema : list (text * B)) : list (text * B) :=
  fold_left (fun m t => match two_parts (fst t) with Some (a, b) => if bytes_eqb a prefix then (b, snd t) :: m else m | None => m end) schema [].
Definition field_select {B} (field prefix : text) (schema : list (text * B)) (o : list (text * json)) : option B :=
  match at_key field o with
  | Some (JStr s) => option_map snd (find (fun t => bytes_eqb (fst t) s) (field_types prefix schema))
  | _ => None
  end.
