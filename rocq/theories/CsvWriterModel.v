(** Model of the export as comma-separated values: the writer
    (libvast/src/format/csv.cpp:34-130, libvast/src/format/ostream_writer.cpp:40-44), the sink that
    feeds it (libvast/src/system/sink.cpp:47-125), and the choice of a layout by which the reader
    starts (csv.cpp:178-202).

    Not modelled: transforms of the sink (C31), reports and flushing (an output stream keeps the
    order of what is written), records inside lists. *)
From Coq Require Import List ZArith NArith Bool Arith String Ascii.
From Coq Require Import Init.Datatypes.
From Verif Require Import AddressModel DataModel EscapeModel LiteralModel.
Import ListNotations.
Open Scope N_scope.

(** How writing ends: as it should, with an error ([ec::unimplemented]), or in undefined behaviour
    (printing the smallest integer, see [show_int]). *)
Inductive outcome := Done | Unsupported | Undefined.

(** [defaults::export_::csv] (defaults.hpp:108-114) and [empty] (csv.cpp:36). *)
Definition separator : N := chr ",".
Definition set_separator : text := chars " | ".
Definition empty : text := [c_quote; c_quote].

(** A table slice: the name of its layout, the keys of the columns (type.cpp:195-198), and rows. *)
Record slice := { s_name : text; s_keys : list text; s_rows : list (list data) }.
(** [writer::last_layout_] (csv.hpp:45), [ostream_writer::buf_], and what is in the stream. *)
Record writer := { w_last : text; w_buf : text; w_out : text }.
(** A new writer (csv.cpp:103-105). *)
Definition fresh : writer := {| w_last := []; w_buf := []; w_out := [] |}.

Section Writer.
  Variable A : arith.
  (** [real_printer<real, 6>] (csv.cpp:50-53); see [CalendarModel.show_real]. *)
  Variable real6 : N -> text.

  (** [render] for a range (csv.cpp:64-81), without the test for an empty one: it stops at the first
      element that cannot be written. *)
  Definition elements (f : data -> text * outcome) : bool -> list data -> text * outcome :=
    fix go (first : bool) (l : list data) :=
      match l with
      | [] => ([], Done)
      | x :: r =>
          let '(t, o) := f x in
          let t' := if first then t else set_separator ++ t in
          match o with
          | Done => let '(t2, o2) := go false r in (t' ++ t2, o2)
          | _ => (t', o)
          end
      end.
  (** [render] (csv.cpp:40-99). What is inside of a list may fail, but the list does not: its
      [render] drops the error (csv.cpp:83-86). *)
  Fixpoint render (v : data) : text * outcome :=
    match v with
    | DNone => ([], Done)
    | DReal p => (real6 p, Done)
    | DString s => (c_quote :: double_escape s [c_quote; chr "|"] ++ [c_quote], Done)
    | DList [] => (empty, Done)
    | DList l => let '(t, o) := elements render true l in (t, match o with Undefined => Undefined | _ => Done end)
    | DMap _ => ([], Unsupported)
    | v => match show A v with Some t => (t, Done) | None => ([], Undefined) end
    end.

  (** The cells of a row (csv.cpp:119-125). *)
  Fixpoint cells (row : list data) : text * outcome :=
    match row with
    | [] => ([], Done)
    | v :: r =>
        let '(t, o) := render v in
        match o with
        | Done => let '(t2, o2) := cells r in (separator :: t ++ t2, o2)
        | _ => (separator :: t, o)
        end
    end.
  (** The loop over rows (csv.cpp:117-130): a complete row goes to the stream with what is in the
      buffer; one that fails stays in the buffer. *)
  Fixpoint rows (name : text) (l : list (list data)) (w : writer) : writer * outcome :=
    match l with
    | [] => (w, Done)
    | row :: r =>
        let '(t, o) := cells row in
        match o with
        | Done => rows name r {| w_last := w_last w; w_buf := []; w_out := w_out w ++ w_buf w ++ name ++ t ++ [10] |}
        | _ => ({| w_last := w_last w; w_buf := w_buf w ++ name ++ t; w_out := w_out w |}, o)
        end
    end.
  (** The header (csv.cpp:110-115). *)
  Definition header (keys : list text) : text := chars "type" ++ flat_map (fun k => separator :: k) keys ++ [10].
  (** [writer::write] (csv.cpp:107-131). *)
  Definition write (x : slice) (w : writer) : writer * outcome :=
    let w' := if bytes_eqb (w_last w) (s_name x) then w
              else {| w_last := s_name x; w_buf := []; w_out := w_out w ++ w_buf w ++ header (s_keys x) |} in
    rows (s_name x) (s_rows x) w'.

  (** ** The sink *)

  (** [sink_state] (sink.hpp:27-46); [k_max] is [None] for the largest number, which stands for no
      limit (sink.cpp:56-62). *)
  Record sink := { k_writer : writer; k_processed : nat; k_max : option nat; k_alive : bool; k_error : outcome }.
  (** [transforming_sink] (sink.cpp:47-62). *)
  Definition spawn (max : nat) : sink :=
    {| k_writer := fresh; k_processed := 0; k_max := match max with O => None | _ => Some max end; k_alive := true; k_error := Done |}.
  (** What a sink receives (sink.cpp:68, 116). *)
  Inductive message := Slice (x : slice) | Limit (max : nat).
  (** [truncate] (table_slice.cpp:510-525) to the first rows. *)
  Definition truncated (n : nat) (x : slice) : slice := {| s_name := s_name x; s_keys := s_keys x; s_rows := firstn n (s_rows x) |}.
  (** The message handlers (sink.cpp:68-125); a sink that quit gets no messages. *)
  Definition handle (m : message) (k : sink) : sink :=
    if negb (k_alive k) then k
    else match m with
    | Limit max =>
        if (k_processed k <? max)%nat then {| k_writer := k_writer k; k_processed := k_processed k; k_max := Some max; k_alive := true; k_error := k_error k |} else k
    | Slice x =>
        let full n := match k_max k with Some max => (max <=? n)%nat | None => false end in
        if full (k_processed k) then {| k_writer := k_writer k; k_processed := k_processed k; k_max := k_max k; k_alive := false; k_error := Done |}
        else
          let x' := match k_max k with Some max => truncated (max - k_processed k) x | None => x end in
          let '(w, o) := write x' (k_writer k) in
          match o with
          | Done => let n := (k_processed k + List.length (s_rows x'))%nat in
                    {| k_writer := w; k_processed := n; k_max := k_max k; k_alive := negb (full n); k_error := Done |}
          | _ => {| k_writer := w; k_processed := k_processed k; k_max := k_max k; k_alive := false; k_error := o |}
          end
    end.
  Definition run (ms : list message) (k : sink) : sink := fold_left (fun k m => handle m k) ms k.
  (** The file, when the sink is gone: the stream, without what is in the buffer. *)
  Definition file (k : sink) : text := w_out (k_writer k).
End Writer.

(** ** Reading the header back *)

(** A type of the schema of the reader: a record, by its keys, or another type with a name. *)
Inductive definition := Record_ (name : text) (keys : list text) | Naked (name : text).
(** [reader::make_layout] (csv.cpp:178-202): the first record that has all columns. The code looks
    columns up by a pattern (type.cpp:364-373); for names without special characters, this is the
    key itself. *)
Fixpoint make_layout (schema : list definition) (names : list text) : option definition :=
  match schema with
  | [] => None
  | Record_ n keys :: r => if forallb (fun x => existsb (bytes_eqb x) keys) names then Some (Record_ n names) else make_layout r names
  | Naked n :: r => match names with
                    | [x] => if bytes_eqb x n then Some (Record_ n [n]) else make_layout r names
                    | _ => make_layout r names
                    end
  end.
