(** Model of the exporter: libvast/src/system/exporter.cpp.

    Messages are handled one at a time. The exit message an exporter sends to itself
    overtakes all others, so shutting down takes effect at once. Left out: the
    transforms applied to shipped slices, statistics, status and the runtime. The cache
    of tailored expressions is left out: its keys are equal only for equal layouts. The
    counters of processed, cached and shipped events are unbounded: fewer than 2^64
    events arrive. The counter of requested events wraps. *)
From Coq Require Import List ZArith NArith Bool Arith.
From Verif Require Import OperatorModel AddressModel DataModel TypeModel ExpressionModel TableSliceModel.
Import ListNotations.
Open Scope nat_scope.

(** [max_events] (aliases.hpp:35-41). *)
Definition max_events : N := (2 ^ 64 - 1)%N.
(** The number of rows of a slice. *)
Definition nrows (s : slice) : N := N.of_nat (length (s_rows s)).

(** The relevant part of [exporter_state] (exporter.hpp:29-77) and [query_status]
    (query_status.hpp:21-31). *)
Record exporter := {
  x_historical : bool; x_continuous : bool; x_expr : expr;
  x_requested : N; x_cached : N; x_shipped : N; x_processed : N;
  x_results : list slice;
  x_expected : nat; x_scheduled : nat; x_received : nat;
  x_quit : bool }.

(** What an exporter sends: a slice to its sink, or a number of partitions to the index. *)
Inductive xout := Ship (s : slice) | More (n : nat).

(** The loop of [ship_results] (exporter.cpp:38-68). The first slice leaves the list in
    every iteration but the last. [None] is a failed assertion. *)
Fixpoint ship_loop (results : list slice) (requested cached shipped : N) {struct results}
  : option (list slice * N * N * N * list slice) :=
  if (0 <? requested)%N && (0 <? cached)%N then
    match results with
    | [] => None
    | s :: rest =>
      if (nrows s <=? requested)%N then
        if (nrows s <=? cached)%N then
          match ship_loop rest (requested - nrows s) (cached - nrows s) (shipped + nrows s) with
          | None => None
          | Some (rs, r, c, h, out) => Some (rs, r, c, h, s :: out)
          end
        else None
      else match split s (N.to_nat requested) with
           | Some (Some a, Some b) =>
             if (nrows a =? requested)%N && (nrows a <=? cached)%N then
               Some (b :: rest, (requested - nrows a)%N, (cached - nrows a)%N, (shipped + nrows a)%N, [a])
             else None
           | _ => None
           end
    end
  else Some (results, requested, cached, shipped, []).
(** [ship_results] (exporter.cpp:38-68). *)
Definition ship_results (x : exporter) : option (exporter * list xout) :=
  match ship_loop (x_results x) (x_requested x) (x_cached x) (x_shipped x) with
  | None => None
  | Some (rs, r, c, h, out) =>
    Some ({| x_historical := x_historical x; x_continuous := x_continuous x; x_expr := x_expr x;
             x_requested := r; x_cached := c; x_shipped := h; x_processed := x_processed x; x_results := rs;
             x_expected := x_expected x; x_scheduled := x_scheduled x; x_received := x_received x; x_quit := x_quit x |},
          map Ship out)
  end.

(** Setters. *)
Definition set_requested (x : exporter) (n : N) : exporter :=
  {| x_historical := x_historical x; x_continuous := x_continuous x; x_expr := x_expr x;
     x_requested := n; x_cached := x_cached x; x_shipped := x_shipped x; x_processed := x_processed x; x_results := x_results x;
     x_expected := x_expected x; x_scheduled := x_scheduled x; x_received := x_received x; x_quit := x_quit x |}.
Definition set_progress (x : exporter) (expected scheduled received : nat) : exporter :=
  {| x_historical := x_historical x; x_continuous := x_continuous x; x_expr := x_expr x;
     x_requested := x_requested x; x_cached := x_cached x; x_shipped := x_shipped x; x_processed := x_processed x; x_results := x_results x;
     x_expected := expected; x_scheduled := scheduled; x_received := received; x_quit := x_quit x |}.
Definition add_results (x : exporter) (processed cached : N) (rs : list slice) : exporter :=
  {| x_historical := x_historical x; x_continuous := x_continuous x; x_expr := x_expr x;
     x_requested := x_requested x; x_cached := (x_cached x + cached)%N; x_shipped := x_shipped x;
     x_processed := (x_processed x + processed)%N; x_results := x_results x ++ rs;
     x_expected := x_expected x; x_scheduled := x_scheduled x; x_received := x_received x; x_quit := x_quit x |}.

(** [shutdown] and the exit handler (exporter.cpp:92-103, 186-197): with an error, and
    without one, which is ignored for continuous queries. *)
Definition exit_now (x : exporter) : exporter * list xout :=
  ({| x_historical := x_historical x; x_continuous := x_continuous x; x_expr := x_expr x;
      x_requested := x_requested x; x_cached := x_cached x; x_shipped := x_shipped x; x_processed := x_processed x; x_results := x_results x;
      x_expected := x_expected x; x_scheduled := x_scheduled x; x_received := x_received x; x_quit := true |}, [More 0]).
Definition shutdown (x : exporter) : exporter * list xout :=
  if x_continuous x then (x, []) else exit_now x.

(** [request_more_hits] (exporter.cpp:105-139). *)
Definition request_more_hits (x : exporter) : option (exporter * list xout) :=
  if negb (x_historical x) then Some (x, [])
  else if (x_requested x =? 0)%N then Some (x, [])
  else if x_received x =? x_expected x then Some (x, [])
  else if x_received x <? x_expected x then
    let n := Nat.min (x_expected x - x_received x) 2 in
    Some (set_progress x (x_expected x) n (x_received x), [More n])
  else None.

(** [f] and then [g] on the resulting state. *)
Definition and_then (r : option (exporter * list xout)) (g : exporter -> option (exporter * list xout)) : option (exporter * list xout) :=
  match r with
  | None => None
  | Some (x, out) => match g x with None => None | Some (y, out') => Some (y, out ++ out') end
  end.

(** [handle_batch] (exporter.cpp:141-173). *)
Definition handle_batch (re : regex) (glob : list N -> list N -> bool) (x : exporter) (s : slice) : option (exporter * list xout) :=
  match tailor glob (x_expr x) (TRecord (la_meta (s_layout s)) (la_fields (s_layout s))) with
  | ub => None
  | fail => and_then (ship_results x) (fun y => Some (shutdown y))
  | ok checker =>
    match evaluate_slice re checker s with
    | None => None
    | Some selection =>
      if rank1 selection =? 0 then Some (add_results x (nrows s) 0 [], [])
      else match select s selection with
           | None => None
           | Some rs => ship_results (add_results x (nrows s) (N.of_nat (rank1 selection)) rs)
           end
    end
  end.

(** The messages: extract everything, extract a number of events, the reply to the query
    with the numbers of candidate and scheduled partitions, an error as reply, results
    of the historical part, a batch of newly imported events, and the end of a round. *)
Inductive xmsg := XExtractAll | XExtract (n : N) | XLookup (partitions scheduled : nat) | XLookupError
  | XSlice (s : slice) | XBatch (s : slice) | XDone.

(** The message handlers (exporter.cpp:207-240, 262-280, 291-305, 328-366). *)
Definition x_handle (re : regex) (glob : list N -> list N -> bool) (x : exporter) (m : xmsg) : option (exporter * list xout) :=
  match m with
  | XExtractAll =>
      if (x_requested x =? max_events)%N then Some (x, [])
      else and_then (ship_results (set_requested x max_events)) request_more_hits
  | XExtract n =>
      if (n =? 0)%N then Some (x, [])
      else if (x_requested x =? max_events)%N then Some (x, [])
      else if (x_requested x <? max_events)%N then
        let k := N.min (max_events - n) n in
        and_then (ship_results (set_requested x ((x_requested x + k) mod 2 ^ 64))) request_more_hits
      else None
  | XLookup partitions scheduled =>
      if 0 <? partitions then Some (set_progress x partitions scheduled (x_received x), [])
      else Some (shutdown x)
  | XLookupError => Some (exit_now x)
  | XSlice s => ship_results (add_results x (nrows s) (nrows s) [s])
  | XBatch s => handle_batch re glob x s
  | XDone =>
      let y := set_progress x (x_expected x) (x_scheduled x) (x_received x + x_scheduled x) in
      if x_received y <? x_expected y then request_more_hits y else Some (shutdown y)
  end.
(** A message; none is handled after quitting. *)
Definition x_step (re : regex) (glob : list N -> list N -> bool) (x : exporter) (m : xmsg) : option (exporter * list xout) :=
  if x_quit x then Some (x, []) else x_handle re glob x m.
Fixpoint x_run (re : regex) (glob : list N -> list N -> bool) (x : exporter) (ms : list xmsg) : option (exporter * list xout) :=
  match ms with
  | [] => Some (x, [])
  | m :: ms' => and_then (x_step re glob x m) (fun y => x_run re glob y ms')
  end.
(** A new exporter (exporter.cpp:179-185). *)
Definition x_init (historical continuous : bool) (e : expr) : exporter :=
  {| x_historical := historical; x_continuous := continuous; x_expr := e;
     x_requested := 0; x_cached := 0; x_shipped := 0; x_processed := 0; x_results := [];
     x_expected := 0; x_scheduled := 0; x_received := 0; x_quit := false |}.
