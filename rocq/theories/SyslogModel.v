(** Model of the import of Syslog messages: the parsers of libvast/vast/format/syslog.hpp:39-266 and the
    loop of libvast/src/format/syslog.cpp:97-166 with its two builders
    (libvast/src/format/multi_layout_reader.cpp:29-85).

    Parsers take a text and give what they parsed and the rest; on failure they restore the position
    (concept/parseable/core). The parser of times is given from outside. Not modelled: builders that
    fail; replaced layouts (syslog.cpp:65-72). *)
From Coq Require Import List ZArith NArith Bool Arith.
From Verif Require Import LiteralModel.
Import ListNotations.
Open Scope N_scope.
Local Notation length := List.length.
Local Notation bytes := (list N).

(** [printable - ' '] (syslog.hpp:91-94). *)
Definition graphic (c : N) : bool := (33 <=? c) && (c <=? 126).
(** The characters of names of elements and keys of parameters (syslog.hpp:119, 174-178). *)
Definition name_char (c : N) : bool := graphic c && negb (c =? 61) && negb (c =? 93) && negb (c =? 34).
(** At most [n] characters of a kind. *)
Fixpoint span (p : N -> bool) (n : nat) (s : bytes) : bytes * bytes :=
  match n, s with
  | S n', c :: r => if p c then let '(w, r') := span p n' r in (c :: w, r') else ([], s)
  | _, _ => ([], s)
  end.
(** [rep(p, 1, n)]. *)
Definition word (p : N -> bool) (n : nat) (s : bytes) : option (bytes * bytes) :=
  match span p n s with ([], _) => None | (w, r) => Some (w, r) end.
(** One literal character. *)
Definition lit (c : N) (s : bytes) : option bytes := match s with x :: r => if x =? c then Some r else None | [] => None end.
(** [integral_parser<uint16_t, 3>] (concept/parseable/numeric/integral.hpp:58-128). *)
Definition number (s : bytes) : option (N * bytes) := match word isdigit 3 s with Some (w, r) => Some (num w, r) | None => None end.
(** [maybe_nil] (syslog.hpp:40-61): a dash before a space. *)
Definition nil_ahead (s : bytes) : bool := match s with 45 :: 32 :: _ => true | _ => false end.
Definition maybe_nil {A : Type} (none : A) (p : bytes -> option (A * bytes)) (s : bytes) : option (A * bytes) :=
  if nil_ahead s then Some (none, tl s) else p s.

(** Values of parameters (syslog.hpp:121-125): escaped characters and others, up to the first that is
    neither. *)
Fixpoint value (s : bytes) : bytes :=
  match s with
  | 92 :: c :: r => if (c =? 93) || (c =? 92) || (c =? 34) then value r else s
  | c :: r => if (32 <=? c) && (c <=? 126) && negb (c =? 93) && negb (c =? 34) && negb (c =? 92) then value r else s
  | [] => []
  end.
Definition bind {A B : Type} (x : option A) (f : A -> option B) : option B := match x with Some a => f a | None => None end.
(** One parameter (syslog.hpp:111-132). Structured data is parsed and dropped (syslog.cpp:132-139). *)
Definition parameter (s : bytes) : option bytes :=
  bind (lit 32 s) (fun s => bind (word name_char 32 s) (fun '(_, s) => bind (lit 61 s) (fun s => bind (lit 34 s) (fun s => lit 34 (value s))))).
(** [*p], where [p] consumes something. *)
Fixpoint many (fuel : nat) (p : bytes -> option bytes) (s : bytes) : bytes :=
  match fuel with
  | O => s
  | S f => match p s with Some r => many f p r | None => s end
  end.
(** [+p]. *)
Definition plus (p : bytes -> option bytes) (s : bytes) : option bytes := bind (p s) (fun r => Some (many (length r) p r)).
(** One element and all (syslog.hpp:138-218). *)
Definition element (s : bytes) : option bytes :=
  bind (lit 91 s) (fun s => bind (word name_char 32 s) (fun '(_, s) => bind (plus parameter s) (fun s => lit 93 s))).
Definition structured (s : bytes) : option bytes := bind (maybe_nil tt (fun s => bind (plus element s) (fun r => Some (tt, r))) s) (fun '(_, r) => Some r).
(** The content behind its space (syslog.hpp:220-236). *)
Definition content (s : bytes) : bytes := match s with 239 :: 187 :: 191 :: c :: r => c :: r | _ => s end.

(** The columns of an event (syslog.cpp:25-45). *)
Record fields := { facility : N; severity : N; version : N; stamp : option Z; hostname : bytes; app_name : bytes; process_id : bytes; message_id : bytes; text_of : option bytes }.

Section Time.
  (** [parsers::time]. *)
  Variable time_p : bytes -> option (Z * bytes).

  (** A message (syslog.hpp:80-106, 246-266), which has to be the whole line
      (concept/parseable/core/parser.hpp:62-66). *)
  Definition message (s : bytes) : option fields :=
    bind (lit 60 s) (fun s => bind (number s) (fun '(pri, s) => if 191 <? pri then None else
    bind (lit 62 s) (fun s => bind (number s) (fun '(ver, s) => if ver =? 0 then None else
    bind (lit 32 s) (fun s => bind (maybe_nil None (fun s => bind (time_p s) (fun '(t, r) => Some (Some t, r))) s) (fun '(ts, s) =>
    bind (lit 32 s) (fun s => bind (maybe_nil [] (word graphic 255) s) (fun '(h, s) =>
    bind (lit 32 s) (fun s => bind (maybe_nil [] (word graphic 48) s) (fun '(a, s) =>
    bind (lit 32 s) (fun s => bind (maybe_nil [] (word graphic 128) s) (fun '(p, s) =>
    bind (lit 32 s) (fun s => bind (maybe_nil [] (word graphic 32) s) (fun '(i, s) =>
    bind (lit 32 s) (fun s => bind (structured s) (fun s =>
    let row m := {| facility := pri / 8; severity := pri mod 8; version := ver; stamp := ts; hostname := h; app_name := a; process_id := p; message_id := i; text_of := m |} in
    match s with
    | [] => Some (row None)
    | 32 :: s => Some (row (Some (content s)))
    | _ => None
    end)))))))))))))))).

  (** An event has one of two layouts. *)
  Inductive event := Rfc5424 (f : fields) | Unknown (l : bytes).
  Definition event_of (l : bytes) : event := match message l with Some f => Rfc5424 f | None => Unknown l end.

  (** The state: the lines that are left, the rows of the two builders, and the slices that the consumer
      got. [batch_events_] is the number of rows in the builders (multi_layout_reader.cpp:49). *)
  Record reader := { lines : list bytes; known : list fields; others : list bytes; slices : list (list fields + list bytes) }.
  Definition start (ls : list bytes) : reader := {| lines := ls; known := []; others := []; slices := [] |}.
  (** [finish] (multi_layout_reader.cpp:34-67); [first] says which builder comes first in the map. *)
  Definition finish (first : bool) (r : reader) : reader :=
    let a := match known r with [] => [] | l => [inl l] end in
    let b := match others r with [] => [] | l => [inr l] end in
    {| lines := lines r; known := []; others := []; slices := slices r ++ (if first then a ++ b else b ++ a) |}.
  (** What is the case before a line: nothing special, the batch is late, no input yet. *)
  Inductive wait := Now | Late | Stalled.
  (** How a call ends. *)
  Inductive ending := Enough | End | Timeout | Stall.
  Definition add (e : event) (ls : list bytes) (r : reader) : reader :=
    match e with
    | Rfc5424 f => {| lines := ls; known := known r ++ [f]; others := others r; slices := slices r |}
    | Unknown l => {| lines := ls; known := known r; others := others r ++ [l]; slices := slices r |}
    end.
  (** The rows of the builder of the event (syslog.cpp:145, 159). *)
  Definition rows (e : event) (r : reader) : nat := match e with Rfc5424 _ => length (known r) | Unknown _ => length (others r) end.
  Definition skip (ls : list bytes) (r : reader) : reader := {| lines := ls; known := known r; others := others r; slices := slices r |}.
  (** [read_impl] (syslog.cpp:97-166) for the lines that are left. *)
  Fixpoint loop (ls : list bytes) (first : bool) (size events : nat) (waits : list wait) (r : reader) : ending * reader :=
    match events with
    | O => (Enough, finish first (skip ls r))
    | S events' =>
      match ls with
      | [] => (End, finish first (skip [] r))
      | l :: ls' =>
        match hd Now waits, (length (known r) + length (others r))%nat with
        | Late, S _ => (Timeout, finish first (skip ls r))
        | Stalled, _ => (Stall, skip ls r)
        | _, _ =>
          match l with
          | [] => loop ls' first size events (tl waits) (skip ls' r)
          | _ => let r1 := add (event_of l) ls' r in
                 let r2 := if (size <=? rows (event_of l) r1)%nat then finish first r1 else r1 in
                 loop ls' first size events' (tl waits) r2
          end
        end
      end
    end.
  Definition read (c : bool * nat * nat * list wait) (r : reader) : ending * reader := let '(first, size, events, waits) := c in loop (lines r) first size events waits r.
  (** The source reads again and again until the end of the input (libvast/src/system/source.cpp:213-284). *)
  Fixpoint run (calls : list (bool * nat * nat * list wait)) (r : reader) : ending * reader :=
    match calls with
    | [] => (Stall, r)
    | c :: cs => match read c r with (End, r') => (End, r') | (_, r') => run cs r' end
    end.
End Time.
