(** Model of how input is cut into lines while it arrives in pieces: [absorb_line]
    (libvast/vast/detail/absorb_line.hpp:26-60), [line_range]
    (libvast/src/detail/line_range.cpp:18-66) and the stream buffer with timeouts
    (libvast/src/detail/fdinbuf.cpp:36-91).

    The input is a list of bytes and of silences: [None] stands for a moment at which [poll] runs
    into the timeout (fdinbuf.cpp:52-66) because the next bytes are not there yet; the end of the
    list is the end of the file. Where the buffer ends between two bytes is not part of it: if bytes
    are there, [underflow] goes on with them. Errors of [poll] and [read] and lines as long as
    [max_size] are left out. *)
From Coq Require Import List NArith Bool Arith.
Import ListNotations.
Open Scope N_scope.

Notation text := (list N).
Notation input := (list (option N)).

(** The state bits of the stream, whether the buffer ran into a timeout ([timeout_fail_],
    fdinbuf.hpp:41), and the rest of the input. *)
Record stream := { eofbit : bool; failbit : bool; silent : bool; rest : input }.

(** The loop of [absorb_line] (absorb_line.hpp:35-57). [none] tells that no character was extracted
    so far. Behind a carriage return it looks at the next character, which may have to wait for
    input (absorb_line.hpp:40-43). *)
Fixpoint absorb (none : bool) (t : text) (i : input) : text * stream :=
  match i with
  | [] => (t, {| eofbit := true; failbit := none; silent := false; rest := [] |})
  | None :: r => (t, {| eofbit := true; failbit := none; silent := true; rest := r |})
  | Some c :: r =>
      if c =? 10 then (t, {| eofbit := false; failbit := false; silent := false; rest := r |})
      else if c =? 13 then
        (t, match r with
            | Some d :: r' => {| eofbit := false; failbit := false; silent := false; rest := if d =? 10 then r' else r |}
            | None :: r' => {| eofbit := false; failbit := false; silent := true; rest := r' |}
            | [] => {| eofbit := false; failbit := false; silent := false; rest := [] |}
            end)
      else absorb false (t ++ [c]) r
  end.
(** [absorb_line] (absorb_line.hpp:26-60): the sentry fails unless the stream is good. *)
Definition absorb_line (t : text) (s : stream) : text * stream :=
  if eofbit s || failbit s then (t, {| eofbit := eofbit s; failbit := true; silent := silent s; rest := rest s |})
  else absorb true t (rest s).

(** [line_range] (line_range.hpp:48-51). *)
Record range := { line : text; timed_out : bool; inp : stream }.

(** The loop of [next_impl] (line_range.cpp:29-34); [n] bounds its iterations. *)
Fixpoint next_loop (n : nat) (t : text) (s : stream) : text * stream :=
  match n with
  | O => (t, s)
  | S n' => let '(t', s') := absorb_line t s in
            if failbit s' then (t', s') else match t' with [] => next_loop n' t' s' | _ => (t', s') end
  end.
(** [next_impl] (line_range.cpp:25-35). *)
Definition next_impl (t : text) (s : stream) : text * stream :=
  if failbit s then (t, s) else next_loop (S (S (length (rest s)))) t s.
(** [next_timeout] (line_range.cpp:43-62). *)
Definition next_timeout (r : range) : range :=
  let '(t, s) := next_impl (if timed_out r then line r else []) (inp r) in
  {| line := t; timed_out := silent s;
     inp := if silent s then {| eofbit := false; failbit := false; silent := true; rest := rest s |} else s |}.
(** [done] (line_range.cpp:64-66). *)
Definition done (r : range) : bool := match line r with [] => failbit (inp r) | _ => false end.

(** The loop of a reader, e.g. src/format/csv.cpp:443-462: it tries again after a timeout and
    ignores empty lines. [None]: it did not come to an end within [n] steps. *)
Fixpoint collect (n : nat) (r : range) : option (list text) :=
  match n with
  | O => None
  | S n' =>
      if done r then Some []
      else let r' := next_timeout r in
        if timed_out r' then collect n' r'
        else match line r' with
             | [] => collect n' r'
             | l => option_map (cons l) (collect n' r')
             end
  end.
(** A new range (line_range.cpp:18-19, fdinbuf.cpp:21-27). *)
Definition open (i : input) : range :=
  {| line := []; timed_out := false; inp := {| eofbit := false; failbit := false; silent := false; rest := i |} |}.
