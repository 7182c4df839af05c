(** Model of the archive: libvast/src/system/archive.cpp, libvast/vast/system/archive.hpp and
    libvast/vast/query.hpp.

    The actor handles one message at a time, in any order that the senders produce. What the
    segment store answers to [next] is part of the message that makes the archive go on; C26 says
    what these answers are. Metrics, the status and the stream of new slices are left out. *)
From Coq Require Import List NArith Bool Arith.
From Verif Require Import OperatorModel DataModel TypeModel ExpressionModel TableSliceModel.
Import ListNotations.
Open Scope nat_scope.

(** Actors and response promises are numbers. *)
Definition sink := nat.
Definition promise := nat.
(** [query] (query.hpp:19-109): [count] with its mode, [extract] with its policy, where [true]
    preserves IDs, and [erase]. *)
Inductive command := Count (s : sink) (estimate : bool) | Extract (s : sink) (preserve : bool) | Erase.
Record query := { q_cmd : command; q_expr : expr }.
Definition command_eqb (x y : command) : bool :=
  match x, y with
  | Count a e, Count b f => (a =? b) && Bool.eqb e f
  | Extract a e, Extract b f => (a =? b) && Bool.eqb e f
  | Erase, Erase => true
  | _, _ => false
  end.
(** [operator==] (query.hpp:100-102). *)
Definition query_eqb (x y : query) : bool := command_eqb (q_cmd x) (q_cmd y) && expr_eqb (q_expr x) (q_expr y).
Definition sink_of (q : query) : option sink := match q_cmd q with Count s _ | Extract s _ => Some s | Erase => None end.

(** ** What is sent for a slice *)

Inductive message := MCount (n : nat) | MSlice (s : slice).
(** Messages to the sink, an error of [tailor], or a failed assertion. *)
Inductive served := Sent (ms : list message) | Refused | Crash.
(** The inner loops over slices (archive.cpp:204-213). *)
Fixpoint select_matching (re : regex) (checker : expr) (subs : list slice) : option (list slice) :=
  match subs with
  | [] => Some []
  | s :: r =>
      match evaluate_slice re checker s with
      | None => None
      | Some hits => match select s hits, select_matching re checker r with Some a, Some b => Some (a ++ b) | _, _ => None end
      end
  end.
(** The body of the handler for a slice (archive.cpp:177-225). *)
Definition serve (re : regex) (glob : list N -> list N -> bool) (q : query) (xs : list bool) (s : slice) : served :=
  let plain := expr_eqb (q_expr q) ENone in
  match (if plain then ok ENone else tailor glob (q_expr q) (TRecord (la_meta (s_layout s)) (la_fields (s_layout s)))) with
  | ub => Crash
  | fail => Refused
  | ok c =>
      let checker := prune_meta c in
      match q_cmd q with
      | Count _ true => Crash
      | Count _ false => match count_matching re s checker xs with Some n => Sent [MCount n] | None => Crash end
      | Extract _ true =>
          match select s xs with
          | None => Crash
          | Some subs => if plain then Sent (map MSlice subs)
                         else match select_matching re checker subs with Some ss => Sent (map MSlice ss) | None => Crash end
          end
      | Extract _ false =>
          match filter_slice re s checker xs with
          | None => Crash
          | Some None => Sent []
          | Some (Some t) => Sent [MSlice t]
          end
      | Erase => Crash
      end
  end.

(** ** The actor *)

(** [request_state] (archive.hpp:32-42). *)
Record request := { rq_query : query; rq_queue : list (list bool * promise); rq_cancelled : bool }.
(** What [next] of the session returns: a slice, the end, or an error. *)
Inductive got := GSlice (s : slice) | GEnd | GError.
(** What happens, in order: a request arrives, an actor goes down, a session is opened for a
    request, the store gives a slice, the end or an error, a message is sent, a query turns out not
    to fit a slice, events are erased, a promise is fulfilled with [done] or an error. *)
Inductive event :=
| Filed (p : promise) (q : query) (xs : list bool)
| Down (s : sink)
| Opened (p : promise) (q : query) (xs : list bool)
| Got (g : got)
| Msg (s : sink) (m : message)
| Unfit (q : query)
| Erased (xs : list bool)
| Answered (p : promise) (done : bool).
(** [archive_state] (archive.hpp:31-73): the requests, whether there is a session, its IDs and the
    promise it works for; the number of [resume] messages in the mailbox; and what has happened. *)
Record archive := {
  a_requests : list request;
  a_session : bool;
  a_ids : list bool;
  a_active : promise;
  a_resumes : nat;
  a_log : list event
}.
Definition start : archive := {| a_requests := []; a_session := false; a_ids := []; a_active := 0; a_resumes := 0; a_log := [] |}.

Definition log (es : list event) (a : archive) : archive :=
  {| a_requests := a_requests a; a_session := a_session a; a_ids := a_ids a; a_active := a_active a; a_resumes := a_resumes a; a_log := a_log a ++ es |}.
Definition set_requests (rs : list request) (a : archive) : archive :=
  {| a_requests := rs; a_session := a_session a; a_ids := a_ids a; a_active := a_active a; a_resumes := a_resumes a; a_log := a_log a |}.
Definition set_resumes (n : nat) (a : archive) : archive :=
  {| a_requests := a_requests a; a_session := a_session a; a_ids := a_ids a; a_active := a_active a; a_resumes := n; a_log := a_log a |}.
(** [deliver]: a promise that has been fulfilled ignores it. *)
Definition answered (p : promise) (l : list event) : bool := existsb (fun e => match e with Answered p' _ => p' =? p | _ => false end) l.
Definition deliver (p : promise) (d : bool) (a : archive) : archive := if answered p (a_log a) then a else log [Answered p d] a.

(** [next_session] (archive.cpp:52-72). The store always returns a session: the function that could
    report an error (segment_store.cpp:426-441) never does. *)
Fixpoint next_requests (rs : list request) : list promise * list request * option (query * list bool * promise) :=
  match rs with
  | [] => ([], [], None)
  | r :: rest =>
      match rq_cancelled r, rq_queue r with
      | false, (xs, p) :: more => ([], {| rq_query := rq_query r; rq_queue := more; rq_cancelled := false |} :: rest, Some (rq_query r, xs, p))
      | _, queue => let '(ps, rs', o) := next_requests rest in (map snd queue ++ ps, rs', o)
      end
  end.
Definition next_session (a : archive) : archive :=
  let '(ps, rs, o) := next_requests (a_requests a) in
  let a := set_requests rs (fold_left (fun a p => deliver p true a) ps a) in
  match o with
  | None => {| a_requests := a_requests a; a_session := false; a_ids := a_ids a; a_active := a_active a; a_resumes := a_resumes a; a_log := a_log a |}
  | Some (q, xs, p) => {| a_requests := a_requests a; a_session := true; a_ids := xs; a_active := p; a_resumes := a_resumes a; a_log := a_log a ++ [Opened p q xs] |}
  end.

(** The request for a query (archive.cpp:77-79). *)
Fixpoint find_request (q : query) (rs : list request) : option request :=
  match rs with [] => None | r :: rest => if query_eqb (rq_query r) q then Some r else find_request q rest end.
Fixpoint queue_up (q : query) (x : list bool * promise) (rs : list request) : list request :=
  match rs with
  | [] => []
  | r :: rest => if query_eqb (rq_query r) q then {| rq_query := rq_query r; rq_queue := rq_queue r ++ [x]; rq_cancelled := rq_cancelled r |} :: rest else r :: queue_up q x rest
  end.
(** [file_request] (archive.cpp:74-108). [None]: the assertion that there is a session. *)
Definition file_request (p : promise) (q : query) (xs : list bool) (a : archive) : option archive :=
  let go (a : archive) :=
    if a_session a then Some a
    else let a := next_session a in
         if a_session a then Some (set_resumes (S (a_resumes a)) a) else None in
  match find_request q (a_requests a) with
  | Some r => if rq_cancelled r then Some (deliver p true a) else go (set_requests (queue_up q (xs, p) (a_requests a)) a)
  | None => go (set_requests (a_requests a ++ [{| rq_query := q; rq_queue := [(xs, p)]; rq_cancelled := false |}]) a)
  end.
(** The handler for queries (archive.cpp:155-165). *)
Definition on_query (p : promise) (q : query) (xs : list bool) (a : archive) : option archive :=
  let a := log [Filed p q xs] a in
  match q_cmd q with
  | Erase => Some (deliver p true (log [Erased xs] a))
  | _ => file_request p q xs a
  end.
(** The handler for actors that go down (archive.cpp:129-153): the first request for that sink is
    cancelled. *)
Fixpoint cancel (s : sink) (rs : list request) : list request :=
  match rs with
  | [] => []
  | r :: rest => if match sink_of (rq_query r) with Some s' => s' =? s | None => false end
                 then {| rq_query := rq_query r; rq_queue := rq_queue r; rq_cancelled := true |} :: rest else r :: cancel s rest
  end.
Definition on_down (s : sink) (a : archive) : archive := set_requests (cancel s (a_requests a)) (log [Down s] a).

Section Resume.
  Variable serve : query -> list bool -> slice -> served.
  (** The second part of the handler for [resume] (archive.cpp:175-239), with what [next]
      returns. *)
  Definition work (g : got) (a : archive) : option archive :=
    match a_requests a with
    | [] => None
    | r :: rest =>
        let a := log [Got g] a in
        let again (a : archive) := Some (set_resumes (S (a_resumes a)) a) in
        let finish (d : bool) :=
          let a := next_session (deliver (a_active a) d a) in
          if a_session a then again a else Some a in
        match g with
        | GSlice s =>
            match serve (rq_query r) (a_ids a) s with
            | Crash => None
            | Refused => again (deliver (a_active a) false (log [Unfit (rq_query r)] (set_requests ({| rq_query := rq_query r; rq_queue := rq_queue r; rq_cancelled := true |} :: rest) a)))
            | Sent ms => again (log (match sink_of (rq_query r) with Some k => map (Msg k) ms | None => [] end) a)
            end
        | GEnd => finish true
        | GError => finish false
        end
    end.
  (** The handler for [resume] (archive.cpp:166-239). [None]: an assertion. *)
  Definition on_resume (g : got) (a : archive) : option archive :=
    let a := set_resumes (a_resumes a - 1) a in
    if negb (a_session a) then None
    else match a_requests a with
         | [] => None
         | r :: _ =>
             if rq_cancelled r
             then let a := next_session (deliver (a_active a) true a) in
                  if a_session a then work g a else Some a
             else work g a
         end.

  (** The messages of the archive. *)
  Inductive input := IQuery (p : promise) (q : query) (xs : list bool) | IDown (s : sink) | IResume (g : got).
  Definition step (i : input) (a : archive) : option archive :=
    match i with
    | IQuery p q xs => on_query p q xs a
    | IDown s => Some (on_down s a)
    | IResume g => on_resume g a
    end.
  (** A [resume] message can be handled if there is one, and promises are new. *)
  Definition enabled (i : input) (a : archive) : Prop :=
    match i with
    | IQuery p _ _ => forall q xs, ~ In (Filed p q xs) (a_log a)
    | IDown _ => True
    | IResume _ => 0 < a_resumes a
    end.
  Inductive reach : archive -> Prop :=
  | reach_start : reach start
  | reach_step : forall a i a', reach a -> enabled i a -> step i a = Some a' -> reach a'.
End Resume.
