(** Model of aging and counting: the state machine that drives a query
    (libvast/src/system/query_processor.cpp), the eraser that runs a query again and again
    (libvast/src/system/eraser.cpp) and the counter (libvast/src/system/counter.cpp,
    libvast/src/system/count_command.cpp), together with what the index and its query supervisors
    send to them (libvast/src/system/index.cpp:773-875, libvast/src/system/query_supervisor.cpp:45-88).

    Messages that a state has no handler for are dropped, and if they are requests, the sender gets
    an error: this is the default of CAF, and the constructor (query_processor.cpp:23-50) does not
    change it although its documentation says so (query_processor.hpp:80). Queries that the index
    refuses and losing the client are not modelled. The numbers of partitions are not bounded here
    (uint32_t in query_processor.hpp:157-161). *)
From Coq Require Import List NArith Arith Bool.
Import ListNotations.

(** ** The state machine *)

(** [state_name] and [partitions_] (query_processor.hpp:66-70, 156-161). *)
Inductive phase := Idle | AwaitId | Await.
Record proc := { ph : phase; received : nat; scheduled : nat; total : nat }.
(** [request_more_results] (query_processor.cpp:60-73): how many partitions are asked for. *)
Definition more (p : proc) : nat := Nat.min (total p - received p) (scheduled p).
(** The handler of the query ID (query_processor.cpp:33-40). *)
Definition got_id (t s : nat) : proc := {| ph := Await; received := 0; scheduled := s; total := t |}.
(** The handler of [done] up to [process_done] (query_processor.cpp:42-48). *)
Definition got_done (p : proc) : proc := {| ph := ph p; received := received p + scheduled p; scheduled := scheduled p; total := total p |}.
(** The rest of [request_more_results]. *)
Definition ask (p : proc) : proc := {| ph := ph p; received := received p; scheduled := more p; total := total p |}.

(** How many partitions the index schedules at first (index.cpp:833-835), and whether somebody will
    send [done]: at once if there are no candidates (index.cpp:794-797, 822-826), never if none are to
    be scheduled (index.cpp:857-862), otherwise the supervisor. *)
Definition taste_of (taste t : nat) : nat := Nat.min t taste.
Definition starts (taste t : nat) : bool := (t =? 0) || negb (taste_of taste t =? 0).

(** ** The eraser *)

(** What the eraser does: queries the index, asks for more partitions, responds to a request, or
    lets CAF respond with an error. *)
Inductive out := Query | More (n : nat) | Respond (i : nat) | Refuse (i : nat).
(** The eraser (eraser.hpp:47-68): [promise] is the pending request, if any, and [timers] is the number
    of delayed messages to itself. The index will send a query ID if [asked], and [done] if [running]. *)
Record eraser := { e_proc : proc; promise : option nat; timers : nat; asked : bool; running : bool }.
(** A delayed message arrives, somebody requests a run, the index sends the query ID and the number of
    partitions, and the supervisor has finished its partitions. *)
Inductive input := Tick | Run (i : nat) | Reply (t : nat) | Finish.

Definition idle_proc (p : proc) : proc := {| ph := Idle; received := received p; scheduled := scheduled p; total := total p |}.
(** [transition_to(idle)] (eraser.cpp:57-68). *)
Definition to_idle (p : proc) (pr : option nat) (tm : nat) (a r : bool) : eraser * list out :=
  match pr with
  | Some i => ({| e_proc := idle_proc p; promise := None; timers := tm; asked := a; running := r |}, [Respond i])
  | None => ({| e_proc := idle_proc p; promise := None; timers := S tm; asked := a; running := r |}, [])
  end.
(** [init] (eraser.cpp:28-55). *)
Definition e_start : eraser := fst (to_idle {| ph := Idle; received := 0; scheduled := 0; total := 0 |} None 0 false false).
(** The handler of [run] in the idle state (eraser.cpp:37-52). The query is fixed, and so is [valid]:
    that it can be parsed, normalized and validated. *)
Definition e_run (valid : bool) (e : eraser) : eraser * list out :=
  if valid then
    ({| e_proc := {| ph := AwaitId; received := received (e_proc e); scheduled := scheduled (e_proc e); total := total (e_proc e) |};
        promise := promise e; timers := timers e; asked := true; running := running e |}, [Query])
  else (e, []).
(** One message. [None] means that there is no such message. *)
Definition e_step (taste : nat) (valid : bool) (e : eraser) (i : input) : option (eraser * list out) :=
  match i with
  | Tick =>
      match timers e with
      | O => None
      | S tm =>
          let e' := {| e_proc := e_proc e; promise := promise e; timers := tm; asked := asked e; running := running e |} in
          match ph (e_proc e) with Idle => Some (e_run valid e') | _ => Some (e', []) end
      end
  | Run n =>
      match ph (e_proc e) with
      | Idle => Some (e_run valid {| e_proc := e_proc e; promise := Some n; timers := timers e; asked := asked e; running := running e |})
      | _ => Some (e, [Refuse n])
      end
  | Reply t =>
      if asked e then
        match ph (e_proc e) with
        | AwaitId => Some ({| e_proc := got_id t (taste_of taste t); promise := promise e; timers := timers e; asked := false; running := starts taste t |}, [])
        | _ => Some ({| e_proc := e_proc e; promise := promise e; timers := timers e; asked := false; running := starts taste t |}, [])
        end
      else None
  | Finish =>
      if running e then
        match ph (e_proc e) with
        | Await =>
            let p := got_done (e_proc e) in
            if more p =? 0 then Some (to_idle p (promise e) (timers e) (asked e) false)
            else Some ({| e_proc := ask p; promise := promise e; timers := timers e; asked := asked e; running := true |}, [More (more p)])
        | _ => Some ({| e_proc := e_proc e; promise := promise e; timers := timers e; asked := asked e; running := false |}, [])
        end
      else None
  end.
Fixpoint e_steps (taste : nat) (valid : bool) (e : eraser) (is : list input) : option (eraser * list out) :=
  match is with
  | [] => Some (e, [])
  | i :: r =>
      match e_step taste valid e i with
      | None => None
      | Some (e', o) => option_map (fun x => (fst x, o ++ snd x)) (e_steps taste valid e' r)
      end
  end.

(** ** The counter *)

(** The counter (counter.hpp:22-49), what its client was sent, and the work of the index and the
    stores: each partition sends some numbers and then [done] to its supervisor
    (local_segment_store.cpp:50-61); [open] are the partitions at work and [rest] those that are not
    scheduled. [sum] and [ended] are the variables of the client (count_command.cpp:79-87). *)
Record counter := { k_proc : proc; quit : bool; sum : N; ended : bool; k_asked : bool; opened : list (list N); k_running : bool; rest : list (list N) }.
(** The client asks for the run, the index sends the query ID, a partition sends its next number, a
    partition fails, and the supervisor has finished its partitions. *)
Inductive event := Ask | Id | Send (j : nat) | Fail (j : nat) | Finished.
Definition k_start (candidates : list (list N)) : counter :=
  {| k_proc := {| ph := Idle; received := 0; scheduled := 0; total := 0 |}; quit := false; sum := 0; ended := false;
     k_asked := false; opened := []; k_running := false; rest := candidates |}.
Fixpoint set_at (j : nat) (x : list N) (l : list (list N)) : list (list N) :=
  match l, j with
  | [], _ => []
  | _ :: r, O => x :: r
  | y :: r, S j' => y :: set_at j' x r
  end.
(** One message. Numbers are added as [uint64_t] (count_command.cpp:86). A failing partition counts as
    done (query_supervisor.cpp:73-84). *)
Definition k_step (taste : nat) (k : counter) (i : event) : option counter :=
  let p := k_proc k in
  match i with
  | Ask =>
      match ph p with
      | Idle => if quit k then None else Some {| k_proc := {| ph := AwaitId; received := received p; scheduled := scheduled p; total := total p |};
          quit := false; sum := sum k; ended := ended k; k_asked := true; opened := opened k; k_running := k_running k; rest := rest k |}
      | _ => None
      end
  | Id =>
      if k_asked k then
        let t := length (rest k) in
        let s := taste_of taste t in
        Some {| k_proc := match ph p with AwaitId => got_id t s | _ => p end; quit := quit k; sum := sum k; ended := ended k;
                k_asked := false; opened := firstn s (rest k); k_running := starts taste t; rest := skipn s (rest k) |}
      else None
  | Send j =>
      match nth_error (opened k) j with
      | Some (n :: ns) =>
          Some {| k_proc := p; quit := quit k; sum := match ph p with Await => if quit k then sum k else N.modulo (sum k + n) (2 ^ 64) | _ => sum k end; ended := ended k;
                  k_asked := k_asked k; opened := set_at j ns (opened k); k_running := k_running k; rest := rest k |}
      | _ => None
      end
  | Fail j =>
      match nth_error (opened k) j with
      | Some (_ :: _) => Some {| k_proc := p; quit := quit k; sum := sum k; ended := ended k; k_asked := k_asked k; opened := set_at j [] (opened k); k_running := k_running k; rest := rest k |}
      | _ => None
      end
  | Finished =>
      if k_running k && forallb (fun l => match l with [] => true | _ => false end) (opened k) then
        match ph p with
        | Await =>
            if quit k then None
            else
              let p' := got_done p in
              if more p' =? 0
              then Some {| k_proc := p'; quit := true; sum := sum k; ended := true; k_asked := k_asked k; opened := []; k_running := false; rest := rest k |}
              else Some {| k_proc := ask p'; quit := false; sum := sum k; ended := ended k; k_asked := k_asked k;
                           opened := firstn (more p') (rest k); k_running := true; rest := skipn (more p') (rest k) |}
        | _ => Some {| k_proc := p; quit := quit k; sum := sum k; ended := ended k; k_asked := k_asked k; opened := []; k_running := false; rest := rest k |}
        end
      else None
  end.
Fixpoint k_steps (taste : nat) (k : counter) (is : list event) : option counter :=
  match is with
  | [] => Some k
  | i :: r => match k_step taste k i with None => None | Some k' => k_steps taste k' r end
  end.
