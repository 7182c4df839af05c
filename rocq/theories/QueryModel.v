(** Model of how queries are driven: the index (libvast/src/system/index.cpp), its pool of
    query supervisors (src/system/query_supervisor.cpp), and its clients, which are query
    processors (src/system/query_processor.cpp) or exporters (src/system/exporter.cpp).

    Actors exchange messages. The mailbox of the index is a bag, as a message it skips
    is looked at again later; the mailbox of a client is a queue. Which step comes next
    is arbitrary. Candidate sets and the availability of partitions are the choice of the
    environment in each step. An exporter in this model was asked for all events when it
    was spawned (src/system/spawn_exporter.cpp:76-84); the others are in ExporterModel.v.
    A supervisor handles its work at once, as it has nothing else to do. Left out:
    queries before startup is complete, anonymous senders, failures of the meta index,
    and blocking of [done] by subclasses of the query processor. *)
From Coq Require Import List Bool Arith.
Import ListNotations.
Open Scope nat_scope.

(** * Scheduling *)

(** The loop in [collect_query_actors] (index.cpp:534-542): the partitions scheduled, the
    partitions that could not be loaded, and the rest. *)
Fixpoint collect_loop (spin_up : nat -> bool) (n : nat) (ps : list nat) : list nat * list nat * list nat :=
  match n, ps with
  | 0, _ => ([], [], ps)
  | _, [] => ([], [], [])
  | S n', p :: ps' =>
    if spin_up p
    then let '(result, skipped, rest) := collect_loop spin_up n' ps' in (p :: result, skipped, rest)
    else let '(result, skipped, rest) := collect_loop spin_up n ps' in (result, p :: skipped, rest)
  end.
(** [collect_query_actors] (index.cpp:497-546). [arrange] is [std::partition] with the
    loaded partitions first, in an order the standard leaves open. *)
Definition collect_query_actors (arrange : list nat -> list nat) (spin_up : nat -> bool) (n : nat) (ps : list nat)
  : list nat * list nat * list nat :=
  if (n =? 0) || (match ps with [] => true | _ => false end) then ([], [], ps)
  else collect_loop spin_up n (arrange ps).

(** * The system *)

(** Messages to a client, and to the index: a query, the reply of the meta index to it, a
    request for more results, and a supervisor that is idle. *)
Inductive cmsg := CReply (qid total scheduled : nat) | CDone.
Inductive imsg := IQuery (c : nat) | ILookup (c : nat) | IMore (c qid n : nat) | IWorker (w : nat).
(** The states of a query processor (query_processor.hpp:63-67). *)
Inductive phase := Idle | AwaitId | Await.
(** A client (query_processor.hpp:140-170, query_status.hpp:21-31) and its mailbox. *)
Record client := { c_phase : phase; c_qid : nat; c_total : nat; c_sched : nat; c_recv : nat; c_box : list cmsg }.
(** What a supervisor works on: the requests that are open (query_supervisor.cpp:56-60). *)
Record job := { j_client : nat; j_qid : nat; j_open : list nat }.
(** The clients, the mailbox of the index, [pending], [idle_workers] with its back first,
    and the busy supervisors. The other fields are history, which the code does not have:
    the next query ID, and per query ID its client, its candidates, and the partitions that
    were asked, skipped as not available, and that answered. *)
Record sys := {
  s_clients : nat -> client; s_box : list imsg; s_pending : nat -> option (list nat);
  s_idle : list nat; s_busy : list (nat * job);
  s_next : nat; g_owner : nat -> nat; g_cands : nat -> list nat; g_asked : nat -> list nat; g_skipped : nat -> list nat;
  g_answered : nat -> list nat }.

Definition upd {A : Type} (f : nat -> A) (k : nat) (v : A) : nat -> A := fun i => if i =? k then v else f i.
Definition imsg_eqb (a b : imsg) : bool :=
  match a, b with
  | IQuery c, IQuery c' | ILookup c, ILookup c' | IWorker c, IWorker c' => c =? c'
  | IMore c q n, IMore c' q' n' => (c =? c') && (q =? q') && (n =? n')
  | _, _ => false
  end.
(** Take one message out of the mailbox. *)
Fixpoint take_msg (m : imsg) (box : list imsg) : option (list imsg) :=
  match box with
  | [] => None
  | x :: box' => if imsg_eqb m x then Some box' else option_map (cons x) (take_msg m box')
  end.
Fixpoint take_part (p : nat) (ps : list nat) : option (list nat) :=
  match ps with
  | [] => None
  | x :: ps' => if p =? x then Some ps' else option_map (cons x) (take_part p ps')
  end.
Fixpoint take_job (w : nat) (js : list (nat * job)) : option (job * list (nat * job)) :=
  match js with
  | [] => None
  | (v, j) :: js' => if w =? v then Some (j, js')
                     else match take_job w js' with None => None | Some (k, r) => Some (k, (v, j) :: r) end
  end.

(** Send a message to a client. *)
Definition to_client (st : sys) (c : nat) (ms : list cmsg) : sys :=
  let k := s_clients st c in
  {| s_clients := upd (s_clients st) c {| c_phase := c_phase k; c_qid := c_qid k; c_total := c_total k; c_sched := c_sched k;
                                          c_recv := c_recv k; c_box := c_box k ++ ms |};
     s_box := s_box st; s_pending := s_pending st; s_idle := s_idle st; s_busy := s_busy st; s_next := s_next st;
     g_owner := g_owner st; g_cands := g_cands st; g_asked := g_asked st; g_skipped := g_skipped st; g_answered := g_answered st |}.
Definition set_client (st : sys) (c : nat) (k : client) : sys :=
  {| s_clients := upd (s_clients st) c k;
     s_box := s_box st; s_pending := s_pending st; s_idle := s_idle st; s_busy := s_busy st; s_next := s_next st;
     g_owner := g_owner st; g_cands := g_cands st; g_asked := g_asked st; g_skipped := g_skipped st; g_answered := g_answered st |}.
Definition set_box (st : sys) (box : list imsg) : sys :=
  {| s_clients := s_clients st; s_box := box; s_pending := s_pending st; s_idle := s_idle st; s_busy := s_busy st; s_next := s_next st;
     g_owner := g_owner st; g_cands := g_cands st; g_asked := g_asked st; g_skipped := g_skipped st; g_answered := g_answered st |}.
Definition set_idle (st : sys) (idle : list nat) : sys :=
  {| s_clients := s_clients st; s_box := s_box st; s_pending := s_pending st; s_idle := idle; s_busy := s_busy st; s_next := s_next st;
     g_owner := g_owner st; g_cands := g_cands st; g_asked := g_asked st; g_skipped := g_skipped st; g_answered := g_answered st |}.
Definition set_busy (st : sys) (busy : list (nat * job)) : sys :=
  {| s_clients := s_clients st; s_box := s_box st; s_pending := s_pending st; s_idle := s_idle st; s_busy := busy; s_next := s_next st;
     g_owner := g_owner st; g_cands := g_cands st; g_asked := g_asked st; g_skipped := g_skipped st; g_answered := g_answered st |}.
Definition set_pending (st : sys) (q : nat) (v : option (list nat)) : sys :=
  {| s_clients := s_clients st; s_box := s_box st; s_pending := upd (s_pending st) q v; s_idle := s_idle st; s_busy := s_busy st;
     s_next := s_next st;
     g_owner := g_owner st; g_cands := g_cands st; g_asked := g_asked st; g_skipped := g_skipped st; g_answered := g_answered st |}.
(** History: a new query, and partitions asked and skipped, and an answer. *)
Definition note_query (st : sys) (c : nat) (cands : list nat) : sys :=
  {| s_clients := s_clients st; s_box := s_box st; s_pending := s_pending st; s_idle := s_idle st; s_busy := s_busy st;
     s_next := S (s_next st); g_owner := upd (g_owner st) (s_next st) c; g_cands := upd (g_cands st) (s_next st) cands;
     g_asked := upd (g_asked st) (s_next st) []; g_skipped := upd (g_skipped st) (s_next st) [];
     g_answered := upd (g_answered st) (s_next st) [] |}.
Definition note_asked (st : sys) (q : nat) (asked skipped : list nat) : sys :=
  {| s_clients := s_clients st; s_box := s_box st; s_pending := s_pending st; s_idle := s_idle st; s_busy := s_busy st; s_next := s_next st;
     g_owner := g_owner st; g_cands := g_cands st; g_asked := upd (g_asked st) q (g_asked st q ++ asked);
     g_skipped := upd (g_skipped st) q (g_skipped st q ++ skipped); g_answered := g_answered st |}.
Definition note_answer (st : sys) (q p : nat) : sys :=
  {| s_clients := s_clients st; s_box := s_box st; s_pending := s_pending st; s_idle := s_idle st; s_busy := s_busy st; s_next := s_next st;
     g_owner := g_owner st; g_cands := g_cands st; g_asked := g_asked st; g_skipped := g_skipped st;
     g_answered := upd (g_answered st) q (g_answered st q ++ [p]) |}.

(** The work a supervisor gets (query_supervisor.cpp:45-60): without partitions it reports
    to the client and the index at once. [None]: the assertion that it has no open
    requests. *)
Definition supervise (st : sys) (w c q : nat) (parts : list nat) : option sys :=
  if existsb (fun x => fst x =? w) (s_busy st) then None
  else match parts with
       | [] => let st' := to_client st c [CDone] in Some (set_box st' (s_box st' ++ [IWorker w]))
       | _ => Some (set_busy st ((w, {| j_client := c; j_qid := q; j_open := parts |}) :: s_busy st))
       end.
(** The answer of a partition, be it [done] or an error (query_supervisor.cpp:61-88). *)
Definition answered (st : sys) (w p : nat) : sys :=
  match take_job w (s_busy st) with
  | None => st
  | Some (j, busy) =>
    match take_part p (j_open j) with
    | None => st
    | Some [] =>
        let st' := to_client (note_answer (set_busy st busy) (j_qid j) p) (j_client j) [CDone] in
        set_box st' (s_box st' ++ [IWorker w])
    | Some open =>
        note_answer (set_busy st ((w, {| j_client := j_client j; j_qid := j_qid j; j_open := open |}) :: busy)) (j_qid j) p
    end
  end.

(** What the environment decides when the index handles a message: the candidates of a
    query, the order of the candidates, and which partitions are available. *)
Record env := { e_found : list nat; e_arrange : list nat -> list nat; e_avail : nat -> bool }.

(** The index handles a message that was taken out of its mailbox (index.cpp:768-857,
    911-915). [Some None]: it skips the message. [None]: a failed assertion. The query ID
    is new, and not 0, which is nil. *)
Definition handle_index (taste : nat) (st : sys) (m : imsg) (e : env) : option (option sys) :=
  match m with
  | IQuery c => match s_idle st with
                | [] => Some None
                | _ => Some (Some (set_box st (s_box st ++ [ILookup c])))
                end
  | ILookup c =>
      match e_found e with
      | [] => Some (Some (to_client st c [CReply 0 0 0; CDone]))
      | cands =>
        let q := s_next st in
        let scheduled := Nat.min (length cands) taste in
        let st1 := set_pending (note_query st c cands) q (Some cands) in
        let st2 := to_client st1 c [CReply q (length cands) scheduled] in
        Some (Some (set_box st2 (s_box st2 ++ [IMore c q scheduled])))
      end
  | IMore c q n =>
      if n =? 0 then Some (Some (set_pending st q None))
      else match s_pending st q with
           | None => Some (Some (to_client st c [CDone]))
           | Some parts =>
             match s_idle st with
             | [] => Some None
             | w :: idle =>
               let '(actors, skipped, rest) := collect_query_actors (e_arrange e) (e_avail e) n parts in
               let st1 := note_asked (set_pending (set_idle st idle) q (match rest with [] => None | _ => Some rest end)) q actors skipped in
               option_map Some (supervise st1 w c q actors)
             end
           end
  | IWorker w => Some (Some (set_idle st (w :: s_idle st)))
  end.

(** A client sends the next request or finishes. [None]: a failed assertion. *)
Definition more_or_stop (exporter : bool) (st : sys) (c : nat) (k : client) : option sys :=
  if exporter then
    (* exporter.cpp:345-366 and request_more_hits (exporter.cpp:105-139) *)
    if c_recv k <? c_total k then
      let n := Nat.min (c_total k - c_recv k) 2 in
      let st' := set_client st c {| c_phase := Await; c_qid := c_qid k; c_total := c_total k; c_sched := n; c_recv := c_recv k; c_box := c_box k |} in
      Some (set_box st' (s_box st' ++ [IMore c (c_qid k) n]))
    else
      let st' := set_client st c {| c_phase := Idle; c_qid := c_qid k; c_total := c_total k; c_sched := c_sched k; c_recv := c_recv k; c_box := [] |} in
      Some (set_box st' (s_box st' ++ [IMore c (c_qid k) 0]))
  else
    (* process_done and request_more_results (query_processor.cpp:61-90); the difference is unsigned *)
    if c_total k <? c_recv k then None
    else
      let n := Nat.min (c_total k - c_recv k) (c_sched k) in
      if n =? 0 then
        Some (set_client st c {| c_phase := Idle; c_qid := c_qid k; c_total := c_total k; c_sched := c_sched k; c_recv := c_recv k; c_box := c_box k |})
      else
        let st' := set_client st c {| c_phase := Await; c_qid := c_qid k; c_total := c_total k; c_sched := n; c_recv := c_recv k; c_box := c_box k |} in
        Some (set_box st' (s_box st' ++ [IMore c (c_qid k) n])).
(** A client handles the first message of its mailbox (query_processor.cpp:26-50,
    exporter.cpp:279-294, 345-366). A query processor leaves messages alone that its state
    does not expect. *)
Definition client_step (exporter : bool) (st : sys) (c : nat) : option sys :=
  let k := s_clients st c in
  match c_box k, c_phase k with
  | CReply q total sched :: box, AwaitId =>
      if exporter then
        if 0 <? total then
          Some (set_client st c {| c_phase := Await; c_qid := q; c_total := total; c_sched := sched; c_recv := c_recv k; c_box := box |})
        else
          let st' := set_client st c {| c_phase := Idle; c_qid := q; c_total := total; c_sched := sched; c_recv := c_recv k; c_box := [] |} in
          Some (set_box st' (s_box st' ++ [IMore c q 0]))
      else if sched <=? total then
        Some (set_client st c {| c_phase := Await; c_qid := q; c_total := total; c_sched := sched; c_recv := 0; c_box := box |})
      else None
  | CDone :: box, Await =>
      more_or_stop exporter st c {| c_phase := Await; c_qid := c_qid k; c_total := c_total k; c_sched := c_sched k;
                                    c_recv := c_recv k + c_sched k; c_box := box |}
  | _, _ => Some st
  end.
(** A client that is idle sends a query (query_processor.cpp:54-58, exporter.cpp:260-278);
    an exporter starts from fresh counters. *)
Definition client_start (st : sys) (c : nat) : sys :=
  let k := s_clients st c in
  match c_phase k with
  | Idle =>
      let st' := set_client st c {| c_phase := AwaitId; c_qid := 0; c_total := 0; c_sched := 0; c_recv := 0; c_box := c_box k |} in
      set_box st' (s_box st' ++ [IQuery c])
  | _ => st
  end.

(** A step: a client starts a query; the index handles a message of its mailbox; a
    partition answers a supervisor; a client handles a message. Steps that are not
    possible change nothing. *)
Inductive op := Start (c : nat) | Index (m : imsg) (e : env) | Answer (w p : nat) | Client (c : nat).
Definition step (taste : nat) (exporter : nat -> bool) (st : sys) (o : op) : option sys :=
  match o with
  | Start c => Some (client_start st c)
  | Index m e =>
      match take_msg m (s_box st) with
      | None => Some st
      | Some box => match handle_index taste (set_box st box) m e with
                    | None => None
                    | Some None => Some st
                    | Some (Some st') => Some st'
                    end
      end
  | Answer w p => Some (answered st w p)
  | Client c => client_step (exporter c) st c
  end.
Fixpoint run (taste : nat) (exporter : nat -> bool) (st : sys) (os : list op) : option sys :=
  match os with
  | [] => Some st
  | o :: os' => match step taste exporter st o with None => None | Some st' => run taste exporter st' os' end
  end.
(** At the start all supervisors have announced themselves (index.cpp:747-749,
    query_supervisor.cpp:43-44). *)
Definition start (workers : nat) : sys :=
  {| s_clients := fun _ => {| c_phase := Idle; c_qid := 0; c_total := 0; c_sched := 0; c_recv := 0; c_box := [] |};
     s_box := map IWorker (seq 0 workers); s_pending := fun _ => None; s_idle := []; s_busy := []; s_next := 1;
     g_owner := fun _ => 0; g_cands := fun _ => []; g_asked := fun _ => []; g_skipped := fun _ => []; g_answered := fun _ => [] |}.
