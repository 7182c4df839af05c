(** * The disk monitor

    Models the actor of [/repo/libvast/src/system/disk_monitor.cpp] together with
    the part of the database directory it looks at. The monitor scans the
    directory periodically and asks the index to erase the oldest partitions
    when it has grown too large.

    Simplifications: messages to the monitor may be handled in any order, also
    in orders its mailbox would not produce; sizes do not wrap around; the
    external scan program of the configuration is only modelled as a scan that
    may fail; [purging] starts as false, which holds because CAF value-initialises
    the state. *)

From Coq Require Import Arith NArith List Bool.
From Coq Require Export Sorting.Sorted Sorting.Permutation.
Import ListNotations.

(** [partition_diskstate], disk_monitor.cpp:32-36: what a scan finds out about a
    partition file. *)
Record part := Part {
  p_id : nat;
  p_size : N;
  p_mtime : N
}.

(** [disk_monitor_config], disk_monitor.hpp:22-37. *)
Record config := Config {
  high : N;
  low : N;
  step_size : nat
}.

(** [validate], disk_monitor.cpp:45-51. *)
Definition valid (c : config) : bool :=
  (1 <=? step_size c) && (low c <=? high c)%N.

(** A request to the index to erase a partition, disk_monitor.cpp:196-216: the
    run of the erase handler that sent it, whose guard its continuation shares,
    the partition, and the answer once there is one. *)
Record request := Request {
  r_guard : nat;
  r_id : nat;
  r_answer : option bool
}.

(** [disk_monitor_state], disk_monitor.hpp:43-61, with the directory, the erase
    messages waiting in the mailbox and the requests under way. [other] is the
    size of all files in the directory that are not partitions. *)
Record state := State {
  dir : list part;
  other : N;
  purging : bool;
  erases : nat;
  flight : list request;
  guards : nat
}.

(** [compute_dbdir_size], disk_monitor.cpp:71-75, when it does not fail: the sizes
    of all files below the directory ([recursive_size]). *)
Definition db_size (s : state) : N :=
  (other s + fold_right (fun p n => p_size p + n) 0 (dir s))%N.

(** The ping handler, disk_monitor.cpp:109-143. [scanned] tells whether the size
    could be computed. Rearming the timer is not modelled: a ping may arrive at
    any time. *)
Definition on_ping (c : config) (scanned : bool) (s : state) : state :=
  if purging s then s
  else if negb scanned then s
  else if (high c <? db_size s)%N
  then State (dir s) (other s) true (S (erases s)) (flight s) (guards s)
  else s.

(** The erase handler, disk_monitor.cpp:144-219. [listing] is the sorted list of
    the partition files found, or [None] if the directory could not be read. The
    guard that resets [purging] goes out of scope with the handler unless a
    request was made. *)
Definition on_erase (c : config) (listing : option (list part)) (s : state)
  : state :=
  match listing with
  | None | Some [] =>
    State (dir s) (other s) false (pred (erases s)) (flight s) (guards s)
  | Some ps =>
    State (dir s) (other s) (purging s) (pred (erases s))
      (flight s ++
       map (fun p => Request (guards s) (p_id p) None)
         (firstn (Nat.min (length ps) (step_size c)) ps))
      (S (guards s))
  end.

(** The partitions the erase handler asks the index to erase,
    disk_monitor.cpp:192-198. *)
Definition asked (c : config) (listing : option (list part)) : list part :=
  match listing with
  | None => []
  | Some ps => firstn (Nat.min (length ps) (step_size c)) ps
  end.

(** The index answers a request. It says "done" after it has removed the files of
    the partition (index.cpp, the erase handler, modelled in IndexModel); when it
    reports an error they may be there or not. *)
Definition on_index (i : nat) (ok removed : bool) (s : state) : state :=
  match nth_error (flight s) i with
  | Some (Request g id None) =>
    State
      (if ok || removed then filter (fun p => negb (p_id p =? id)) (dir s)
       else dir s)
      (other s) (purging s) (erases s)
      (firstn i (flight s) ++ Request g id (Some ok) :: skipn (S i) (flight s))
      (guards s)
  | _ => s
  end.

(** The continuations of a request, disk_monitor.cpp:200-216, followed by the
    destruction of the continuation's share of the guard: the last one resets
    [purging] (disk_monitor.cpp:147-148). *)
Definition on_response (c : config) (i : nat) (scanned : bool) (s : state)
  : state :=
  match nth_error (flight s) i with
  | Some (Request g _ (Some ok)) =>
    let rest := firstn i (flight s) ++ skipn (S i) (flight s) in
    State (dir s) (other s)
      (if existsb (fun r => r_guard r =? g) rest then purging s else false)
      (if ok && scanned && (low c <? db_size s)%N then S (erases s)
       else erases s)
      rest (guards s)
  | _ => s
  end.

(** What happens, as seen from outside: a ping, a run of the erase handler with
    the partitions it asked for, the index removing a partition and answering,
    the monitor receiving an answer, and changes to the directory made by
    others. *)
Inductive event :=
| Ping (scanned : bool)
| Erase (ask : list part)
| Answer (id : nat) (ok removed : bool)
| Response (scanned : bool) (ok : bool)
| Change (dir' : list part) (other' : N).

(** One step. The erase handler sorts what it finds by modification time with
    [std::sort] (disk_monitor.cpp:187-190), which leaves the order of partitions
    of the same age open. *)
Inductive step (c : config) : state -> event -> state -> Prop :=
| step_ping : forall s b,
    step c s (Ping b) (on_ping c b s)
| step_erase : forall s ps,
    (0 < erases s)%nat ->
    Permutation ps (dir s) ->
    StronglySorted (fun p q => (p_mtime p <= p_mtime q)%N) ps ->
    step c s (Erase (asked c (Some ps))) (on_erase c (Some ps) s)
| step_erase_unreadable : forall s,
    (0 < erases s)%nat ->
    step c s (Erase []) (on_erase c None s)
| step_index : forall s i g id ok removed,
    nth_error (flight s) i = Some (Request g id None) ->
    step c s (Answer id ok removed) (on_index i ok removed s)
| step_response : forall s i g id ok b,
    nth_error (flight s) i = Some (Request g id (Some ok)) ->
    step c s (Response b ok) (on_response c i b s)
| step_change : forall s dir' other',
    step c s (Change dir' other')
      (State dir' other' (purging s) (erases s) (flight s) (guards s)).

(** A history: the states passed and what happened between them. *)
Inductive history (c : config) : state -> list (state * event) -> state -> Prop :=
| history_nil : forall s, history c s [] s
| history_cons : forall s e s' l s'',
    step c s e s' -> history c s' l s'' -> history c s ((s, e) :: l) s''.

(** The state in which the monitor starts, disk_monitor.cpp:104-107. *)
Definition initial (ps : list part) (n : N) : state := State ps n false 0 [] 0.
