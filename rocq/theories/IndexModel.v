(** Model of the life of partitions: how the index (libvast/src/system/index.cpp) hands
    table slices to partitions, persists, registers, queries, erases and reloads them.

    Actors exchange messages. Between the index and the meta index messages stay in order,
    and so do the writes of the index to its own state file. Which step comes next is
    arbitrary. A table slice is its number and its number of rows; partitions are numbered
    in the order of their creation, as their UUIDs are unique. A query is a parameter
    with a function [look], the answer of the synopsis of a partition with some content
    (MetaLookupModel.v).
    Left out: failing writes and snapshots, which end or stall the index, partition-local
    stores, the way from a partition to its indexers, the statistics, and the two files of
    a partition synopsis, which is regenerated if its file is missing (index.cpp:229-233). *)
From Coq Require Import List Bool Arith.
Import ListNotations.
Open Scope nat_scope.

Notation slice := (nat * nat)%type (only parsing).
Definition rows (s : slice) : nat := snd s.

(** How far a partition is. The code has no such field; it is spread over the tables of the
    index and messages on their way. [Feeding]: it is the active partition. [Asked]: it was
    asked to persist. [Written]: its file is written and it has told the index. [Merging]:
    the index has told the meta index. [Settled]: the meta index has confirmed. [Erasing]
    and [Unlinking]: the index was asked to erase it, and has unregistered it. [Gone]: its
    file is removed. [Lost]: it was not found at a restart. *)
Inductive progress := Fresh | Feeding | Asked | Written | Merging | Settled | Erasing | Unlinking | Gone | Lost.
(** A partition: whether the stream stage of the index feeds it, the slices on the way to
    it, and the slices it has. *)
Record part := { p_open : bool; p_queue : list slice; p_got : list slice; p_progress : progress }.
(** Messages to the meta index, and back. Lookups are numbered. *)
Inductive mmsg := MMerge (id : nat) (content : list slice) | MLookup (k : nat) | MErase (id : nat).
Inductive bmsg := BMerged (id : nat) | BFound (k : nat) (ids : list nat) | BErased (id : nat).

(** The state (index.hpp): the active partition and its capacity, [unpersisted],
    [persisted_partitions], the keys of [inmem_partitions], the output buffer of the
    stream stage, the partitions; the synopses of the meta index, the messages to and from
    it, the persist replies, the partition actors asked to erase themselves; the files, the
    state file, and the writes of it on their way. Then the lookups: per number the query
    and its first candidates (index.cpp:807-811), and its candidates. The last two are
    history: all slices that came in, and what each partition was to get when a lookup
    started. *)
Record idx (Q : Type) := {
  x_active : option (nat * nat); x_unpersisted : list nat; x_persisted : list nat; x_cached : list nat;
  x_central : list slice; x_next : nat; x_parts : nat -> part;
  x_known : list (nat * list slice); x_mbox : list mmsg; x_bbox : list bmsg; x_replies : list nat; x_unlink : list nat;
  x_file : nat -> option (list slice); x_state_file : list nat; x_writes : list (list nat);
  x_lookups : list (Q * list nat); x_found : nat -> option (list nat); x_down : bool;
  g_in : list slice; g_then : nat -> nat -> list slice }.
Arguments Build_idx {Q}. Arguments x_active {Q}. Arguments x_unpersisted {Q}. Arguments x_persisted {Q}. Arguments x_cached {Q}. Arguments x_central {Q}.
Arguments x_next {Q}. Arguments x_parts {Q}. Arguments x_known {Q}. Arguments x_mbox {Q}. Arguments x_bbox {Q}. Arguments x_replies {Q}.
Arguments x_unlink {Q}. Arguments x_file {Q}. Arguments x_state_file {Q}. Arguments x_writes {Q}. Arguments x_lookups {Q}. Arguments x_found {Q}.
Arguments x_down {Q}. Arguments g_in {Q}. Arguments g_then {Q}.

Definition put {A : Type} (f : nat -> A) (k : nat) (v : A) : nat -> A := fun i => if i =? k then v else f i.
Definition drop (id : nat) (l : list nat) : list nat := filter (fun i => negb (i =? id)) l.
Definition has (id : nat) (l : list nat) : bool := existsb (Nat.eqb id) l.
Definition insert (id : nat) (l : list nat) : list nat := if has id l then l else l ++ [id].

Section Index.
Context {Q : Type} (look : Q -> list slice -> bool) (partition_capacity : nat).
Notation idx := (idx Q).

(** * Importing *)

(** [create_active_partition] (index.cpp:335-380). *)
Definition create_active_partition (st : idx) : idx :=
  let id := x_next st in
  Build_idx (Some (id, partition_capacity)) (x_unpersisted st) (x_persisted st) (x_cached st) (x_central st) (S id)
    (put (x_parts st) id {| p_open := true; p_queue := []; p_got := []; p_progress := Feeding |})
    (x_known st) (x_mbox st) (x_bbox st) (x_replies st) (x_unlink st) (x_file st) (x_state_file st) (x_writes st)
    (x_lookups st) (x_found st) (x_down st) (g_in st) (g_then st).
(** [fan_out_flush] of the stream stage: what is in the output buffer goes to all paths
    that are open. *)
Definition feed (p : part) (xs : list slice) : part :=
  {| p_open := p_open p; p_queue := p_queue p ++ xs; p_got := p_got p; p_progress := p_progress p |}.
Definition fan_out (st : idx) : idx :=
  match x_active st with
  | None => st
  | Some _ =>
    Build_idx (x_active st) (x_unpersisted st) (x_persisted st) (x_cached st) [] (x_next st)
      (fun i => if p_open (x_parts st i) then feed (x_parts st i) (x_central st) else x_parts st i)
      (x_known st) (x_mbox st) (x_bbox st) (x_replies st) (x_unlink st) (x_file st) (x_state_file st) (x_writes st)
      (x_lookups st) (x_found st) (x_down st) (g_in st) (g_then st)
  end.
(** [decomission_active_partition] (index.cpp:382-396) up to the request to persist. *)
Definition decommission (st : idx) : idx :=
  match x_active st with
  | None => st
  | Some (id, _) =>
    let st1 := fan_out st in
    let p := x_parts st1 id in
    Build_idx None (insert id (x_unpersisted st1)) (x_persisted st1) (x_cached st1) (x_central st1) (x_next st1)
      (put (x_parts st1) id {| p_open := false; p_queue := p_queue p; p_got := p_got p; p_progress := Asked |})
      (x_known st1) (x_mbox st1) (x_bbox st1) (x_replies st1) (x_unlink st1) (x_file st1) (x_state_file st1) (x_writes st1)
      (x_lookups st1) (x_found st1) (x_down st1) (g_in st1) (g_then st1)
  end.
(** [flush_to_disk] (index.cpp:553-616): the IDs of persisted and unpersisted partitions. *)
Definition flush_to_disk (st : idx) : idx :=
  Build_idx (x_active st) (x_unpersisted st) (x_persisted st) (x_cached st) (x_central st) (x_next st) (x_parts st)
    (x_known st) (x_mbox st) (x_bbox st) (x_replies st) (x_unlink st) (x_file st) (x_state_file st)
    (x_writes st ++ [x_persisted st ++ x_unpersisted st]) (x_lookups st) (x_found st) (x_down st) (g_in st) (g_then st).
(** A slice arrives (index.cpp:679-704). [None]: a failed assertion. *)
Definition push (st : idx) (s : slice) (cap : nat) (id : nat) : idx :=
  Build_idx (Some (id, cap)) (x_unpersisted st) (x_persisted st) (x_cached st) (x_central st ++ [s]) (x_next st) (x_parts st)
    (x_known st) (x_mbox st) (x_bbox st) (x_replies st) (x_unlink st) (x_file st) (x_state_file st) (x_writes st)
    (x_lookups st) (x_found st) (x_down st) (g_in st ++ [s]) (g_then st).
Definition import (st : idx) (s : slice) : option idx :=
  let st1 := match x_active st with
             | None => create_active_partition st
             | Some (_, cap) => if cap <? rows s then create_active_partition (flush_to_disk (decommission st)) else st
             end in
  match x_active st1 with
  | None => None
  | Some (id, cap) =>
    if (cap =? partition_capacity) && (cap <? rows s) then Some (push st1 s 0 id)
    else if rows s <=? cap then Some (push st1 s (cap - rows s) id) else None
  end.

(** * Partitions *)

Definition set_part (st : idx) (id : nat) (p : part) : idx :=
  Build_idx (x_active st) (x_unpersisted st) (x_persisted st) (x_cached st) (x_central st) (x_next st) (put (x_parts st) id p)
    (x_known st) (x_mbox st) (x_bbox st) (x_replies st) (x_unlink st) (x_file st) (x_state_file st) (x_writes st)
    (x_lookups st) (x_found st) (x_down st) (g_in st) (g_then st).
Definition set_progress (st : idx) (id : nat) (g : progress) : idx :=
  let p := x_parts st id in set_part st id {| p_open := p_open p; p_queue := p_queue p; p_got := p_got p; p_progress := g |}.
(** A partition takes a slice from its stream (partition.cpp:427-461). *)
Definition deliver (st : idx) (id : nat) : idx :=
  let p := x_parts st id in
  match p_queue p with
  | [] => st
  | s :: q => set_part st id {| p_open := p_open p; p_queue := q; p_got := p_got p ++ [s]; p_progress := p_progress p |}
  end.
(** A partition that was asked to persist does so once its stream has ended
    (partition.cpp:538-671), and replies. *)
Definition persist (st : idx) (id : nat) : idx :=
  let p := x_parts st id in
  match p_progress p, p_open p, p_queue p with
  | Asked, false, [] =>
    let st1 := set_progress st id Written in
    Build_idx (x_active st1) (x_unpersisted st1) (x_persisted st1) (x_cached st1) (x_central st1) (x_next st1) (x_parts st1)
      (x_known st1) (x_mbox st1) (x_bbox st1) (x_replies st1 ++ [id]) (x_unlink st1) (put (x_file st1) id (Some (p_got p)))
      (x_state_file st1) (x_writes st1) (x_lookups st1) (x_found st1) (x_down st1) (g_in st1) (g_then st1)
  | _, _, _ => st
  end.
Fixpoint take (id : nat) (l : list nat) : option (list nat) :=
  match l with
  | [] => None
  | x :: l' => if id =? x then Some l' else option_map (cons x) (take id l')
  end.
(** The index gets the reply with the synopsis (index.cpp:396-408). Replies of several
    partitions come in any order. *)
Definition registered (st : idx) (id : nat) : idx :=
  match take id (x_replies st) with
  | None => st
  | Some r =>
    let st1 := set_progress st id Merging in
    Build_idx (x_active st1) (x_unpersisted st1) (x_persisted st1) (x_cached st1) (x_central st1) (x_next st1) (x_parts st1)
      (x_known st1) (x_mbox st1 ++ [MMerge id (p_got (x_parts st id))]) (x_bbox st1) r (x_unlink st1) (x_file st1) (x_state_file st1)
      (x_writes st1) (x_lookups st1) (x_found st1) (x_down st1) (g_in st1) (g_then st1)
  end.

(** * The meta index *)

(** The meta index handles the next message (meta_index.cpp:39-45, 361-376). *)
Definition meta (st : idx) : idx :=
  match x_mbox st with
  | [] => st
  | m :: box =>
    let (known, reply) := match m with
      | MMerge id c => (if existsb (fun e => fst e =? id) (x_known st) then x_known st else (id, c) :: x_known st, BMerged id)
      | MErase id => (filter (fun e => negb (fst e =? id)) (x_known st), BErased id)
      | MLookup k => (x_known st, BFound k (match nth_error (x_lookups st) k with
                                            | Some (q, _) => map fst (filter (fun e => look q (snd e)) (x_known st))
                                            | None => [] end))
      end in
    Build_idx (x_active st) (x_unpersisted st) (x_persisted st) (x_cached st) (x_central st) (x_next st) (x_parts st)
      known box (x_bbox st ++ [reply]) (x_replies st) (x_unlink st) (x_file st) (x_state_file st) (x_writes st)
      (x_lookups st) (x_found st) (x_down st) (g_in st) (g_then st)
  end.
(** What a partition has and is to get. *)
Definition assigned (st : idx) (id : nat) : list slice :=
  p_got (x_parts st id) ++ p_queue (x_parts st id) ++ (if p_open (x_parts st id) then x_central st else []).
(** A query arrives (index.cpp:807-814). *)
Definition start_query (st : idx) (q : Q) : idx :=
  let first := match x_active st with Some (id, _) => [id] | None => [] end ++ x_unpersisted st in
  let k := length (x_lookups st) in
  Build_idx (x_active st) (x_unpersisted st) (x_persisted st) (x_cached st) (x_central st) (x_next st) (x_parts st)
    (x_known st) (x_mbox st ++ [MLookup k]) (x_bbox st) (x_replies st) (x_unlink st) (x_file st) (x_state_file st) (x_writes st)
    (x_lookups st ++ [(q, first)]) (x_found st) (x_down st) (g_in st) (put (g_then st) k (assigned st)).
(** Removing duplicates (index.cpp:820-824); the order of IDs is not modelled. *)
Definition unique (l : list nat) : list nat := nodup Nat.eq_dec l.
(** The index handles the next reply of the meta index (index.cpp:409-414, 816-851,
    923-926). [None]: the assertion in [partition_factory] (index.cpp:166-170), which
    [eject] (lru_cache.hpp:125-135) calls for a partition that is not cached. *)
Definition from_meta (st : idx) : option idx :=
  match x_bbox st with
  | [] => Some st
  | BMerged id :: box =>
    let st1 := set_progress st id Settled in
    Some (Build_idx (x_active st1) (drop id (x_unpersisted st1)) (insert id (x_persisted st1)) (x_cached st1) (x_central st1) (x_next st1)
      (x_parts st1) (x_known st1) (x_mbox st1) box (x_replies st1) (x_unlink st1) (x_file st1) (x_state_file st1) (x_writes st1)
      (x_lookups st1) (x_found st1) (x_down st1) (g_in st1) (g_then st1))
  | BFound k ids :: box =>
    Some (Build_idx (x_active st) (x_unpersisted st) (x_persisted st) (x_cached st) (x_central st) (x_next st) (x_parts st)
      (x_known st) (x_mbox st) box (x_replies st) (x_unlink st) (x_file st) (x_state_file st) (x_writes st) (x_lookups st)
      (match nth_error (x_lookups st) k with
       | Some (_, first) => put (x_found st) k (Some (unique (first ++ ids)))
       | None => x_found st end) (x_down st) (g_in st) (g_then st))
  | BErased id :: box =>
    if has id (x_cached st) || has id (x_persisted st) then
      let st1 := set_progress st id Unlinking in
      Some (Build_idx (x_active st1) (x_unpersisted st1) (drop id (x_persisted st1)) (drop id (x_cached st1)) (x_central st1) (x_next st1)
        (x_parts st1) (x_known st1) (x_mbox st1) box (x_replies st1) (x_unlink st1 ++ [id]) (x_file st1) (x_state_file st1) (x_writes st1)
        (x_lookups st1) (x_found st1) (x_down st1) (g_in st1) (g_then st1))
    else None
  end.
(** The partition that a scheduled candidate turns into, as the slices it holds
    (index.cpp:515-532). A persisted partition is read from its file when it is loaded
    (partition.cpp:772-836). [None]: it cannot be loaded. *)
Definition spin_up (st : idx) (id : nat) : option (list slice) :=
  if match x_active st with Some (a, _) => a =? id | None => false end || has id (x_unpersisted st) then Some (p_got (x_parts st id))
  else if has id (x_persisted st) then x_file st id else None.
(** A persisted partition enters or leaves the cache of loaded partitions. *)
Definition cache (st : idx) (ids : list nat) : idx :=
  Build_idx (x_active st) (x_unpersisted st) (x_persisted st) (filter (fun i => has i (x_persisted st)) ids) (x_central st) (x_next st) (x_parts st)
    (x_known st) (x_mbox st) (x_bbox st) (x_replies st) (x_unlink st) (x_file st) (x_state_file st) (x_writes st)
    (x_lookups st) (x_found st) (x_down st) (g_in st) (g_then st).

(** * Erasing *)

(** The index is asked to erase a partition (index.cpp:898-920). *)
Definition erase (st : idx) (id : nat) : idx :=
  if has id (x_persisted st) || match x_file st id with Some _ => true | None => false end then
    let st1 := match p_progress (x_parts st id) with Settled => set_progress st id Erasing | _ => st end in
    Build_idx (x_active st1) (x_unpersisted st1) (x_persisted st1) (x_cached st1) (x_central st1) (x_next st1) (x_parts st1)
      (x_known st1) (x_mbox st1 ++ [MErase id]) (x_bbox st1) (x_replies st1) (x_unlink st1) (x_file st1) (x_state_file st1) (x_writes st1)
      (x_lookups st1) (x_found st1) (x_down st1) (g_in st1) (g_then st1)
  else st.
(** The partition removes its file (partition.cpp:907-922). *)
Definition unlink (st : idx) (id : nat) : idx :=
  match take id (x_unlink st) with
  | None => st
  | Some r =>
    let st1 := set_progress st id Gone in
    Build_idx (x_active st1) (x_unpersisted st1) (x_persisted st1) (x_cached st1) (x_central st1) (x_next st1) (x_parts st1)
      (x_known st1) (x_mbox st1) (x_bbox st1) (x_replies st1) r (put (x_file st1) id None) (x_state_file st1) (x_writes st1)
      (x_lookups st1) (x_found st1) (x_down st1) (g_in st1) (g_then st1)
  end.

(** * Stopping and starting *)

(** The next write of the state file takes effect. *)
Definition write_state (st : idx) : idx :=
  match x_writes st with
  | [] => st
  | ids :: w =>
    Build_idx (x_active st) (x_unpersisted st) (x_persisted st) (x_cached st) (x_central st) (x_next st) (x_parts st)
      (x_known st) (x_mbox st) (x_bbox st) (x_replies st) (x_unlink st) (x_file st) ids w
      (x_lookups st) (x_found st) (x_down st) (g_in st) (g_then st)
  end.
(** The exit handler (index.cpp:723-752). Afterwards the index only waits for its
    partitions. *)
Definition exit (st : idx) : idx :=
  if x_down st then st
  else
  let st1 := flush_to_disk (decommission st) in
  Build_idx (x_active st1) (x_unpersisted st1) (x_persisted st1) [] (x_central st1) (x_next st1) (x_parts st1)
    (x_known st1) (x_mbox st1) (x_bbox st1) (x_replies st1) (x_unlink st1) (x_file st1) (x_state_file st1) (x_writes st1)
    (x_lookups st1) (x_found st1) true (g_in st1) (g_then st1).
(** [load_from_disk] (index.cpp:190-290), at any time: what was only in memory or on its
    way is lost. Partitions of the state file without a file are left out. Queries wait
    until the meta index has all synopses. *)
Definition on_disk (st : idx) (id : nat) : bool := match x_file st id with Some _ => true | None => false end.
Definition reload (st : idx) : idx :=
  let ids := unique (filter (on_disk st) (x_state_file st)) in
  let content id := match x_file st id with Some c => c | None => [] end in
  Build_idx None [] ids [] [] (x_next st)
    (fun i => if has i ids then {| p_open := false; p_queue := []; p_got := content i; p_progress := Settled |}
              else {| p_open := false; p_queue := []; p_got := [];
                      p_progress := match p_progress (x_parts st i) with Fresh => Fresh | Gone => Gone | _ => Lost end |})
    (map (fun i => (i, content i)) ids) [] [] [] [] (x_file st) (x_state_file st) [] [] (fun _ => None) false
    (flat_map content ids) (fun _ _ => []).

(** * Steps *)

Inductive iop := Import (s : slice) | FanOut | Deliver (id : nat) | Persist (id : nat) | Registered (id : nat) | Meta | FromMeta
  | Query (q : Q) | Cache (ids : list nat) | Erase (id : nat) | Unlink (id : nat) | WriteState | Exit | Reload.
(** After its exit handler the index ignores slices, queries and requests. *)
Definition istep (st : idx) (o : iop) : option idx :=
  match o with
  | Import s => if x_down st then Some st else import st s
  | FanOut => Some (fan_out st)
  | Deliver id => Some (deliver st id)
  | Persist id => Some (persist st id)
  | Registered id => if x_down st then Some st else Some (registered st id)
  | Meta => if x_down st then Some st else Some (meta st)
  | FromMeta => if x_down st then Some st else from_meta st
  | Query q => if x_down st then Some st else Some (start_query st q)
  | Cache ids => if x_down st then Some st else Some (cache st ids)
  | Erase id => if x_down st then Some st else Some (erase st id)
  | Unlink id => Some (unlink st id)
  | WriteState => Some (write_state st)
  | Exit => Some (exit st)
  | Reload => Some (reload st)
  end.
Definition blank : part := {| p_open := false; p_queue := []; p_got := []; p_progress := Fresh |}.
Definition init : idx :=
  Build_idx None [] [] [] [] 0 (fun _ => blank) [] [] [] [] [] (fun _ => None) [] [] [] (fun _ => None) false [] (fun _ _ => []).

Fixpoint irun (st : idx) (os : list iop) : option idx :=
  match os with
  | [] => Some st
  | o :: os' => match istep st o with None => None | Some st' => irun st' os' end
  end.
End Index.
