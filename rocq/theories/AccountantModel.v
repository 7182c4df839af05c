(** Model of the collection of metrics, libvast/src/system/accountant.cpp.

    A metric has the actor that sent it, a key and a value; times of recording are left out, reports are
    lists of metrics (accountant.cpp:327-360), and values are finite or not. Streams and datagrams are
    both kept as what was sent to them. *)
From Coq Require Import List NArith Bool Arith.
From Verif Require Import AddressModel.
Import ListNotations.
Open Scope nat_scope.
Local Notation length := List.length.

(** The configuration (vast/accountant/config.hpp:20-43), without [real_time] and [slice_type]; [c_datagram] is the type of the socket. *)
Record config := { c_self : bool; c_size : nat; c_file : option (list N); c_uds : option (list N); c_datagram : bool }.
(** A row or line: the name of the actor, the key, and the value, [None] if it is not finite. *)
Record metric := { m_name : list N; m_key : list N; m_value : option N }.
(** [std::isfinite] (accountant.cpp:110). *)
Definition finite (m : metric) : bool := match m_value m with Some _ => true | None => false end.
(** The state (accountant.cpp:59-92): names of actors, rows in the builder, slices waiting, slices sent,
    open outputs, what was sent to each, and the configuration. *)
Record state := { names : list (N * list N); builder : list metric; buffer : list (list metric); sent : list (list metric);
                  file_sink : option (list N); uds_sink : option (list N); datagram_sink : option (list N); outputs : list (list N * metric); cfg : config }.
(** The name of an actor; [actor_map] makes an empty one if there is none (accountant.cpp:126, 141). *)
Fixpoint name_of (a : N) (l : list (N * list N)) : list N :=
  match l with
  | [] => []
  | (b, n) :: r => if N.eqb a b then n else name_of a r
  end.
(** The handler for DOWN (accountant.cpp:262-271). *)
Definition forget (a : N) (l : list (N * list N)) : list (N * list N) := filter (fun p => negb (N.eqb a (fst p))) l.
(** [finish_slice] (accountant.cpp:95-104). *)
Definition finish_slice (s : state) : state :=
  match builder s with
  | [] => s
  | l => {| names := names s; builder := []; buffer := buffer s ++ [l]; sent := sent s; file_sink := file_sink s; uds_sink := uds_sink s;
            datagram_sink := datagram_sink s; outputs := outputs s; cfg := cfg s |}
  end.
(** [record_internally] (accountant.cpp:106-129). *)
Definition record_internally (m : metric) (s : state) : state :=
  if finite m then
    let s1 := {| names := names s; builder := builder s ++ [m]; buffer := buffer s; sent := sent s; file_sink := file_sink s; uds_sink := uds_sink s;
                 datagram_sink := datagram_sink s; outputs := outputs s; cfg := cfg s |} in
    if length (builder s1) =? c_size (cfg s1) then finish_slice s1 else s1
  else s.
(** A line to an output that is open (accountant.cpp:131-164); [outputs] has all lines, with the path each went to. *)
Definition emit (sink : option (list N)) (m : metric) (out : list (list N * metric)) : list (list N * metric) := match sink with Some p => out ++ [(p, m)] | None => out end.
(** [record] (accountant.cpp:166-176). *)
Definition record (m : metric) (s : state) : state :=
  let s1 := if c_self (cfg s) then record_internally m s else s in
  {| names := names s1; builder := builder s1; buffer := buffer s1; sent := sent s1; file_sink := file_sink s1; uds_sink := uds_sink s1; datagram_sink := datagram_sink s1;
     outputs := emit (datagram_sink s1) m (emit (uds_sink s1) m (emit (file_sink s1) m (outputs s1))); cfg := cfg s1 |}.
(** [enable] (config.hpp:29, 35): a path is there if it is set. *)
Definition on (p : option (list N)) : bool := match p with Some _ => true | None => false end.
(** [apply_config] (accountant.cpp:199-250); [opens] tells which outputs can be opened. *)
Definition apply_config (c : config) (opens : list N -> bool) (s : state) : state :=
  let try p := match p with Some x => if opens x then Some x else None | None => None end in
  let file := if negb (on (c_file c)) && on (c_file (cfg s)) then None
              else if on (c_file c) && negb (on (c_file (cfg s))) then match try (c_file c) with Some x => Some x | None => file_sink s end else file_sink s in
  let start := on (c_uds c) && negb (on (c_uds (cfg s))) in
  let uds0 := if negb (on (c_uds c)) && on (c_uds (cfg s)) then None else uds_sink s in
  let uds := if start && negb (c_datagram c) then match try (c_uds c) with Some x => Some x | None => uds0 end else uds0 in
  let dgram := if start && c_datagram c then match try (c_uds c) with Some x => Some x | None => datagram_sink s end else datagram_sink s in
  {| names := names s; builder := builder s; buffer := buffer s; sent := sent s; file_sink := file; uds_sink := uds; datagram_sink := dgram; outputs := outputs s; cfg := c |}.
(** The messages (accountant.cpp:253-382): an actor says its name or ends; metrics; the stream takes up to
    [n] slices (accountant.cpp:276-284); a new configuration; the accountant is asked to end. *)
(** Values are numbers standing for reals (durations and times are converted, accountant.cpp:178-187). *)
Inductive input := Announce (a : N) (n : list N) | Down (a : N) | Metric (a : N) (key : list N) (v : option N) | Pull (n : nat) | Config (c : config) (opens : list N -> bool) | Exit.
Definition step (i : input) (s : state) : state :=
  match i with
  | Announce a n => {| names := (a, n) :: forget a (names s); builder := builder s; buffer := buffer s; sent := sent s; file_sink := file_sink s; uds_sink := uds_sink s;
                       datagram_sink := datagram_sink s; outputs := outputs s; cfg := cfg s |}
  | Down a => {| names := forget a (names s); builder := builder s; buffer := buffer s; sent := sent s; file_sink := file_sink s; uds_sink := uds_sink s;
                 datagram_sink := datagram_sink s; outputs := outputs s; cfg := cfg s |}
  | Metric a k v => record {| m_name := name_of a (names s); m_key := k; m_value := v |} s
  | Pull n => {| names := names s; builder := builder s; buffer := skipn n (buffer s); sent := sent s ++ firstn n (buffer s); file_sink := file_sink s; uds_sink := uds_sink s;
                 datagram_sink := datagram_sink s; outputs := outputs s; cfg := cfg s |}
  | Config c opens => apply_config c opens s
  | Exit => finish_slice s
  end.
(** A history of messages. *)
Definition run (is : list input) (s : state) : state := fold_left (fun s i => step i s) is s.
(** The default configuration (config.hpp:20-43), and construction (accountant.cpp:54-57). *)
Definition defaults : config := {| c_self := true; c_size := 128; c_file := None; c_uds := None; c_datagram := false |}.
Definition start (c : config) (opens : list N -> bool) : state :=
  apply_config c opens {| names := []; builder := []; buffer := []; sent := []; file_sink := None; uds_sink := None; datagram_sink := None; outputs := []; cfg := defaults |}.
