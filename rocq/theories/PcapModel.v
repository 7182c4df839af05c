(** Model of the PCAP reader and writer (plugins/pcap/main.cpp) and of community identifiers
    (libvast/vast/community_id.hpp, libvast/vast/flow.hpp, libvast/src/icmp.cpp).

    Simplified: opening files and interfaces, statistics, the delay for pseudo-realtime and the
    creation of builders are left out.  Clocks and the random generator are inputs.  The map of
    flows is a list with one entry for each flow; [port::operator==] (port.cpp:45-49) takes a port
    of unknown type for any other of its number, but the table compares hashes of all bytes first
    (flow.cpp:42-45), so two flows are the same if all parts are. *)
From Coq Require Import List NArith ZArith Bool Arith.
From Verif Require Import AddressModel Base64Model.
Import ListNotations.
Local Open Scope N_scope.
Local Notation length := List.length.

(** [flow] (flow.hpp:22-27).  Both ports have the same type in every flow made by [make_flow]
    (flow.hpp:37-41) and by the reader. *)
Record flow := { f_src : address; f_dst : address; f_sport : N; f_dport : N; f_proto : N }.
(** [operator==] (flow.cpp:32-35). *)
Definition flow_eqb (a b : flow) : bool :=
  bytes_eqb (f_src a) (f_src b) && bytes_eqb (f_dst a) (f_dst b) && (f_sport a =? f_sport b) && (f_dport a =? f_dport b) && (f_proto a =? f_proto b).
(** [port_type] (port.hpp:20-27). *)
Definition p_icmp : N := 1.
Definition p_tcp : N := 6.
Definition p_udp : N := 17.
Definition p_icmp6 : N := 58.
Definition p_unknown : N := 255.

(** ** Community identifiers *)

(** [dual(icmp_type)] (icmp.cpp:15-40, icmp.hpp:20-31). *)
Definition dual4 (t : N) : option N :=
  match t with
  | 8 => Some 0 | 0 => Some 8 | 13 => Some 14 | 14 => Some 13 | 15 => Some 16 | 16 => Some 15
  | 10 => Some 9 | 9 => Some 10 | 17 => Some 18 | 18 => Some 17 | _ => None
  end.
(** [dual(icmp6_type)] (icmp.cpp:42-71, icmp.hpp:35-48). *)
Definition dual6 (t : N) : option N :=
  match t with
  | 128 => Some 129 | 129 => Some 128 | 130 => Some 131 | 131 => Some 130 | 133 => Some 134 | 134 => Some 133
  | 135 => Some 136 | 136 => Some 135 | 139 => Some 140 | 140 => Some 139 | 144 => Some 145 | 145 => Some 144 | _ => None
  end.
(** The bytes in memory of a 16-bit number in network order. *)
Definition be16 (n : N) : list N := [n / 256; n mod 256].
(** [operator<] of addresses (address.cpp:151-153). *)
Fixpoint bytes_ltb (xs ys : list N) : bool :=
  match xs, ys with
  | _, [] => false
  | [], _ => true
  | x :: xs', y :: ys' => if x <? y then true else if y <? x then false else bytes_ltb xs' ys'
  end.
(** [hash_append] of addresses (address.hpp:139-146). *)
Definition addr_bytes (a : address) : list N := if is_v4 a then skipn 12 a else a.
(** The ports that are hashed and whether the flow has one direction only
    (community_id.hpp:55-72); [narrow_cast] to 8 bits does not check. *)
Definition norm_ports (f : flow) : N * N * bool :=
  let two d := match d with Some p => (f_sport f, p, false) | None => (f_sport f, f_dport f, true) end in
  if f_proto f =? p_icmp then two (dual4 (f_sport f mod 256))
  else if f_proto f =? p_icmp6 then two (dual6 (f_sport f mod 256))
  else (f_sport f, f_dport f, false).
(** [community_id_hash_append] (community_id.hpp:54-94). *)
Definition hash_input (f : flow) : list N :=
  let '(sp, dp, one_way) := norm_ports f in
  let ordered := one_way || bytes_ltb (f_src f) (f_dst f) || (bytes_eqb (f_src f) (f_dst f) && (sp <? dp)) in
  if ordered then addr_bytes (f_src f) ++ addr_bytes (f_dst f) ++ [f_proto f; 0] ++ be16 sp ++ be16 dp
  else addr_bytes (f_dst f) ++ addr_bytes (f_src f) ++ [f_proto f; 0] ++ be16 dp ++ be16 sp.
(** [compute<policy::base64>] (community_id.hpp:125-151) for a given SHA-1. *)
Definition community_id (sha1 : list N -> list N) (f : flow) (seed : N) : list N :=
  [49; 58] ++ encode (sha1 (be16 seed ++ hash_input f)).

(** ** Packets *)

(** What [pcap_next_ex] hands out: the captured bytes, the length of the packet on the wire
    ([header->len], at least the number of captured bytes), the time in seconds and nanoseconds,
    and what the random generator will draw while the packet is handled. *)
Record packet := { k_data : list N; k_len : nat; k_sec : N; k_sub : N; k_draw : nat -> nat }.

(** Unsigned 64-bit subtraction. *)
Definition sub64 (a b : N) : N := (a + (2 ^ 64 - b)) mod 2 ^ 64.
(** Bytes [i], [i + 1], … of the captured data; [None] is a read beyond them. *)
Definition byte (k : packet) (i : nat) : option N := nth_error (k_data k) i.
Definition bytes_at (k : packet) (i n : nat) : option (list N) :=
  if (i + n <=? length (k_data k))%nat then Some (firstn n (skipn i (k_data k))) else None.
(** [to_host_order] of two bytes (byte_swap.hpp), as in [as_ether_type] (ether_type.cpp:19-22). *)
Definition word_at (k : packet) (i : nat) : option N :=
  match bytes_at k i 2 with Some [a; b] => Some (256 * a + b) | _ => None end.
(** [address{ptr, address::ipv4, address::network}] (address.cpp:42-47). *)
Definition v4_at (k : packet) (i : nat) : option address := option_map (app v4_prefix) (bytes_at k i 4).

(** How parsing ends: with an error that ends the import, with a packet to skip, or with a flow,
    the size of the payload and the place of layer 3. *)
Inductive parsed := PError | PSkip | PFlow (f : flow) (size : N) (layer3 : nat).

(** Layer 4 at [i], of [n] bytes (main.cpp:393-427); a failed assertion is [None]. *)
Definition layer4 (k : packet) (src dst : address) (proto : N) (i n : nat) (layer3 : nat) : option parsed :=
  let flow_of sp dp t := {| f_src := src; f_dst := dst; f_sport := sp; f_dport := dp; f_proto := t |} in
  let size := N.of_nat n in
  if proto =? p_tcp then
    if (n =? 0)%nat then None
    else match word_at k i, word_at k (i + 2), byte k (i + 12) with
         | Some sp, Some dp, Some o => Some (PFlow (flow_of sp dp p_tcp) (sub64 size (N.shiftr o 4 * 4)) layer3)
         | _, _, _ => None
         end
  else if proto =? p_udp then
    if (n =? 0)%nat then None
    else match word_at k i, word_at k (i + 2) with
         | Some sp, Some dp => Some (PFlow (flow_of sp dp p_udp) (sub64 size 8) layer3)
         | _, _ => None
         end
  else if proto =? p_icmp then
    if (n =? 0)%nat then None
    else match byte k i, byte k (i + 1) with
         | Some t, Some c => Some (PFlow (flow_of t c p_icmp) (sub64 size 8) layer3)
         | _, _ => None
         end
  else Some (PFlow (flow_of 0 0 p_unknown) size layer3).

(** [decapsulate] (main.cpp:136-155): where the frame starts behind VLAN tags. *)
Definition frame_start (k : packet) : option (option nat) :=
  if (k_len k <? 14)%nat then Some None
  else match word_at k 12 with
       | None => None
       | Some t => Some (Some (if t =? 0x8100 then 4%nat else if t =? 0x9100 then 8%nat else 0%nat))
       end.

(** From the frame to the flow (main.cpp:342-427).  [None]: undefined behaviour, which is a read
    beyond the captured bytes, a [subspan] beyond the end of a span, or a failed assertion. *)
Definition parse (k : packet) : option parsed :=
  match frame_start k with
  | None => None
  | Some None => Some PError
  | Some (Some s) =>
    if (k_len k <? s + 14)%nat then None
    else let l3 := (s + 14)%nat in let n3 := (k_len k - l3)%nat in
      match word_at k (s + 12) with
      | None => None
      | Some t =>
        if t =? 0x0800 then
          if (k_len k <? 34)%nat then Some PError
          else match byte k l3 with
               | None => None
               | Some b0 =>
                 let h := N.to_nat (N.land b0 15 * 4) in
                 if (h <? 20)%nat then Some PError
                 else match v4_at k (l3 + 12), v4_at k (l3 + 16), byte k (l3 + 9) with
                      | Some src, Some dst, Some proto => if (n3 <? h)%nat then None else layer4 k src dst proto (l3 + h) (n3 - h) l3
                      | _, _, _ => None
                      end
               end
        else if t =? 0x86DD then
          if (k_len k <? 54)%nat then Some PError
          else match v4_at k (l3 + 8), v4_at k (l3 + 24), byte k (l3 + 6) with
               | Some src, Some dst, Some proto => if (n3 <? 40)%nat then None else layer4 k src dst proto (l3 + 40) (n3 - 40) l3
               | _, _, _ => None
               end
        else Some PSkip
      end
  end.

(** ** Flows *)

(** The options of the reader (main.cpp:164-187). *)
Record config := { c_cutoff : N; c_max : nat; c_age : N; c_expire : N; c_community : bool }.
(** [flows_], where each flow has its bytes and the time of its last packet, and [last_expire_]
    (main.cpp:483-487, 548-556).  The identifier stored with a flow depends on the flow only. *)
Notation table := (list (flow * (N * N))).
Record state := { t_flows : table; t_expire : N }.
Definition fresh : state := {| t_flows := []; t_expire := 0 |}.

Fixpoint look (f : flow) (t : table) : option (N * N) :=
  match t with [] => None | (g, v) :: r => if flow_eqb g f then Some v else look f r end.
Fixpoint put (f : flow) (v : N * N) (t : table) : table :=
  match t with [] => [(f, v)] | (g, w) :: r => if flow_eqb g f then (g, v) :: r else (g, w) :: put f v r end.

(** [state(x)] (main.cpp:491-498) adds the flow if it is not there. *)
Definition ensure (f : flow) (t : table) : table := match look f t with Some _ => t | None => put f (0, 0) t end.
(** [update_flow] (main.cpp:502-512); [None] is the failed assertion. *)
Definition update_flow (c : config) (f : flow) (now size : N) (t : table) : option (table * bool) :=
  let b := match look f t with Some (b, _) => b | None => 0 end in
  if b =? c_cutoff c then Some (put f (b, now) t, false)
  else if c_cutoff c <? b then None
  else Some (put f (b + N.min size (c_cutoff c - b), now) t, true).
(** [evict_inactive] (main.cpp:515-525). *)
Definition evict_inactive (c : config) (now : N) (st : state) : state :=
  if sub64 now (t_expire st) <=? c_expire c then st
  else {| t_flows := filter (fun p => negb (c_age c <? sub64 now (snd (snd p)))) (t_flows st); t_expire := now |}.
(** [shrink_to_max_size] (main.cpp:528-546): flows drawn at random are removed while there are
    [max_flows_] or more.  With an empty table the search for a bucket never ends: [None]. *)
Definition remove_nth {A} (i : nat) (l : list A) : list A := firstn i l ++ skipn (S i) l.
Fixpoint shrink (fuel : nat) (max : nat) (draw : nat -> nat) (t : table) : option table :=
  if (length t <? max)%nat then Some t
  else match t, fuel with
       | [], _ | _, O => None
       | _, S n => shrink n max (fun i => draw (S i)) (remove_nth (draw O mod length t)%nat t)
       end.
Definition shrink_to_max_size (max : nat) (draw : nat -> nat) (t : table) : option table := shrink (S (length t)) max draw t.

(** ** The reader *)

(** A row (main.cpp:439-459; [pcap_packet_type], main.cpp:74-93). *)
Record event := { e_time : Z; e_src : address; e_dst : address; e_sport : N; e_dport : N; e_cid : option (list N); e_payload : list N }.
Inductive got := Failed | Skipped | Recorded (e : event).

Section Reader.
  (** SHA-1 (sha1.hpp), which is not modelled. *)
  Variable sha1 : list N -> list N.

  (** One round of the loop for a packet (main.cpp:342-461). *)
  Definition handle (c : config) (st : state) (k : packet) : option (state * got) :=
    match parse k with
    | None => None
    | Some PError => Some (st, Failed)
    | Some PSkip => Some (st, Skipped)
    | Some (PFlow f size l3) =>
      let now := k_sec k in
      let expire := if t_expire st =? 0 then now else t_expire st in
      match update_flow c f now size (t_flows st) with
      | None => None
      | Some (t1, false) => Some ({| t_flows := t1; t_expire := expire |}, Skipped)
      | Some (t1, true) =>
        let st2 := evict_inactive c now {| t_flows := t1; t_expire := expire |} in
        match shrink_to_max_size (c_max c) (k_draw k) (t_flows st2), bytes_at k l3 (k_len k - l3) with
        | Some t3, Some payload =>
          Some ({| t_flows := ensure f t3; t_expire := t_expire st2 |},
                Recorded {| e_time := Z.of_N (k_sec k) * 10 ^ 9 + Z.of_N (k_sub k); e_src := f_src f; e_dst := f_dst f;
                            e_sport := f_sport f; e_dport := f_dport f;
                            e_cid := if c_community c then Some (community_id sha1 f 0) else None; e_payload := payload |})
        | _, _ => None
        end
      end
    end.

  (** What the loop meets (main.cpp:319-341): the batch timeout has passed, no packet in time, a
      packet, the end of the trace, or an error of libpcap. *)
  Inductive input := ILate | INone | IPacket (k : packet) | IEnd | IBroken.
  (** How [read_impl] returns; [RWait] is that it waits for more input. *)
  Inductive result := ROk | RTimeout | REnd | RError | RWait.
  Record reader := { r_state : state; r_rows : list event; r_batch : nat; r_discard : nat }.

  (** [finish] (single_layout_reader.cpp:30-41). *)
  Definition finish (r : reader) : reader * list (list event) :=
    ({| r_state := r_state r; r_rows := []; r_batch := 0; r_discard := r_discard r |}, match r_rows r with [] => [] | rows => [rows] end).
  Definition set_state (r : reader) (st : state) (more : nat) : reader :=
    {| r_state := st; r_rows := r_rows r; r_batch := r_batch r; r_discard := (r_discard r + more)%nat |}.
  Definition add_row (r : reader) (st : state) (e : event) : reader :=
    {| r_state := st; r_rows := r_rows r ++ [e]; r_batch := S (r_batch r); r_discard := r_discard r |}.

  (** [read_impl] (main.cpp:251-480) with [produced] events so far. *)
  Fixpoint read_loop (c : config) (max_events max_slice : nat) (produced : nat) (r : reader) (ins : list input)
    : option (list (list event) * result * reader * list input) :=
    if (max_events <=? produced)%nat then let (r', s) := finish r in Some (s, ROk, r', ins)
    else match ins with
         | [] => Some ([], RWait, r, [])
         | i :: rest =>
           match i with
           | ILate => if (0 <? r_batch r)%nat then let (r', s) := finish r in Some (s, RTimeout, r', rest) else read_loop c max_events max_slice produced r rest
           | INone => if (produced =? 0)%nat then read_loop c max_events max_slice produced r rest else let (r', s) := finish r in Some (s, ROk, r', rest)
           | IEnd => let (r', s) := finish r in Some (s, REnd, r', rest)
           | IBroken => let (r', s) := finish r in Some (s, RError, r', rest)
           | IPacket k =>
             match handle c (r_state r) k with
             | None => None
             | Some (st, Failed) => Some ([], RError, set_state r st 0, rest)
             | Some (st, Skipped) => read_loop c max_events max_slice produced (set_state r st 1) rest
             | Some (st, Recorded e) =>
               let r1 := add_row r st e in
               let (r2, s) := if (length (r_rows r1) =? max_slice)%nat then finish r1 else (r1, []) in
               match read_loop c max_events max_slice (S produced) r2 rest with
               | Some (s', res, r', rest') => Some (s ++ s', res, r', rest')
               | None => None
               end
             end
           end
         end.
  Definition read (c : config) (max_events max_slice : nat) (r : reader) (ins : list input) := read_loop c max_events max_slice 0 r ins.
  Definition new_reader : reader := {| r_state := fresh; r_rows := []; r_batch := 0; r_discard := 0 |}.

  (** The source asks again and again and stops at an error other than the timeout
      (source.cpp:213-284); [calls] are the numbers of events and rows it asks for. *)
  Fixpoint session (c : config) (calls : list (nat * nat)) (r : reader) (ins : list input) : option (list (list event) * result * reader * list input) :=
    match calls with
    | [] => Some ([], ROk, r, ins)
    | (n, m) :: calls' =>
      match read c n m r ins with
      | Some (s, (ROk | RTimeout), r', rest) =>
        match session c calls' r' rest with Some (s', res, r'', rest') => Some (s ++ s', res, r'', rest') | None => None end
      | x => x
      end
    end.
End Reader.

(** ** The writer *)

(** A record of the trace: [pcap_pkthdr] and the bytes. *)
Record dumped := { d_sec : Z; d_sub : Z; d_caplen : N; d_len : N; d_bytes : list N }.
(** The writer: its records, how many of them a flush has covered, and [total_packets_]
    (main.cpp:654-663). *)
Record writer := { w_out : list dumped; w_flushed : nat; w_total : nat }.
Definition new_writer : writer := {| w_out := []; w_flushed := 0; w_total := 0 |}.

(** The columns of a row (main.cpp:74-93). *)
Inductive cell := CTime (ns : Z) | CAddr (a : address) | CPort (n : N) | CText (s : list N).
Definition columns (e : event) : list cell :=
  [CTime (e_time e); CAddr (e_src e); CAddr (e_dst e); CPort (e_sport e); CPort (e_dport e)] ++
  match e_cid e with Some s => [CText s] | None => [] end ++ [CText (e_payload e)].
(** A row of the loop (main.cpp:606-627): column 6 is the payload, column 0 the time.  [None]: a
    column that does not exist. *)
Definition dump (e : event) : option dumped :=
  match nth_error (columns e) 6, nth_error (columns e) 0 with
  | Some (CText p), Some (CTime ns) =>
    let n := N.of_nat (length p) mod 2 ^ 32 in
    Some {| d_sec := Z.quot ns (10 ^ 9); d_sub := Z.rem ns (10 ^ 9); d_caplen := n; d_len := n; d_bytes := p |}
  | _, _ => None
  end.
Fixpoint dump_all (es : list event) : option (list dumped) :=
  match es with
  | [] => Some []
  | e :: es' => match dump e, dump_all es' with Some d, Some ds => Some (d :: ds) | _, _ => None end
  end.
(** [write] (main.cpp:587-632) for a slice of packets; an interval of zero divides by zero. *)
Definition write (interval : nat) (w : writer) (slice : list event) : option writer :=
  match dump_all slice with
  | None => None
  | Some ds =>
    let out := w_out w ++ ds in let total := S (w_total w) in
    if (interval =? 0)%nat then None
    else Some {| w_out := out; w_flushed := if (total mod interval =? 0)%nat then length out else w_flushed w; w_total := total |}
  end.
Fixpoint write_all (interval : nat) (w : writer) (slices : list (list event)) : option writer :=
  match slices with
  | [] => Some w
  | s :: r => match write interval w s with Some w' => write_all interval w' r | None => None end
  end.
(** A record as a packet of the trace that was written. *)
Definition as_packet (draw : nat -> nat) (d : dumped) : packet :=
  {| k_data := d_bytes d; k_len := N.to_nat (d_len d); k_sec := Z.to_N (d_sec d); k_sub := Z.to_N (d_sub d); k_draw := draw |}.
