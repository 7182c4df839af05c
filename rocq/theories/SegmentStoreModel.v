(** Model of the segment store: libvast/src/segment_store.cpp, libvast/src/segment.cpp and
    libvast/src/segment_builder.cpp.

    Slices are those of TableSliceModel, [segments_] is the range map of RangeMapModel
    and [cache_] the cache of LruModel. ID sets are lists of bits. Random UUIDs are
    numbers that were never used before. A segment is its UUID and its slices; packing
    them with FlatBuffers is left out. The directory of segments is an association list
    from file names (UUIDs) to contents. [None] is a violated assertion or undefined
    behaviour. *)
From Coq Require Import List Bool Arith NArith.
From Verif Require Import DataModel TypeModel TableSliceModel RangeMapModel LruModel.
Import ListNotations.
Open Scope nat_scope.

(** * [select_with] on ID sets *)

(** The first ID at or after [p]: where a [select_range] stands after [next_from(p)]
    (bitmap_algorithms.hpp:426-437, 455-495), as C03 shows. *)
Definition next_one (ids : list bool) (p : nat) : option nat :=
  List.find (fun q => nth q ids false) (seq p (length ids - p)).

Section SelectWith.
  Context {A : Type} (f : A -> nat * nat).
  (** [std::lower_bound] (bitmap_algorithms.hpp:510-513): binary search for the first of
      the [len] elements from index [first] whose interval does not end at or before [y]. *)
  Fixpoint lower_index (fuel : nat) (l : list A) (y first len : nat) : nat :=
    match fuel with
    | O => first
    | S fuel' =>
      if len =? 0 then first
      else let half := len / 2 in
           match nth_error l (first + half) with
           | None => first
           | Some m => if snd (f m) <=? y then lower_index fuel' l y (first + half + 1) (len - half - 1)
                       else lower_index fuel' l y first half
           end
    end.
  Definition lower_bound (l : list A) (y : nat) : list A := skipn (lower_index (length l) l y 0 (length l)) l.
  (** [select_with] (bitmap_algorithms.hpp:508-536) with a function that never fails:
      the elements it is applied to. [pos] is the position of the range, [None] once it
      is done. *)
  Fixpoint select_walk (fuel : nat) (ids : list bool) (pos : option nat) (l : list A) : option (list A) :=
    match pos, l with
    | None, _ | _, [] => Some []
    | Some p, x :: _ =>
      match fuel with
      | O => None
      | S fuel' =>
        let '(first, last) := f x in
        match (if p <? first then next_one ids first else Some p) with
        | None => Some []
        | Some p1 =>
          if (first <=? p1) && (p1 <? last)
          then match next_one ids last with
               | None => Some [x]
               | Some p2 => option_map (cons x) (select_walk fuel' ids (Some p2) (lower_bound l p2))
               end
          else select_walk fuel' ids (Some p1) (lower_bound l p1)
        end
      end
    end.
  Definition select_with (ids : list bool) (l : list A) : option (list A) := select_walk (S (length l)) ids (next_one ids 0) l.
End SelectWith.

(** * Segments *)

Notation uuid := nat.
(** [segment] (segment.hpp:31-86) and [segment_builder] (segment_builder.hpp:22-98). *)
Record segment := Seg { sg_id : uuid; sg_slices : list slice }.
(** The IDs of a slice: [offset()] and [offset() + rows()] (segment_builder.cpp:39, 69). *)
Definition interval (s : slice) : nat * nat :=
  let o := match s_offset s with Some o => o | None => 0 end in (o, o + length (s_rows s)).
(** [lookup] of a segment and of a builder (segment.cpp:85-120, segment_builder.cpp:65-78). *)
Definition seg_lookup (g : segment) (xs : list bool) : option (list slice) := select_with interval xs (sg_slices g).
(** [ids] (segment.cpp:64-73, segment_builder.cpp:84-91). If a slice starts before the
    end of the previous one, the number of zeros to append wraps around. *)
Fixpoint seg_ids_go (result : list bool) (ss : list slice) : option (list bool) :=
  match ss with
  | [] => Some result
  | s :: ss' => let '(first, last) := interval s in
                if first <? length result then None
                else seg_ids_go (result ++ repeat false (first - length result) ++ repeat true (last - first)) ss'
  end.
Definition seg_ids (g : segment) : option (list bool) := seg_ids_go [] (sg_slices g).
(** [is_subset] (bitmap_algorithms.hpp:608-611); two empty ID sets are not reported as
    subsets (C03_is_subset_empty_refuted). *)
Definition is_subset (xs ys : list bool) : bool :=
  negb ((length xs =? 0) && (length ys =? 0)) && forallb (fun p => implb (nth p xs false) (nth p ys false)) (seq 0 (length xs)).

(** The loop that selects the remaining slices (segment_store.cpp:186-199): the mask is
    extended with ones as needed. *)
Fixpoint keep_slices (mask : list bool) (ss : list slice) : option (list slice) :=
  match ss with
  | [] => Some []
  | s :: ss' => let max_id := snd (interval s) in
                let mask' := mask ++ repeat true (max_id - length mask) in
                match select s mask', keep_slices mask' ss' with
                | Some new, Some rest => Some (new ++ rest)
                | _, _ => None
                end
  end.
(** The first half of [impl] in [segment_store::erase] (segment_store.cpp:155-206): the
    remaining slices, or the inner [None] if the entire segment is dropped. *)
Definition shrink (g : segment) (xs : list bool) : option (option (list slice)) :=
  match seg_ids g with
  | None => None
  | Some ids =>
    if is_subset ids xs then Some None
    else match seg_lookup g ids with
         | None => None
         | Some [] => Some None
         | Some slices => match keep_slices (map negb xs) slices with
                          | None => None
                          | Some [] => Some None
                          | Some new => Some (Some new)
                          end
         end
  end.

(** * The store *)

(** A file of the segment directory: a complete segment, or what a crash during
    [io::write] (io/write.cpp:20-26) leaves behind. *)
Inductive file := Whole (g : segment) | Torn.
(** The members of [segment_store] (segment_store.hpp:139-157), the directory, the files
    whose deletion is scheduled for when the last reference to their chunk goes away,
    and the next UUID. *)
Record store := {
  st_map : rmap uuid;
  st_builder : segment;
  st_cache : cache uuid segment;
  st_files : list (uuid * file);
  st_doomed : list uuid;
  st_events : nat;
  st_fresh : uuid }.

Section Store.
  (** [table_slice_bytes()] of a builder with these slices, and [max_segment_size_]. *)
  Variable size : list slice -> nat.
  Variable max_size : nat.
  (** Whether the file of a segment can be written. *)
  Variable writable : uuid -> bool.
  (** [std::partition] (segment_store.cpp:130-132, 292-294) with what the predicate
      returns, in which order it arranges the candidates. *)
  Variable arrange : (uuid -> bool) -> list uuid -> list uuid.

  Definition load (st : store) (u : uuid) : option file := option_map snd (List.find (fun p => fst p =? u) (st_files st)).

  (** [segment_builder::reset] (segment_builder.cpp:101-112). *)
  Definition with_map (st : store) (m : rmap uuid) : store :=
    {| st_map := m; st_builder := st_builder st; st_cache := st_cache st; st_files := st_files st;
       st_doomed := st_doomed st; st_events := st_events st; st_fresh := st_fresh st |}.
  Definition with_builder (st : store) (b : segment) : store :=
    {| st_map := st_map st; st_builder := b; st_cache := st_cache st; st_files := st_files st;
       st_doomed := st_doomed st; st_events := st_events st; st_fresh := st_fresh st |}.
  Definition with_cache (st : store) (c : cache uuid segment) : store :=
    {| st_map := st_map st; st_builder := st_builder st; st_cache := c; st_files := st_files st;
       st_doomed := st_doomed st; st_events := st_events st; st_fresh := st_fresh st |}.
  Definition with_files (st : store) (fs : list (uuid * file)) (doomed : list uuid) : store :=
    {| st_map := st_map st; st_builder := st_builder st; st_cache := st_cache st; st_files := fs;
       st_doomed := doomed; st_events := st_events st; st_fresh := st_fresh st |}.
  Definition with_events (st : store) (n : nat) : store :=
    {| st_map := st_map st; st_builder := st_builder st; st_cache := st_cache st; st_files := st_files st;
       st_doomed := st_doomed st; st_events := n; st_fresh := st_fresh st |}.
  Definition next_uuid (st : store) : store :=
    {| st_map := st_map st; st_builder := st_builder st; st_cache := st_cache st; st_files := st_files st;
       st_doomed := st_doomed st; st_events := st_events st; st_fresh := S (st_fresh st) |}.
  Definition reset_builder (st : store) : store := next_uuid (with_builder st (Seg (st_fresh st) [])).

  (** [flush] (segment_store.cpp:327-340): the builder is reset before the write; the
      flag tells whether the write succeeded. *)
  Definition flush (st : store) : option (store * bool) :=
    let g := st_builder st in
    match sg_slices g with
    | [] => Some (st, true)
    | _ =>
      let st1 := reset_builder st in
      if writable (sg_id g)
      then let st2 := with_files st1 (st_files st1 ++ [(sg_id g, Whole g)]) (st_doomed st1) in
           match cache_insert Nat.eqb (st_cache st2) (sg_id g) g with
           | None => None
           | Some (c, _, _) => Some (with_cache st2 c, true)
           end
      else Some (st1, false)
    end.

  Definition inject_slice (s : slice) (u : uuid) (m : rmap uuid) : rmap uuid * bool :=
    let '(first, last) := interval s in inject Nat.eqb (N.of_nat first) (N.of_nat last) u m.

  (** [put] (segment_store.cpp:104-115); [segment_builder::add] (segment_builder.cpp:33-43)
      never fails because [min_table_slice_offset_] stays 0. *)
  Definition put (st : store) (s : slice) : option (store * bool) :=
    match s_offset s, s_rows s with
    | None, _ | _, [] => None
    | Some _, _ =>
      let '(m, ok) := inject_slice s (sg_id (st_builder st)) (st_map st) in
      if negb ok then Some (st, false)
      else
        let b := Seg (sg_id (st_builder st)) (sg_slices (st_builder st) ++ [s]) in
        let st1 := with_events (with_builder (with_map st m) b) (st_events st + length (s_rows s)) in
        if size (sg_slices b) <? max_size then Some (st1, true) else flush st1
    end.

  (** [select_segments] (segment_store.cpp:426-440). *)
  Definition push_candidate (cs : list uuid) (u : uuid) : list uuid :=
    match rev cs with
    | c :: _ => if c =? u then cs else cs ++ [u]
    | [] => [u]
    end.
  Definition select_segments (st : store) (xs : list bool) : option (list uuid) :=
    option_map (fun es => fold_left push_candidate (map evalue es) [])
      (select_with (fun e : entry uuid => (N.to_nat (eleft e), N.to_nat (eright e))) xs (st_map st)).

  (** The predicate of [std::partition] calls [cache_.find], which counts as an access. *)
  Fixpoint probe (st : store) (cs : list uuid) : option (store * list bool) :=
    match cs with
    | [] => Some (st, [])
    | u :: cs' =>
      if u =? sg_id (st_builder st)
      then option_map (fun r => (fst r, true :: snd r)) (probe st cs')
      else match cache_find Nat.eqb (st_cache st) u with
           | None => None
           | Some (c, hit) => option_map (fun r => (fst r, match hit with Some _ => true | None => false end :: snd r))
                                (probe (with_cache st c) cs')
           end
    end.
  Definition assoc_bool (cs : list uuid) (bs : list bool) (u : uuid) : bool :=
    match List.find (fun p => fst p =? u) (combine cs bs) with Some p => snd p | None => false end.
  (** The candidates in the order in which they are processed (segment_store.cpp:122-132). *)
  Definition candidates_of (st : store) (xs : list bool) : option (store * list uuid) :=
    match select_segments st xs with
    | None => None
    | Some cs => match probe st cs with
                 | None => None
                 | Some (st', bs) => Some (st', arrange (assoc_bool cs bs) cs)
                 end
    end.

  (** What processing one candidate yields. *)
  Inductive looked := Slices (ss : list slice) | LoadError.
  (** [handle_segment] without the bookkeeping (segment_store.cpp:57-75), which is also
      the body of the loop of [get] (segment_store.cpp:297-320). *)
  Definition lookup_candidate (st : store) (xs : list bool) (u : uuid) : option (store * looked) :=
    if u =? sg_id (st_builder st)
    then option_map (fun ss => (st, Slices ss)) (seg_lookup (st_builder st) xs)
    else match cache_find Nat.eqb (st_cache st) u with
         | None => None
         | Some (c, Some g) => option_map (fun ss => (with_cache st c, Slices ss)) (seg_lookup g xs)
         | Some (c, None) =>
           match load st u with
           | None => Some (with_cache st c, LoadError)
           | Some Torn => None
           | Some (Whole g) => match cache_insert Nat.eqb c u g with
                               | None => None
                               | Some (c', _, _) => option_map (fun ss => (with_cache st c', Slices ss)) (seg_lookup g xs)
                               end
           end
         end.
  Fixpoint get_loop (st : store) (xs : list bool) (cs : list uuid) : option (store * option (list slice)) :=
    match cs with
    | [] => Some (st, Some [])
    | u :: cs' =>
      match lookup_candidate st xs u with
      | None => None
      | Some (st1, LoadError) => Some (st1, None)
      | Some (st1, Slices ss) => option_map (fun r => (fst r, option_map (app ss) (snd r))) (get_loop st1 xs cs')
      end
    end.
  (** [get] (segment_store.cpp:281-325); the inner [None] is an error. *)
  Definition get (st : store) (xs : list bool) : option (store * option (list slice)) :=
    match candidates_of st xs with None => None | Some (st', cs) => get_loop st' xs cs end.

  (** [extract] and [lookup] (segment_store.cpp:34-76, 117-134): the ID set, the
      remaining candidates and the rest of the buffer. *)
  Record session := { se_ids : list bool; se_todo : list uuid; se_buffer : list slice }.
  Definition extract (st : store) (xs : list bool) : option (store * session) :=
    option_map (fun r => (fst r, {| se_ids := xs; se_todo := snd r; se_buffer := [] |})) (candidates_of st xs).
  Inductive answer := Next (s : slice) | Done | Failed.
  (** [next] (segment_store.cpp:40-51); each round of the loop takes one candidate. *)
  Fixpoint session_next (todo : list uuid) (st : store) (xs : list bool) (buffer : list slice) : option (store * session * answer) :=
    match buffer with
    | s :: rest => Some (st, {| se_ids := xs; se_todo := todo; se_buffer := rest |}, Next s)
    | [] =>
      match todo with
      | [] => Some (st, {| se_ids := xs; se_todo := []; se_buffer := [] |}, Done)
      | u :: todo' =>
        match lookup_candidate st xs u with
        | None => None
        | Some (st', LoadError) => Some (st', {| se_ids := xs; se_todo := todo'; se_buffer := [] |}, Failed)
        | Some (st', Slices ss) => session_next todo' st' xs ss
        end
      end
    end.
  Definition next (st : store) (se : session) : option (store * session * answer) :=
    session_next (se_todo se) st (se_ids se) (se_buffer se).

  (** * [erase] *)

  (** [segments_.inject] for the new slices; failures are only logged
      (segment_store.cpp:228-237). *)
  Definition inject_all (ss : list slice) (u : uuid) (m : rmap uuid) : rmap uuid :=
    fold_left (fun m s => fst (inject_slice s u m)) ss m.
  (** [impl] for a segment (segment_store.cpp:155-253) with [drop] (segment_store.cpp:442-465);
      also the number of erased events. *)
  Definition erase_segment (st : store) (g : segment) (xs : list bool) : option (store * nat) :=
    match shrink g xs with
    | None => None
    | Some None => Some (with_files (with_map st (erase_value Nat.eqb (sg_id g) (st_map st))) (st_files st) (st_doomed st ++ [sg_id g]),
                         total_rows (sg_slices g))
    | Some (Some new) =>
      let st1 := with_map st (erase_value Nat.eqb (sg_id g) (st_map st)) in
      let u := st_fresh st1 in
      let st2 := next_uuid (with_map st1 (inject_all new u (st_map st1))) in
      let fs := if writable u then st_files st2 ++ [(u, Whole (Seg u new))] else st_files st2 in
      Some (with_files st2 fs (st_doomed st2 ++ [sg_id g]), total_rows (sg_slices g) - total_rows new)
    end.
  (** [impl] for the builder with [drop] (segment_store.cpp:155-253, 467-477). *)
  Definition erase_builder (st : store) (xs : list bool) : option (store * nat) :=
    let g := st_builder st in
    match shrink g xs with
    | None => None
    | Some None => Some (with_map (reset_builder st) (erase_value Nat.eqb (sg_id g) (st_map st)), total_rows (sg_slices g))
    | Some (Some new) =>
      let st1 := reset_builder (with_map st (erase_value Nat.eqb (sg_id g) (st_map st))) in
      let u := sg_id (st_builder st1) in
      Some (with_builder (with_map st1 (inject_all new u (st_map st1))) (Seg u new), total_rows (sg_slices g) - total_rows new)
    end.
  (** The body of the loop over the candidates (segment_store.cpp:255-271): a segment that
      cannot be loaded is skipped. *)
  Definition erase_candidate (st : store) (xs : list bool) (u : uuid) : option (store * nat) :=
    match cache_find Nat.eqb (st_cache st) u with
    | None => None
    | Some (c, Some g) =>
      match erase_segment (with_cache st c) g xs, find_map Nat.eqb u (ca_tracker c) with
      | Some (st1, n), Some i => Some (with_cache st1 (cache_erase_at (st_cache st1) i), n)
      | _, _ => None
      end
    | Some (c, None) =>
      if u =? sg_id (st_builder st) then erase_builder (with_cache st c) xs
      else match load st u with
           | None => Some (with_cache st c, 0)
           | Some Torn => None
           | Some (Whole g) => erase_segment (with_cache st c) g xs
           end
    end.
  Fixpoint erase_loop (st : store) (xs : list bool) (cs : list uuid) : option (store * nat) :=
    match cs with
    | [] => Some (st, 0)
    | u :: cs' =>
      match erase_candidate st xs u with
      | None => None
      | Some (st1, n) => option_map (fun r => (fst r, n + snd r)) (erase_loop st1 xs cs')
      end
    end.
  (** [erase] (segment_store.cpp:136-279). *)
  Definition erase (st : store) (xs : list bool) : option store :=
    match select_segments st xs with
    | None => None
    | Some cs => match erase_loop st xs cs with
                 | None => None
                 | Some (st1, n) => if n <=? st_events st1 then Some (with_events st1 (st_events st1 - n)) else None
                 end
    end.

  (** The directories a crash during [erase] can leave behind: before and after each new
      segment is written (segment_store.cpp:238-251), and while it is written. Files are
      not removed before their chunks are released. *)
  Fixpoint crash_points (st : store) (xs : list bool) (cs : list uuid) : option (list (list (uuid * file))) :=
    match cs with
    | [] => Some [st_files st]
    | u :: cs' =>
      match erase_candidate st xs u with
      | None => None
      | Some (st1, _) =>
        option_map (fun rest => st_files st :: map (fun f => st_files st ++ [(fst f, Torn)]) (skipn (length (st_files st)) (st_files st1)) ++ rest)
          (crash_points st1 xs cs')
      end
    end.

  (** The last reference to a chunk goes away and its file is removed
      (segment_store.cpp:247-250, 459-462). *)
  Definition release (st : store) (u : uuid) : store :=
    if existsb (Nat.eqb u) (st_doomed st)
    then with_files st (filter (fun p => negb (fst p =? u)) (st_files st)) (filter (fun v => negb (v =? u)) (st_doomed st))
    else st.
  (** [clear_cache] (segment_store.hpp:93-95). *)
  Definition clear_cache (st : store) : store := with_cache st (cache_clear (st_cache st)).

  (** * Opening a store *)

  (** [register_segment] (segment_store.cpp:379-407): the map and the number of events;
      [None] is an error or an unreadable file. *)
  Fixpoint inject_strict (ss : list slice) (u : uuid) (m : rmap uuid) : option (rmap uuid) :=
    match ss with
    | [] => Some m
    | s :: ss' => let '(m', ok) := inject_slice s u m in if ok then inject_strict ss' u m' else None
    end.
  Definition register_segment (acc : option (rmap uuid * nat)) (f : uuid * file) : option (rmap uuid * nat) :=
    match acc, snd f with
    | Some (m, n), Whole g => option_map (fun m' => (m', n + total_rows (sg_slices g))) (inject_strict (sg_slices g) (sg_id g) m)
    | _, _ => None
    end.
  (** [make] (segment_store.cpp:79-102, 363-377) on a directory whose entries come in the
      given order, with a fresh UUID for the builder; [None] is the null pointer. *)
  Definition open (capacity : nat) (fs : list (uuid * file)) (fresh : uuid) : option store :=
    match fold_left register_segment fs (Some ([], 0)), cache_new Lru capacity with
    | Some (m, n), Some c => Some {| st_map := m; st_builder := Seg fresh []; st_cache := c; st_files := fs; st_doomed := [];
                                     st_events := n; st_fresh := S fresh |}
    | _, _ => None
    end.

  (** What clients and the environment do; [ORestart] is a clean restart: a flush, the
      release of all chunks and opening the directory, which lists its entries in some
      order. *)
  Inductive op := OPut (s : slice) | OFlush | OGet (xs : list bool) | OErase (xs : list bool) | OClearCache
                | ORelease (u : uuid) | ORestart (order : list (uuid * file)).
  Definition step (st : store) (o : op) : option store :=
    match o with
    | OPut s => option_map fst (put st s)
    | OFlush => option_map fst (flush st)
    | OGet xs => option_map fst (get st xs)
    | OErase xs => erase st xs
    | OClearCache => Some (clear_cache st)
    | ORelease u => Some (release st u)
    | ORestart order =>
      match flush st with
      | None => None
      | Some (st1, _) => open (ca_capacity (st_cache st)) order (st_fresh st1)
      end
    end.
  Fixpoint run (ops : list op) (st : store) : option store :=
    match ops with [] => Some st | o :: ops' => match step st o with Some st' => run ops' st' | None => None end end.
End Store.
