(** Model of the stores of single partitions: libvast/src/system/local_segment_store.cpp and
    libvast/vast/system/local_segment_store.hpp, with [segment::erase] and
    [segment::copy_without] (libvast/src/segment.cpp:122-172) and [segment_builder]
    (libvast/src/segment_builder.cpp). Segments, lookups and ID sets are those of
    SegmentStoreModel.v.

    The actors run one handler at a time. The outer [None] stands for an assertion or for the
    wrap-around in [segment::ids]. Requests are extractions that preserve IDs and have no
    expression, and erasures. *)
From Coq Require Import List Bool Arith.
From Verif Require Import DataModel TypeModel TableSliceModel SegmentStoreModel.
Import ListNotations.
Open Scope nat_scope.

Inductive request := Extract (xs : list bool) | Erase (xs : list bool).
(** What the sender gets: slices and [atom::done], [atom::done], an error, or nothing, ever. *)
Inductive reply := Slices (ss : list slice) | Done | Error | Silence.

(** [select(slice, ids)] for all slices found (local_segment_store.cpp:71-74). *)
Fixpoint select_each (xs : list bool) (ss : list slice) : option (list slice) :=
  match ss with
  | [] => Some []
  | s :: ss' => match select s xs, select_each xs ss' with
                | Some a, Some b => Some (a ++ b)
                | _, _ => None
                end
  end.
(** [segment::lookup] or [segment_builder::lookup], then [handle_lookup] for an extraction
    (local_segment_store.cpp:36-88). *)
Definition extract (g : segment) (xs : list bool) : option (list slice) :=
  match seg_lookup g xs with
  | None => None
  | Some ss => select_each xs ss
  end.
(** [segment::erase] (segment.cpp:122-149): the slices that remain. *)
Definition remaining (g : segment) (xs : list bool) : option (list slice) := keep_slices (map negb xs) (sg_slices g).

(** * Passive stores *)

(** The files at the path of the store and at the same path with the extension [next]. *)
Record disk := { d_store : option segment; d_next : option segment }.

(** [passive_store_state] (local_segment_store.hpp:57-83): [path], as whether its extension has
    been replaced, [segment] and [deferred_requests]; and whether the actor has quit.
    [fs] is left out, nothing ever sets it. *)
Record passive := { p_next : bool; p_segment : option segment; p_deferred : list request; p_quit : bool }.
(** [passive_local_store] (local_segment_store.cpp:105-117): starts with the path from the
    header of the partition, and asks for the file. *)
Definition spawn_passive : passive := {| p_next := false; p_segment := None; p_deferred := []; p_quit := false |}.

Section Passive.
  (** Whether the working directory of the process is the directory of the filesystem actor.
      The path of a store is relative (local_segment_store.cpp:99-102). The filesystem actor
      reads and writes below its root (posix_filesystem.cpp:33-62), [remove_all] does not. *)
  Variable rooted : bool.

  (** [std::filesystem::remove_all(path)] (local_segment_store.cpp:166), which reports no error
      for a missing file. *)
  Definition remove_all (next : bool) (d : disk) : disk :=
    if negb rooted then d
    else if next then {| d_store := d_store d; d_next := None |}
    else {| d_store := None; d_next := d_next d |}.

  (** The handlers for a query and for [atom::erase] once the segment is there
      (local_segment_store.cpp:132-220). [replace_extension] changes the path of the state
      (line 188). The request to the invalid handle [state.fs] (190-192) comes back as an error,
      which is delivered to a default-constructed promise (189, 207-210), that is, to nobody. *)
  Definition handle (d : disk) (p : passive) (g : segment) (r : request) : option (disk * passive * reply) :=
    match r with
    | Extract xs => match extract g xs with Some ss => Some (d, p, Slices ss) | None => None end
    | Erase xs =>
      match seg_ids g with
      | None => None
      | Some ids =>
        if is_subset ids xs then Some (remove_all (p_next p) d, p, Done)
        else match remaining g xs with
             | None => None
             | Some _ => Some (d, {| p_next := true; p_segment := p_segment p; p_deferred := p_deferred p; p_quit := p_quit p |}, Silence)
             end
      end
    end.
  (** The deferred requests are sent again to the store itself when the segment arrives
      (local_segment_store.cpp:128-131), and taken to be the next ones it handles. Answers to
      erasures go to the default-constructed promise of line 157. *)
  Definition silent (r : request) (a : reply) : reply := match r with Erase _ => Silence | Extract _ => a end.
  Fixpoint replay (d : disk) (p : passive) (g : segment) (rs : list request) : option (disk * passive * list (request * reply)) :=
    match rs with
    | [] => Some (d, p, [])
    | r :: rs' =>
      match handle d p g r with
      | None => None
      | Some (d', p', a) =>
        match replay d' p' g rs' with
        | None => None
        | Some (d'', p'', l) => Some (d'', p'', (r, silent r a) :: l)
        end
      end
    end.

  (** A request arrives, the filesystem actor answers, or the store goes away and is spawned
      again later. *)
  Inductive event := Request (r : request) | Mapped | Restart.
  (** Requests to a store that is not there are answered with an error. *)
  Definition step (d : disk) (p : passive) (e : event) : option (disk * passive * list (request * reply)) :=
    match e with
    | Request r =>
      if p_quit p then Some (d, p, [(r, Error)])
      else match p_segment p with
           | None => Some (d, {| p_next := p_next p; p_segment := None; p_deferred := p_deferred p ++ [r]; p_quit := false |}, [])
           | Some g => match handle d p g r with Some (d', p', a) => Some (d', p', [(r, a)]) | None => None end
           end
    | Mapped =>
      match p_segment p with
      | Some _ => Some (d, p, [])
      | None =>
        match d_store d with
        | None => Some (d, {| p_next := p_next p; p_segment := None; p_deferred := []; p_quit := true |},
                        map (fun r => (r, silent r Error)) (p_deferred p))
        | Some g => replay d {| p_next := p_next p; p_segment := Some g; p_deferred := []; p_quit := p_quit p |} g (p_deferred p)
        end
      end
    | Restart => Some (d, spawn_passive, [])
    end.
  Fixpoint run (es : list event) (d : disk) (p : passive) : option (disk * passive * list (request * reply)) :=
    match es with
    | [] => Some (d, p, [])
    | e :: es' =>
      match step d p e with
      | None => None
      | Some (d', p', l) =>
        match run es' d' p' with
        | None => None
        | Some (d'', p'', l') => Some (d'', p'', l ++ l')
        end
      end
    end.
End Passive.

(** * Active stores *)

(** [active_store_state] (local_segment_store.hpp:25-55): the builder, the file once it is
    written, and a source of UUIDs. [segment], which no handler reads while there is a builder
    (there always is), is left out. *)
Record active := { a_builder : segment; a_file : option segment; a_fresh : uuid }.
Definition spawn_active (u : uuid) : active := {| a_builder := Seg u []; a_file := None; a_fresh := S u |}.

(** A slice arrives, a request arrives, or the stream has ended. *)
Inductive incoming := Add (s : slice) | Ask (r : request) | Persist.

(** The handlers (local_segment_store.cpp:239-297). [segment_builder::add] accepts every slice,
    its minimal offset is never raised (segment_builder.cpp:33-44, 93-104); [finish] empties the
    builder and gives it a new UUID (segment_builder.cpp:46-63). *)
Definition take (a : active) (i : incoming) : option (active * list (request * reply)) :=
  match i with
  | Add s => Some ({| a_builder := Seg (sg_id (a_builder a)) (sg_slices (a_builder a) ++ [s]); a_file := a_file a; a_fresh := a_fresh a |}, [])
  | Ask (Extract xs) =>
    match extract (a_builder a) xs with
    | None => None
    | Some ss => Some (a, [(Extract xs, Slices ss)])
    end
  | Ask (Erase xs) =>
    match remaining (a_builder a) xs with
    | None => None
    | Some ss => Some ({| a_builder := Seg (sg_id (a_builder a)) ss; a_file := a_file a; a_fresh := S (a_fresh a) |}, [(Erase xs, Done)])
    end
  | Persist => Some ({| a_builder := Seg (a_fresh a) []; a_file := Some (a_builder a); a_fresh := S (a_fresh a) |}, [])
  end.
Fixpoint feed (is : list incoming) (a : active) : option (active * list (request * reply)) :=
  match is with
  | [] => Some (a, [])
  | i :: is' =>
    match take a i with
    | None => None
    | Some (a', l) => match feed is' a' with None => None | Some (a'', l') => Some (a'', l ++ l') end
    end
  end.
