(** Model of the sink of an export, libvast/src/system/sink.cpp:47-123, and of the check of the version
    of a database directory, libvast/src/db_version.cpp:56-106 with
    libvast/src/system/spawn_node.cpp:59-69.

    Left out: reports, the time of flushes, status, and the exit handler of the sink. *)
From Coq Require Import List NArith Bool.
From Verif Require Import AddressModel.
Import ListNotations.
Open Scope N_scope.
Local Notation length := List.length.

Section Sink.
  (** Events, and the configured transformations of a slice (sink.cpp:77-83), which may fail. *)
  Variable A : Type.
  Variable apply : list A -> option (list A).
  (** A slice, with what the writer does with it: it writes all, or fails after some rows; or a new
      limit. *)
  Inductive input := Slice (x : list A) (fails : option nat) | Limit (n : N).
  (** How many events were counted, the limit, what is written, and whether the sink has ended, and with
      an error. *)
  Record sink := { processed : N; max_events : N; written : list A; ended : bool; failed : bool }.
  (** Construction (sink.cpp:47-62): no limit is the largest number. *)
  Definition unlimited : N := 2 ^ 64 - 1.
  Definition start (limit : N) : sink := {| processed := 0; max_events := if 0 <? limit then limit else unlimited; written := []; ended := false; failed := false |}.
  Definition count (l : list A) : N := N.of_nat (length l).
  (** The handlers (sink.cpp:68-115, 116-123); an ended sink takes no messages. *)
  Definition step (i : input) (s : sink) : sink :=
    if ended s then s
    else match i with
    | Limit n => if processed s <? n then {| processed := processed s; max_events := n; written := written s; ended := false; failed := false |} else s
    | Slice x fails =>
      match apply x with
      | None => s
      | Some y =>
        let remaining := max_events s - processed s in
        if remaining =? 0 then {| processed := processed s; max_events := max_events s; written := written s; ended := true; failed := false |}
        else
          let z := if remaining <? count y then firstn (N.to_nat remaining) y else y in
          match fails with
          | Some k => {| processed := processed s; max_events := max_events s; written := written s ++ firstn k z; ended := true; failed := true |}
          | None =>
            let p := processed s + count z in
            {| processed := p; max_events := max_events s; written := written s ++ z; ended := max_events s <=? p; failed := false |}
          end
      end
    end.
  Definition run (is : list input) (s : sink) : sink := fold_left (fun s i => step i s) is s.
End Sink.

(** * The version of a database directory *)
(** [descriptions] (db_version.cpp:27-31); the last is the latest, number 2. *)
Definition descriptions : list (list N) := [ [105; 110; 118; 97; 108; 105; 100]; [118; 48]; [118; 49] ].
Definition invalid : nat := 0.
Definition latest : nat := 2.
Fixpoint position (x : list N) (l : list (list N)) : option nat :=
  match l with
  | [] => None
  | y :: r => if bytes_eqb x y then Some 0%nat else option_map S (position x r)
  end.
(** The text before the first line feed, if there is one. *)
Fixpoint first_line (s : list N) : option (list N) :=
  match s with
  | [] => None
  | c :: r => if c =? 10 then Some [] else option_map (cons c) (first_line r)
  end.
(** [read_db_version] (db_version.cpp:56-77), for the file if it exists. [sv.find] is taken as a truth
    value: at position 0 the whole text is compared; if there is no line feed, the view has the length
    [npos], which no description has. *)
Definition read_version (f : option (list N)) : nat :=
  match f with
  | None | Some [] => invalid
  | Some s =>
    match first_line s with
    | None => invalid
    | Some [] => match position s descriptions with Some i => i | None => invalid end
    | Some l => match position l descriptions with Some i => i | None => invalid end
    end
  end.
(** What is written into a new directory (db_version.cpp:99-101). *)
Definition version_text : list N := [118; 49; 10].
(** [initialize_db_version] (db_version.cpp:79-106): the process may be killed when it has written [k]
    bytes. The file, and whether the process goes on. *)
Definition init_version (killed : option nat) (f : option (list N)) : option (list N) * bool :=
  match f, killed with
  | Some s, _ => (Some s, true)
  | None, None => (Some version_text, true)
  | None, Some k => (Some (firstn k version_text), false)
  end.
(** One start (spawn_node.cpp:59-69): the file behind it, and whether the check was passed. *)
Definition open_dir (killed : option nat) (f : option (list N)) : option (list N) * bool :=
  let (g, on) := init_version killed f in (g, on && Nat.eqb (read_version g) latest).
Fixpoint starts (ks : list (option nat)) (f : option (list N)) : option (list N) * list bool :=
  match ks with
  | [] => (f, [])
  | k :: r => let (g, b) := open_dir k f in let (h, bs) := starts r g in (h, b :: bs)
  end.
