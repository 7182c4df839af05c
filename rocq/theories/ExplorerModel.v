(** Model of the actor that explores the surroundings of results: libvast/src/system/explorer.cpp.

    Events are their IDs where they are forwarded, and the values of the columns in question where
    queries are made of them. The exporters and the node are the environment: a spawned exporter
    sends slices and then goes down. *)
From Coq Require Import List NArith ZArith Bool Arith.
Import ListNotations.
Open Scope N_scope.

(** A slice of results with [preserve-ids] (explorer.cpp:215): the ID of the first event and the number
    of events (vast/table_slice.hpp: offset, rows). *)
Record slice := { offset : N; rows : nat }.
Definition ids (s : slice) : list N := map (fun i => offset s + N.of_nat i) (seq 0 (rows s)).

Definition mem (i : N) (l : list N) : bool := existsb (N.eqb i) l.

(** The first loop of [forward_results] (explorer.cpp:47-56): the IDs that were not in [returned_ids],
    which now has all of them. *)
Fixpoint insert_all (seen : list N) (is : list N) : list N * list N :=
  match is with
  | [] => (seen, [])
  | i :: r => if mem i seen then insert_all seen r
              else let '(seen', fresh) := insert_all (i :: seen) r in (seen', i :: fresh)
  end.
(** [unseen.size()] (explorer.cpp:60): a bitmap is as long as its last bit, which was set by
    [append_bits(false, id)] and [append_bits(true, 1)] (explorer.cpp:51-54); the union is as long as
    the longer operand. *)
Definition size_of (unseen : list N) : N := fold_right (fun i m => N.max (i + 1) m) 0 unseen.
(** [select] (src/table_slice.cpp:425-508) yields a slice for each run of selected events. *)
Fixpoint runs (unseen : list N) (cur : list N) (is : list N) : list (list N) :=
  match is with
  | [] => match cur with [] => [] | _ => [cur] end
  | i :: r => if mem i unseen then runs unseen (cur ++ [i]) r
              else match cur with [] => runs unseen [] r | _ => cur :: runs unseen [] r end
  end.
(** The second loop (explorer.cpp:68-79): what is sent to the sink, and [num_sent]. *)
Fixpoint ship (total sent : N) (ss : list (list N)) : list (list N) * N :=
  match ss with
  | [] => ([], sent)
  | s :: r =>
      if total <=? sent then ([], sent)
      else if sent + N.of_nat (length s) <=? total then
        let '(out, n) := ship total (sent + N.of_nat (length s)) r in (s :: out, n)
      else let t := firstn (N.to_nat (total - sent)) s in
        let '(out, n) := ship total (sent + N.of_nat (length t)) r in (t :: out, n)
  end.

(** What the explorer asks the node for (explorer.cpp:171-212): bounds on the time and the value of
    the column [by]. *)
Record query := { q_from : option Z; q_to : option Z; q_by : option N }.

(** [explorer_state] (vast/system/explorer.hpp:27-70). *)
Record explorer := {
  total : N; before : option Z; after : option Z; by_ : bool;
  num_sent : N; returned : list N; running : nat; completed : bool }.

(** The defaults of the window (explorer.cpp:93-102). *)
Definition start (limit : N) (b a : option Z) (by0 : bool) : explorer :=
  {| total := limit;
     before := match b, a with None, Some _ => Some 0%Z | _, _ => b end;
     after := match a, b with None, Some _ => Some 0%Z | _, _ => a end;
     by_ := by0; num_sent := 0; returned := []; running := 0; completed := false |}.

(** [forward_results] (explorer.cpp:43-81). *)
Definition forward (x : explorer) (s : slice) : explorer * list (list N) :=
  let '(seen, unseen) := insert_all (returned x) (ids s) in
  let ss := match unseen with
            | [] => []
            | _ => if size_of unseen =? N.of_nat (rows s) then [ids s] else runs unseen [] (ids s)
            end in
  let '(out, n) := ship (total x) (num_sent x) ss in
  ({| total := total x; before := before x; after := after x; by_ := by_ x;
      num_sent := n; returned := seen; running := running x; completed := completed x |}, out).

(** A result of the first query: the value of its first column of type timestamp and of the column
    [by], if they are not null (explorer.cpp:163-170, 183-187). *)
Record row := { r_time : option Z; r_by : option N }.
(** A slice of them, and whether its layout has the two columns (explorer.cpp:134-161). *)
Record batch := { has_time : bool; has_by : bool; b_rows : list row }.

(** The query for one result (explorer.cpp:165-211); the arithmetic on times is that of integers. *)
Definition query_for (x : explorer) (r : row) : option query :=
  match r_time r with
  | None => None
  | Some t =>
      let q v := {| q_from := option_map (fun b => (t - b)%Z) (before x);
                    q_to := option_map (fun a => (t + a)%Z) (after x); q_by := v |} in
      if by_ x then match r_by r with None => None | Some v => Some (q (Some v)) end else Some (q None)
  end.
Fixpoint queries (x : explorer) (rs : list row) : list query :=
  match rs with
  | [] => []
  | r :: t => match query_for x r with Some q => q :: queries x t | None => queries x t end
  end.
(** The handler of slices from the first exporter (explorer.cpp:131-234): the requests to spawn. That
    the sender is told apart (explorer.cpp:119-130) is part of the environment: exporters send with
    [anon_send] (src/system/exporter.cpp:66), and what the receiver then sees as the sender is up to
    CAF, whose source is not in the repository. *)
Definition on_initial (x : explorer) (b : batch) : explorer * list query :=
  if total x <=? num_sent x then (x, [])
  else if negb (has_time b) then (x, [])
  else if by_ x && negb (has_by b) then (x, [])
  else let qs := queries x (b_rows b) in
    ({| total := total x; before := before x; after := after x; by_ := by_ x; num_sent := num_sent x;
        returned := returned x; running := running x + length qs; completed := completed x |}, qs).

(** [--running_exporters] (explorer.cpp:111, 231). *)
Definition decrease (x : explorer) : explorer :=
  {| total := total x; before := before x; after := after x; by_ := by_ x; num_sent := num_sent x;
     returned := returned x; running := Nat.pred (running x); completed := completed x |}.
(** The final status of the first exporter (explorer.cpp:239-243). *)
Definition complete (x : explorer) : explorer :=
  {| total := total x; before := before x; after := after x; by_ := by_ x; num_sent := num_sent x;
     returned := returned x; running := running x; completed := true |}.
(** [quit_if_done] (explorer.cpp:103-107). *)
Definition quits (x : explorer) : bool := completed x && Nat.eqb (running x) 0.

(** ** The explorer among the other actors *)
(** The open requests to spawn and the running exporters, each with its query, and whether the
    explorer has quit (explorer.cpp:108-248); [delivered], [sent], [lost] and [asked] record what
    happened: slices that came from exporters and were sent to the sink, messages with events that came too late, queries. *)
Record sys := {
  ex : explorer; pending : list query; exporters : list query; gone : bool;
  delivered : list slice; sent : list (list N); lost : nat; asked : list query }.

Inductive op :=
| Initial (b : batch)           (** a slice from the first exporter *)
| Spawned (k : nat) | Failed (k : nat)  (** the answer to the k-th open request *)
| Result (k : nat) (s : slice)  (** a slice from the k-th exporter *)
| Down (k : nat)                (** the k-th exporter has ended *)
| Status.                       (** the first exporter has ended *)

Fixpoint remove_nth {A : Type} (k : nat) (l : list A) : list A :=
  match l, k with [], _ => [] | _ :: r, O => r | x :: r, S k' => x :: remove_nth k' r end.

Definition mk x p e g d s l a : sys :=
  {| ex := x; pending := p; exporters := e; gone := g; delivered := d; sent := s; lost := l; asked := a |}.

(** One message to the explorer (explorer.cpp:108-248); [None] if it cannot come. The first exporter
    sends its status at its end (src/system/exporter.cpp:186-195), an exporter its slices before it
    goes down. *)
Definition step (s : sys) (o : op) : option sys :=
  let x := ex s in
  match o with
  | Initial b =>
      if completed x then None
      else if gone s then Some (mk x (pending s) (exporters s) true (delivered s) (sent s) (S (lost s)) (asked s))
      else let '(x', qs) := on_initial x b in
        Some (mk x' (pending s ++ qs) (exporters s) false (delivered s) (sent s) (lost s) (asked s ++ qs))
  | Spawned k =>
      match nth_error (pending s) k with
      | None => None
      | Some q => Some (mk x (remove_nth k (pending s)) (exporters s ++ [q]) (gone s) (delivered s) (sent s) (lost s) (asked s))
      end
  | Failed k =>
      match nth_error (pending s) k with
      | None => None
      | Some q => Some (mk (if gone s then x else decrease x) (remove_nth k (pending s)) (exporters s) (gone s) (delivered s) (sent s) (lost s) (asked s))
      end
  | Result k sl =>
      match nth_error (exporters s) k with
      | None => None
      | Some _ =>
          if gone s then Some (mk x (pending s) (exporters s) true (delivered s ++ [sl]) (sent s) (S (lost s)) (asked s))
          else let '(x', out) := forward x sl in
            Some (mk x' (pending s) (exporters s) false (delivered s ++ [sl]) (sent s ++ out) (lost s) (asked s))
      end
  | Down k =>
      match nth_error (exporters s) k with
      | None => None
      | Some _ =>
          if gone s then Some (mk x (pending s) (remove_nth k (exporters s)) true (delivered s) (sent s) (lost s) (asked s))
          else let x' := decrease x in
            Some (mk x' (pending s) (remove_nth k (exporters s)) (quits x') (delivered s) (sent s) (lost s) (asked s))
      end
  | Status =>
      if completed x then None
      else let x' := complete x in
        Some (mk x' (pending s) (exporters s) (if gone s then true else quits x') (delivered s) (sent s) (lost s) (asked s))
  end.
Fixpoint run (s : sys) (os : list op) : option sys :=
  match os with [] => Some s | o :: r => match step s o with None => None | Some s' => run s' r end end.
Definition launch (limit : N) (b a : option Z) (by0 : bool) : sys :=
  mk (start limit b a by0) [] [] false [] [] 0 [].
