(** Model of the lock on a database directory: libvast/src/detail/pid_file.cpp and its use in
    libvast/src/system/spawn_node.cpp:75-101.

    Processes interleave: a process looks at the file, and writes it later, under a lock that it holds
    only while it writes. Failures of system calls other than by a crash are left out. *)
From Coq Require Import List NArith Bool Arith.
From Verif Require Import LiteralModel FileModel FileProofs.
Import ListNotations.
Open Scope N_scope.

(** The machine: the file if it exists, the processes that live, those among them that found no owner
    (they are between lines 58 and 60 of pid_file.cpp), and those that were told that they own the
    directory. *)
Record machine := { file : option (list N); living : list N; ready : list N; owners : list N }.
(** [to<int32_t>] (pid_file.cpp:43) of a text; overflow and signs are left out, process identifiers
    have at most seven digits. *)
Definition parse_pid (c : list N) : option N := match c with [] => None | _ => if forallb isdigit c then Some (num c) else None end.
Definition mem (p : N) (l : list N) : bool := existsb (N.eqb p) l.
Definition drop (p : N) (l : list N) : list N := filter (fun q => negb (q =? p)) l.

(** What the look at the file decides (pid_file.cpp:30-58). *)
Inductive verdict := Refuse | Own | Go.
Definition look (p : N) (m : machine) : verdict :=
  match file m with
  | None => Go
  | Some c => match parse_pid c with
              | None => Refuse
              | Some q => if q =? p then Own else if mem q (living m) then Refuse else Go
              end
  end.
(** What can happen: a process is started; it looks at the file; it writes its identifier; it is killed
    after it has opened the file (pid_file.cpp:60) and before it has written; it ends in an orderly way
    and removes the file (spawn_node.cpp:92-101); it is killed. *)
Inductive event := Begin (p : N) | Look (p : N) | Claim (p : N) | Touch (p : N) | Leave (p : N) | Die (p : N).
Definition gone (p : N) (f : option (list N)) (m : machine) : machine :=
  {| file := f; living := drop p (living m); ready := drop p (ready m); owners := drop p (owners m) |}.
(** [None]: this cannot happen now. [over] is what is in a file after writing at its start
    (O_WRONLY and O_CREAT without O_TRUNC, pid_file.cpp:60, 75). *)
Definition step (e : event) (m : machine) : option machine :=
  match e with
  | Begin p => if mem p (living m) then None else Some {| file := file m; living := p :: living m; ready := ready m; owners := owners m |}
  | Look p =>
    if mem p (living m) && negb (mem p (ready m)) && negb (mem p (owners m)) then
      Some match look p m with
           | Refuse => m
           | Own => {| file := file m; living := living m; ready := ready m; owners := p :: owners m |}
           | Go => {| file := file m; living := living m; ready := p :: ready m; owners := owners m |}
           end
    else None
  | Claim p =>
    if mem p (ready m) then
      Some {| file := Some (over (digits p) (match file m with Some c => c | None => [] end)); living := living m; ready := drop p (ready m); owners := p :: owners m |}
    else None
  | Touch p => if mem p (ready m) then Some (gone p (match file m with Some c => Some c | None => Some [] end) m) else None
  | Leave p => if mem p (owners m) then Some (gone p None m) else None
  | Die p => if mem p (living m) then Some (gone p (file m) m) else None
  end.
Fixpoint steps (es : list event) (m : machine) : option machine :=
  match es with
  | [] => Some m
  | e :: es' => match step e m with Some m' => steps es' m' | None => None end
  end.
Definition idle : machine := {| file := None; living := []; ready := []; owners := [] |}.
