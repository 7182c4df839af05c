(** Model of the importer's event-ID allocator.

    Source: libvast/src/system/importer.cpp and libvast/vast/system/importer.hpp.

    Simplification: 64-bit wrap-around of IDs is not modelled (IDs are
    unbounded [N]); the state file is a byte list; the actor's streaming side is
    reduced to the calls of [next_id]. *)
From Coq Require Import List NArith Lia Bool.
Import ListNotations.
Open Scope N_scope.

(** ** Text of the state file *)

(** Byte codes used in the file. *)
Definition ch_0 : N := 48.
Definition ch_space : N := 32.

(** Decimal output of [std::ostream << uint64_t]
    (importer.cpp:159,161). *)
Fixpoint print_digits (fuel : nat) (n : N) (acc : list N) : list N :=
  match fuel with
  | O => acc
  | S f =>
    let acc' := (ch_0 + n mod 10) :: acc in
    if n <? 10 then acc' else print_digits f (n / 10) acc'
  end.

Definition print_N (n : N) : list N := print_digits (S (N.size_nat n)) n [].

Definition is_digit (c : N) : bool := (48 <=? c) && (c <=? 57).

(** Reads the maximal run of digits, [std::istream >> uint64_t]
    (importer.cpp:128,132); overflow is not modelled. *)
Fixpoint read_digits (acc : N) (s : list N) : N * list N :=
  match s with
  | c :: s' => if is_digit c then read_digits (acc * 10 + (c - ch_0)) s'
               else (acc, s)
  | [] => (acc, [])
  end.

Fixpoint skip_space (s : list N) : list N :=
  match s with
  | c :: s' => if c =? ch_space then skip_space s' else s
  | [] => []
  end.

(** One formatted extraction: skip blanks, then at least one digit, otherwise
    the stream enters the failed state ([None]). *)
Definition parse_N (s : list N) : option (N * list N) :=
  match skip_space s with
  | c :: s' => if is_digit c then Some (read_digits 0 (c :: s')) else None
  | [] => None
  end.

(** ** Allocator state *)

(** [importer_state::id_block] (importer.hpp:46-52). *)
Record block := { b_next : N; b_end : N }.

(** [8_Mi] (importer.cpp:172). *)
Definition block_size : N := 8 * 1024 * 1024.

(** [write_mode] and the text written by [write_state] (importer.cpp:158-162). *)
Definition state_text (with_next : bool) (b : block) : list N :=
  if with_next
  then print_N (b_end b) ++ [ch_space] ++ print_N (b_next b)
  else print_N (b_end b).

(** The loop of [get_next_block] (importer.cpp:171-172). The fuel is the
    number of iterations the C++ loop makes; [ImporterProofs.grow_spec] shows
    that the loop condition is false on exit. *)
Fixpoint grow (fuel : nat) (next required e : N) : N :=
  match fuel with
  | O => e
  | S f => if e <=? next + required then grow f next required (e + block_size)
           else e
  end.

Definition next_end (next required e : N) : N :=
  grow (S (N.to_nat ((next + required - e) / block_size + 1))) next required e.

(** What can happen to one call of [write_state] (importer.cpp:147-167):
    it succeeds; the process dies right before the file changes; it dies right
    after; it dies while writing, which leaves a prefix of [k] bytes (the
    [std::ofstream] at line 158 truncates the file first); or the directory
    cannot be created and the call returns an error (lines 151-156). *)
Inductive write_outcome :=
| Wok
| Wcrash_before
| Wcrash_after
| Wtorn (k : nat)
| Wfail.

(** Process state ([None] = not running) and the file [current_id_block]. *)
Record istate := { proc : option block; file : option (list N) }.

Definition init_istate : istate := {| proc := None; file := None |}.

(** Effect of [write_state] on the file, and whether the process survives. *)
Definition write_file (w : write_outcome) (txt : list N) (f : option (list N))
  : option (list N) * bool :=
  match w with
  | Wok => (Some txt, true)
  | Wcrash_before => (f, false)
  | Wcrash_after => (Some txt, false)
  | Wtorn k => (Some (firstn k txt), false)
  | Wfail => (f, true)
  end.

Inductive iop :=
| Start (garbage : block) (w : write_outcome)
  (* spawn the actor: read_state; [garbage] = uninitialised [current] *)
| NextId (n : N) (w : write_outcome)     (* one table slice with n rows *)
| Shutdown (w : write_outcome)           (* destructor *)
| Crash.

(** Values that [read_state] takes from the file (importer.cpp:125-143);
    [None] = parse error at lines 129-131. *)
Definition load (f : option (list N)) : option block :=
  match f with
  | None => Some {| b_next := 0; b_end := 0 |}
  | Some s =>
    match parse_N s with
    | None => None
    | Some (e, rest) =>
      match parse_N rest with
      | None => Some {| b_next := e; b_end := e |}
      | Some (n, _) => Some {| b_next := n; b_end := e |}
      end
    end
  end.

(** One step. The second component is the ID range handed out, if any. *)
Definition istep (s : istate) (o : iop) : istate * option (N * N) :=
  match o, proc s with
  | Start g w, None =>
    match load (file s) with
    | None =>
      (* importer.cpp:250-253: quit; then ~importer_state (112-114) writes
         whatever [current] holds *)
      let '(f, _) := write_file w (state_text true g) (file s) in
      ({| proc := None; file := f |}, None)
    | Some b =>
      (* importer.cpp:144,169-174 *)
      let b' := {| b_next := b_next b;
                   b_end := next_end (b_next b) 0 (b_end b) |} in
      let '(f, alive) := write_file w (state_text false b') (file s) in
      match w with
      | Wfail =>
        (* read_state returns the error; the actor quits, and the destructor
           tries the same failing write again *)
        ({| proc := None; file := f |}, None)
      | _ => ({| proc := if alive then Some b' else None; file := f |}, None)
      end
    end
  | NextId n w, Some b =>
    (* importer.cpp:176-184 *)
    let pre := b_next b in
    let post := pre + n in
    if b_end b <=? post then
      let e := next_end pre n (b_end b) in
      let '(f, alive) :=
        write_file w (state_text false {| b_next := pre; b_end := e |}) (file s)
      in
      if alive
      then ({| proc := Some {| b_next := post; b_end := e |}; file := f |},
            Some (pre, post))
      else ({| proc := None; file := f |}, None)
    else ({| proc := Some {| b_next := post; b_end := b_end b |};
             file := file s |}, Some (pre, post))
  | Shutdown w, Some b =>
    (* importer.cpp:112-114 *)
    let '(f, _) := write_file w (state_text true b) (file s) in
    ({| proc := None; file := f |}, None)
  | Crash, Some _ => ({| proc := None; file := file s |}, None)
  | _, _ => (s, None)
  end.

Fixpoint irun (s : istate) (os : list iop) : istate * list (N * N) :=
  match os with
  | [] => (s, [])
  | o :: os' =>
    let '(s1, r) := istep s o in
    let '(s2, rs) := irun s1 os' in
    (s2, match r with Some x => x :: rs | None => rs end)
  end.
