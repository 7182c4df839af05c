(** Model of reading and saving files: libvast/src/io/save.cpp, io/write.cpp, io/read.cpp,
    file.cpp (open, read, write, seek), detail/posix.cpp:363-418 and the actor
    libvast/src/system/posix_filesystem.cpp.

    A system call does what an [outcome] says; the process may crash before any of them. What a
    crash of the operating system does to data that was not synced is left out, as are the
    creation of parent directories (file.cpp:69-83), standard input and output (file.cpp:43-52) and
    the failure to close a file. *)
From Coq Require Import List NArith Bool Arith.
From Verif Require Import AddressModel.
Import ListNotations.
Open Scope nat_scope.
Local Notation length := List.length.

Notation bytes := (list N) (only parsing).
Notation path := (list N) (only parsing).
(** The file system: the content of the files that exist. *)
Definition fs : Type := path -> option bytes.
Definition set (p : path) (v : option bytes) (d : fs) : fs := fun q => if bytes_eqb p q then v else d q.
Definition content (p : path) (d : fs) : bytes := match d p with Some x => x | None => [] end.

(** What a system call does: it is interrupted (EINTR), fails, or transfers at most [n] bytes. Calls
    that transfer nothing are not interrupted; they succeed unless they fail. *)
Inductive outcome := Intr | Fail | Part (n : nat).
(** How a function ends. *)
Inductive ending := Done | Failed | Crashed.

(** write(2) at an offset. *)
Definition write_at (off : nat) (x old : bytes) : bytes := firstn off old ++ x ++ skipn (off + length x) old.
(** [detail::write] (posix.cpp:388-411) to a file; [total] bytes were written, [rest] is left. [cap] is
    INT_MAX. The rest of the outcomes is returned. *)
Fixpoint write_loop (cap : nat) (p : path) (total : nat) (rest : bytes) (os : list outcome) (d : fs) : ending * list outcome * fs :=
  match rest with
  | [] => (Done, os, d)
  | _ =>
    match os with
    | [] => (Crashed, [], d)
    | Intr :: os' => write_loop cap p total rest os' d
    | Fail :: os' => (Failed, os', d)
    | Part n :: os' =>
      let k := min n (min cap (length rest)) in
      if k =? 0 then (Failed, os', d)
      else write_loop cap p (total + k) (skipn k rest) os' (set p (Some (write_at total (firstn k rest) (content p d))) d)
    end
  end.
(** [file::open] for writing (file.cpp:35-93): O_CREAT and O_WRONLY, without O_TRUNC. *)
Definition open_write (p : path) (d : fs) : fs := match d p with Some _ => d | None => set p (Some []) d end.
(** [io::write] (write.cpp:20-26). *)
Definition write (cap : nat) (p : path) (x : bytes) (os : list outcome) (d : fs) : ending * list outcome * fs :=
  match os with
  | [] => (Crashed, [], d)
  | Fail :: os' => (Failed, os', d)
  | _ :: os' => write_loop cap p 0 x os' (open_write p d)
  end.
(** [std::filesystem::remove]. *)
Definition remove (p : path) (os : list outcome) (d : fs) : ending * list outcome * fs :=
  match os with
  | [] => (Crashed, [], d)
  | Fail :: os' => (Failed, os', d)
  | _ :: os' => (Done, os', set p None d)
  end.
(** [tmp += ".tmp"] (save.cpp:26-27). *)
Definition tmp (p : path) : path := p ++ [46; 116; 109; 112]%N.
(** [io::save] (save.cpp:24-42). *)
Definition save (cap : nat) (p : path) (x : bytes) (os : list outcome) (d : fs) : ending * fs :=
  match write cap (tmp p) x os d with
  | (Crashed, _, d1) => (Crashed, d1)
  | (Failed, os1, d1) => match remove (tmp p) os1 d1 with (Crashed, _, d2) => (Crashed, d2) | (_, _, d2) => (Failed, d2) end
  | (Done, os1, d1) =>
    match os1 with
    | [] => (Crashed, d1)
    | Fail :: os2 => match remove (tmp p) os2 d1 with (Crashed, _, d2) => (Crashed, d2) | (_, _, d2) => (Failed, d2) end
    | _ :: _ => (Done, set (tmp p) None (set p (d1 (tmp p)) d1))
    end
  end.

(** [detail::read] (posix.cpp:363-384): [total] bytes were read. The number of bytes asked for is
    [want] more. *)
Fixpoint read_loop (cap : nat) (file : bytes) (want : nat) (acc : bytes) (os : list outcome) : ending * bytes :=
  match want with
  | 0 => (Done, acc)
  | _ =>
    match os with
    | [] => (Crashed, acc)
    | Intr :: os' => read_loop cap file want acc os'
    | Fail :: os' => (Failed, acc)
    | Part n :: os' =>
      let k := min n (min cap (min want (length file))) in
      if k =? 0 then (Done, acc) else read_loop cap (skipn k file) (want - k) (acc ++ firstn k file) os'
    end
  end.
(** [io::read] (read.cpp:21-48). The file is looked at twice, for its size and to read it; [d] and
    [d'] are the file system at these times. *)
Definition read (cap : nat) (p : path) (os : list outcome) (d d' : fs) : ending * bytes :=
  match os with
  | [] => (Crashed, [])
  | Fail :: _ => (Failed, [])
  | _ :: os1 =>
    match d p with
    | None => (Failed, [])
    | Some x =>
      match os1 with
      | [] => (Crashed, [])
      | Fail :: _ => (Failed, [])
      | _ :: os2 =>
        match d' p with
        | None => (Failed, [])
        | Some file =>
          match read_loop cap file (length x) [] os2 with
          | (Done, y) => if length y =? length x then (Done, y) else (Failed, [])
          | (e, _) => (e, [])
          end
        end
      end
    end
  end.

(** [file::seek] (file.cpp:127-135): [fine] is whether lseek(2) succeeds. [detail::seek]
    (posix.cpp:413-418) returns an error, which converts to [false] if there is none. The result and
    [seek_failed_]. *)
Definition seek_error (fine : bool) : bool := negb fine.
Definition seek (is_open seek_failed fine : bool) : bool * bool :=
  if negb is_open || seek_failed then (false, seek_failed)
  else if negb (seek_error fine) then (false, true)
  else (true, seek_failed).

(** * The actor *)

(** [filesystem_statistics::ops] (system/filesystem_statistics.hpp:21-25); overflow is left out. *)
Record ops := { successful : N; failed : N; bytes_ : N }.
Record state := { writes : ops; reads : ops; files : fs }.
Inductive request := Write (p : path) (x : bytes) | Read (p : path).
(** [++stats.bytes += size] (posix_filesystem.cpp:41, 51). *)
Definition succeeded (n : nat) (o : ops) : ops := {| successful := successful o + 1; failed := failed o; bytes_ := (bytes_ o + 1) + N.of_nat n |}%N.
Definition not_succeeded (o : ops) : ops := {| successful := successful o; failed := failed o + 1; bytes_ := bytes_ o |}%N.
(** The handlers for [atom::write] and [atom::read] (posix_filesystem.cpp:31-57). The answer is [None]
    if the process crashes. *)
Inductive answer := Ok | Bytes (x : bytes) | Error.
Definition handle (cap : nat) (r : request) (os : list outcome) (s : state) : option answer * state :=
  match r with
  | Write p x =>
    match save cap p x os (files s) with
    | (Done, d) => (Some Ok, {| writes := succeeded (length x) (writes s); reads := reads s; files := d |})
    | (Failed, d) => (Some Error, {| writes := not_succeeded (writes s); reads := reads s; files := d |})
    | (Crashed, d) => (None, {| writes := writes s; reads := reads s; files := d |})
    end
  | Read p =>
    match read cap p os (files s) (files s) with
    | (Done, x) => (Some (Bytes x), {| writes := writes s; reads := succeeded (length x) (reads s); files := files s |})
    | (Failed, _) => (Some Error, {| writes := writes s; reads := not_succeeded (reads s); files := files s |})
    | (Crashed, _) => (None, s)
    end
  end.
(** A history of requests; statistics do not survive a crash, files do. *)
Definition no_ops : ops := {| successful := 0; failed := 0; bytes_ := 0 |}.
Definition fresh (d : fs) : state := {| writes := no_ops; reads := no_ops; files := d |}.
Fixpoint run (cap : nat) (rs : list (request * list outcome)) (s : state) : list (option answer) * state :=
  match rs with
  | [] => ([], s)
  | (r, os) :: rs' =>
    let (a, s1) := handle cap r os s in
    let (l, s2) := run cap rs' (match a with None => fresh (files s1) | Some _ => s1 end) in
    (a :: l, s2)
  end.
