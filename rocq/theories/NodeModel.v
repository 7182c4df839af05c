(** Model of the components of a node: libvast/src/system/component_registry.cpp and, of
    libvast/src/system/node.cpp, the registration (100-117, 190-219), commands to spawn and kill
    (334-362, 465-569), the handler for ended components (587-599) and that for components of other
    processes (738-754).

    Left out: what happens after the node decides to end (601-676), the assertion that no actor is
    registered twice (component_registry.cpp:23-26, only with assertions), and the order of the hash
    map: entries are in the order in which they were added. Counters do not wrap. *)
From Coq Require Import List NArith Bool.
From Verif Require Import AddressModel LiteralModel.
Import ListNotations.
Open Scope N_scope.

(** A component (component_registry.hpp:32-35). *)
Record comp := { actor : N; kind : list N }.
(** [component_map] (component_registry.hpp:38). *)
Definition registry : Type := list (list N * comp).
(** [component_registry::find_by_label] (component_registry.cpp:68-73). *)
Fixpoint find_by_label (l : list N) (r : registry) : option comp :=
  match r with
  | [] => None
  | (k, c) :: r' => if bytes_eqb l k then Some c else find_by_label l r'
  end.
(** [component_registry::find_by_type] (component_registry.cpp:75-82). *)
Definition find_by_type (t : list N) (r : registry) : list N := map (fun e => actor (snd e)) (filter (fun e => bytes_eqb (kind (snd e)) t) r).
(** [component_registry::add] (component_registry.cpp:17-30): [emplace] keeps an entry that exists. *)
Definition add (l : list N) (c : comp) (r : registry) : option registry := match find_by_label l r with Some _ => None | None => Some (r ++ [(l, c)]) end.
(** [component_registry::remove] for a label (component_registry.cpp:32-40), after it was found. *)
Definition remove_label (l : list N) (r : registry) : registry := filter (fun e => negb (bytes_eqb l (fst e))) r.
(** [component_registry::remove] for an actor (component_registry.cpp:42-52): the first entry. *)
Fixpoint remove_actor (a : N) (r : registry) : option (comp * registry) :=
  match r with
  | [] => None
  | (k, c) :: r' => if actor c =? a then Some (c, r') else match remove_actor a r' with Some (d, r'') => Some (d, (k, c) :: r'') | None => None end
  end.
(** [std::any_of] (node.cpp:94-95, 116). *)
Definition member (t : list N) (l : list (list N)) : bool := existsb (bytes_eqb t) l.
(** [is_singleton] (node.cpp:100-117). *)
Definition singletons : list (list N) := [[97; 99; 99; 111; 117; 110; 116; 97; 110; 116]; [97; 114; 99; 104; 105; 118; 101]; [100; 105; 115; 107; 45; 109; 111; 110; 105; 116; 111; 114]; [101; 114; 97; 115; 101; 114]; [102; 105; 108; 101; 115; 121; 115; 116; 101; 109]; [105; 109; 112; 111; 114; 116; 101; 114]; [105; 110; 100; 101; 120]; [116; 121; 112; 101; 45; 114; 101; 103; 105; 115; 116; 114; 121]].
(** [core_components] (node.cpp:87-88). *)
Definition core : list (list N) := [[97; 114; 99; 104; 105; 118; 101]; [102; 105; 108; 101; 115; 121; 115; 116; 101; 109]; [105; 109; 112; 111; 114; 116; 101; 114]; [105; 110; 100; 101; 120]].

(** The node: components, counters for labels, components that are being spawned with their labels, and
    whether it runs, ends, or has used a value that does not exist. *)
Inductive status := Up | Ending | Broken.
Record node := { reg : registry; counters : list (list N * N); pending : list (list N * list N); stat : status }.
(** [label_counters] (node.cpp:468). *)
Fixpoint counter (t : list N) (l : list (list N * N)) : N :=
  match l with
  | [] => 0
  | (k, n) :: r => if bytes_eqb t k then n else counter t r
  end.
(** [generate_label] (node.cpp:465-470). *)
Definition generated (t : list N) (n : N) : list N := t ++ 45 :: digits n.
(** The counter behind a label (node.cpp:468). *)
Definition bump (t : list N) (s : node) : node := {| reg := reg s; counters := (t, counter t (counters s) + 1) :: counters s; pending := pending s; stat := stat s |}.
(** Messages: a component is asked for (node.cpp:472-510); one that was asked for is there, or failed
    (node.cpp:525-569, at once or after the taxonomies have come); a component of another process
    (738-754); one is killed (334-362); one has ended (587-599). *)
Inductive input := Ask (t : list N) (label : option (list N)) | Started (k : nat) (a : option N) | Put (a : N) (t : list N) | Kill (l : list N) | Down (a : N).
(** What the one who asked gets to know. *)
Inductive answer := Accepted (l : list N) | Registered (l : list N) (c : comp) | Removed (l : list N) | Gone | Refused.
(** [register_component] (node.cpp:191-203). *)
Definition register (l : list N) (c : comp) (s : node) : answer * node :=
  match add l c (reg s) with
  | Some r => (Registered l c, {| reg := r; counters := counters s; pending := pending s; stat := stat s |})
  | None => (Refused, s)
  end.
(** A component with its label goes to be spawned (node.cpp:511-569). *)
Definition wait (t l : list N) (s : node) : answer * node := (Accepted l, {| reg := reg s; counters := counters s; pending := pending s ++ [(t, l)]; stat := stat s |}).
(** The handlers; a node that ends takes no more messages here. *)
Definition step (i : input) (s : node) : answer * node :=
  match stat s with
  | Up =>
    match i with
    | Ask t (Some []) => (Refused, s)
    | Ask t (Some l) => match find_by_label l (reg s) with Some _ => (Refused, s) | None => wait t l s end
    | Ask t None => if member t singletons then wait t t s else wait t (generated t (counter t (counters s))) (bump t s)
    | Started k a =>
      match nth_error (pending s) k with
      | None => (Refused, s)
      | Some (t, l) =>
        let s1 := {| reg := reg s; counters := counters s; pending := firstn k (pending s) ++ skipn (S k) (pending s); stat := stat s |} in
        match a with Some a => register l {| actor := a; kind := t |} s1 | None => (Refused, s1) end
      end
    | Put a [] => (Refused, s)
    | Put a t => if member t singletons && match find_by_label t (reg s) with Some _ => true | None => false end then (Refused, s)
                 else register (generated t (counter t (counters s))) {| actor := a; kind := t |} (bump t s)
    | Kill l => match find_by_label l (reg s) with Some _ => (Removed l, {| reg := remove_label l (reg s); counters := counters s; pending := pending s; stat := stat s |}) | None => (Refused, s) end
    | Down a =>
      match remove_actor a (reg s) with
      | Some (c, r) => (Gone, {| reg := r; counters := counters s; pending := pending s; stat := if member (kind c) core then Ending else Up |})
      | None => (Gone, {| reg := reg s; counters := counters s; pending := pending s; stat := Broken |})
      end
    end
  | _ => (Refused, s)
  end.
(** A history, with the answers. *)
Fixpoint run (is : list input) (s : node) : list answer * node :=
  match is with
  | [] => ([], s)
  | i :: r => let (a, s1) := step i s in let (l, s2) := run r s1 in (a :: l, s2)
  end.
(** Construction (node.cpp:571-585): the file system, actor 0, is registered. *)
Definition fresh : node := {| reg := [([102; 105; 108; 101; 115; 121; 115; 116; 101; 109], {| actor := 0; kind := [102; 105; 108; 101; 115; 121; 115; 116; 101; 109] |})]; counters := []; pending := []; stat := Up |}.
