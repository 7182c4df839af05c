(** Model of the type registry: libvast/src/system/type_registry.cpp, with the loading of concepts
    and models from schema directories (libvast/src/taxonomies.cpp).

    Left out: the telemetry and status handlers (lines 31-68, 165-177, 248-255), descriptions of
    concepts and models, and the serialization of the known layouts by CAF, which is taken to give
    back what was saved. *)
From Coq Require Import List NArith Bool Arith.
From Verif Require Import OperatorModel AddressModel DataModel TypeModel ExpressionModel TaxonomyModel.
Import ListNotations.
Open Scope nat_scope.

(** * Known layouts *)

(** [type_registry_state::data] (type_registry.hpp:58): for every name the layouts seen under it.
    The order of the names in the [std::map] plays no role in what is modelled. *)
Definition known : Type := list (name * list ty).

(** [stable_set_policy::lookup] (detail/stable_set.hpp:31-33): the index of an element. *)
Fixpoint lookup (t : ty) (xs : list ty) : option nat :=
  match xs with
  | [] => None
  | x :: xs' => if ty_eqb x t then Some 0 else match lookup t xs' with Some i => Some (S i) | None => None end
  end.
(** [stable_set_policy::add] (detail/stable_set.hpp:21-28): the elements, the index of the element
    and whether it is new. *)
Definition add (t : ty) (xs : list ty) : list ty * nat * bool :=
  match lookup t xs with
  | None => (xs ++ [t], length xs, true)
  | Some i => (xs, i, false)
  end.
(** [std::rotate(begin, begin + i, begin + i + 1)] (type_registry.cpp:129). *)
Definition rotate (xs : list ty) (i : nat) : list ty :=
  match nth_error xs i with
  | Some x => x :: firstn i xs ++ skipn (S i) xs
  | None => xs
  end.
(** What [insert] writes to the log about a name (type_registry.cpp:117-125): the layout was
    changed, in a compatible way or not. *)
Inductive notice := Changed (n : name) | Incompatible (n : name).
(** [type_registry_state::insert] (type_registry.cpp:112-130). *)
Definition insert_bucket (t : ty) (xs : list ty) : list ty * list notice :=
  let '(ys, i, fresh) := add t xs in
  (rotate ys i,
   if fresh then
     if i =? 0 then []
     else match ys with
          | y :: _ => if negb (is_subset y t) then [Incompatible (ty_name t)] else [Changed (ty_name t)]
          | [] => []
          end
   else []).
Definition bucket (n : name) (k : known) : list ty := match find_key n k with Some xs => xs | None => [] end.
Definition insert (t : ty) (k : known) : known * list notice :=
  (update [] (ty_name t) (fun xs => fst (insert_bucket t xs)) k, snd (insert_bucket t (bucket (ty_name t) k))).

(** [type_registry_state::types] (type_registry.cpp:132-137). *)
Definition types (schema : list ty) : list ty := fold_left (fun acc t => fst (fst (add t acc))) schema [].

(** * Taxonomies *)

(** The keys "model" and "definition". *)
Definition k_model : name := [109; 111; 100; 101; 108]%N.
Definition k_definition : name := [100; 101; 102; 105; 110; 105; 116; 105; 111; 110]%N.
(** [convert] to a model (taxonomies.cpp:116-153). *)
Definition convert_model (d : data) (out : models_map) : option models_map :=
  match d with
  | DRecord xs =>
    match find_key k_name xs with
    | Some (DString n) =>
      match find_key n out with
      | Some _ => None
      | None => match strings_at k_definition xs with Some def => Some (out ++ [(n, def)]) | None => None end
      end
    | _ => None
    end
  | _ => None
  end.
(** [extract_models] (taxonomies.cpp:155-168). *)
Fixpoint extract_model_items (ds : list data) (out : models_map) : option models_map :=
  match ds with
  | [] => Some out
  | DRecord xs :: ds' =>
    match find_key k_model xs with
    | None => extract_model_items ds' out
    | Some d => match convert_model d out with Some out' => extract_model_items ds' out' | None => None end
    end
  | _ :: ds' => extract_model_items ds' out
  end.
(** The body of the loop over the files (type_registry.cpp:217-239); a file that is no list holds
    no definitions (taxonomies.cpp:91, 156). *)
Definition items (file : data) : list data := match file with DList ds => ds | _ => [] end.
Fixpoint load_files (files : list data) (cs : concepts_map) (ms : models_map) : option taxonomies :=
  match files with
  | [] => Some {| t_concepts := cs; t_models := ms |}
  | f :: files' =>
    match extract_items (items f) cs with
    | None => None
    | Some cs' => match extract_model_items (items f) ms with
                  | None => None
                  | Some ms' => load_files files' cs' ms'
                  end
    end
  end.

(** * The actor *)

(** [type_registry_state] (type_registry.hpp:56-61). *)
Record registry := { r_data : known; r_schema : list ty; r_taxonomies : taxonomies }.
(** The file with the known layouts, and the registry if it runs. *)
Record world := { w_disk : option known; w_registry : option registry }.
(** What happens to a registry. *)
Inductive event :=
(** The node starts with a schema; whether an existing file could be read (type_registry.cpp:140-162). *)
| Start (schema : list ty) (readable : bool)
(** A table slice with a layout arrives (type_registry.cpp:186). *)
| Slice (layout : ty)
(** [atom::put] (type_registry.cpp:193-196). *)
| Put (t : taxonomies)
(** [atom::load] (type_registry.cpp:201-244). The YAML files of all schema directories, in the order
    in which they are visited; [None] if one of them cannot be read. *)
| Load (files : option (list data))
(** The node stops; whether the file could be written (type_registry.cpp:145-153; io/save.cpp:24-42
    replaces the file as a whole). *)
| Stop (written : bool)
(** The process ends without an orderly shutdown. *)
| Crash.
(** What is seen from outside: log messages and answers to [atom::load]. *)
Inductive output := Notice (n : notice) | Answer (ok : bool).

Definition no_taxonomies : taxonomies := {| t_concepts := []; t_models := [] |}.
Definition running (w : world) (f : registry -> registry * list output) : world * list output :=
  match w_registry w with
  | None => (w, [])
  | Some r => let (r', o) := f r in ({| w_disk := w_disk w; w_registry := Some r' |}, o)
  end.
(** [type_registry] (type_registry.cpp:139-257) for one event. *)
Definition step (w : world) (e : event) : world * list output :=
  match e with
  | Start schema readable =>
    match w_registry w with
    | Some _ => (w, [])
    | None =>
      match w_disk w with
      | Some k => if readable
                  then ({| w_disk := w_disk w; w_registry := Some {| r_data := k; r_schema := schema; r_taxonomies := no_taxonomies |} |}, [])
                  else (w, [])
      | None => ({| w_disk := None; w_registry := Some {| r_data := []; r_schema := schema; r_taxonomies := no_taxonomies |} |}, [])
      end
    end
  | Slice t => running w (fun r => ({| r_data := fst (insert t (r_data r)); r_schema := r_schema r; r_taxonomies := r_taxonomies r |},
                                    map Notice (snd (insert t (r_data r)))))
  | Put t => running w (fun r => ({| r_data := r_data r; r_schema := r_schema r; r_taxonomies := t |}, []))
  | Load files => running w (fun r =>
      match files with
      | None => (r, [Answer false])
      | Some fs => match load_files fs [] [] with
                   | None => (r, [Answer false])
                   | Some t => ({| r_data := r_data r; r_schema := r_schema r; r_taxonomies := t |}, [Answer true])
                   end
      end)
  | Stop written =>
    match w_registry w with
    | None => (w, [])
    | Some r => ({| w_disk := if written then Some (r_data r) else w_disk w; w_registry := None |}, [])
    end
  | Crash => ({| w_disk := w_disk w; w_registry := None |}, [])
  end.
Fixpoint run (w : world) (es : list event) : world :=
  match es with
  | [] => w
  | e :: es' => run (fst (step w e)) es'
  end.
Definition fresh_world : world := {| w_disk := None; w_registry := None |}.
Definition after (es : list event) : world := run fresh_world es.

(** The handlers for [atom::get], [atom::get, atom::taxonomies] and [atom::resolve]
    (type_registry.cpp:189-192, 197-200, 245-247). *)
Definition get (r : registry) : list ty := types (r_schema r).
Definition get_taxonomies (r : registry) : taxonomies := r_taxonomies r.
Definition resolve_query (r : registry) (fuel : nat) (e : expr) : outcome := resolve (r_taxonomies r) (Some (r_data r)) fuel e.
