(** Model of records as ordered maps, and of how configuration files are combined:
    libvast/vast/detail/{stable_map,vector_map}.hpp, the functions [flatten] and [merge] of
    libvast/src/data.cpp, and libvast/src/system/configuration.cpp. Reading YAML and the conversion
    to the settings of CAF are left out. *)
From Coq Require Import List NArith Bool.
From Verif Require Import DataModel.
Import ListNotations.
Open Scope N_scope.

Definition name := list N.
Fixpoint name_eqb (x y : name) : bool :=
  match x, y with [], [] => true | a :: x', b :: y' => (a =? b) && name_eqb x' y' | _, _ => false end.
Definition fields := list (name * data).
(** [stable_map_policy::lookup] (stable_map.hpp:27-31). *)
Fixpoint find (k : name) (fs : fields) : option data :=
  match fs with [] => None | (k', v) :: r => if name_eqb k' k then Some v else find k r end.
(** [emplace] (stable_map.hpp:18-25, vector_map.hpp:139-142): a key that is there is left alone. *)
Definition emplace (k : name) (v : data) (fs : fields) : fields := match find k fs with Some _ => fs | None => fs ++ [(k, v)] end.
(** An assignment to [operator[]] (vector_map.hpp:190-196). *)
Fixpoint assign (k : name) (v : data) (fs : fields) : fields :=
  match fs with [] => [(k, v)] | (k', v') :: r => if name_eqb k' k then (k', v) :: r else (k', v') :: assign k v r end.

Definition is_record (v : data) : bool := match v with DRecord _ => true | _ => false end.
(** [--max_recursion], a [size_t]. *)
Definition dec (m : N) : N := if m =? 0 then 2 ^ 64 - 1 else m - 1.
(** [defaults::max_recursion] (defaults.hpp:28). *)
Definition max_recursion : N := 100.
Definition dot : N := 46.

(** [flatten(const record&, size_t)] (data.cpp:219-234), for the value of a field. *)
Fixpoint flatten_val (x : data) (m : N) : fields :=
  match x with
  | DRecord fs =>
      if m =? 0 then []
      else (fix loop (fs : fields) (m : N) (acc : fields) : fields :=
              match fs with
              | [] => acc
              | (k, v) :: r =>
                  match v with
                  | DRecord _ => loop r (dec m) (fold_left (fun acc x => emplace (k ++ dot :: fst x) (snd x) acc) (flatten_val v (dec m)) acc)
                  | _ => loop r m (emplace k v acc)
                  end
              end) fs m []
  | _ => []
  end.
Definition flatten (fs : fields) : fields := flatten_val (DRecord fs) max_recursion.

(** [merge] (data.cpp:297-335): what a value of the source makes of the value that is there. *)
Fixpoint merge_val (lists : bool) (v : data) (old : option data) (m : N) : data :=
  match v with
  | DRecord fs =>
      let base := match old with Some (DRecord g) => g | _ => [] end in
      if m =? 0 then DRecord base
      else DRecord ((fix loop (fs : fields) (dst : fields) (m : N) : fields :=
              match fs with
              | [] => dst
              | (k, w) :: r => let m' := if is_record w then dec m else m in loop r (assign k (merge_val lists w (find k dst) m') dst) m'
              end) fs base m)
  | DList ys =>
      if lists then match old with
                    | Some (DList xs) => DList (xs ++ ys)
                    | Some DNone | None => DList ys
                    | Some x => DList (x :: ys)
                    end
      else v
  | _ => v
  end.
(** [merge(src, dst, merge_lists)] (data.cpp:339-342). *)
Definition merge (lists : bool) (src dst : fields) : fields :=
  match merge_val lists (DRecord src) (Some (DRecord dst)) max_recursion with DRecord fs => fs | _ => [] end.

(** "caf.". *)
Definition caf_prefix : name := [99; 97; 102; 46].
Fixpoint starts_with (k p : name) : bool :=
  match p, k with [], _ => true | a :: p', b :: k' => (a =? b) && starts_with k' p' | _, [] => false end.
(** [configuration::parse] (configuration.cpp:172-214): the configuration files in order are merged
    and flattened, a prefix is removed, and null values are erased. *)
Definition strip_caf (k : name) : name := if starts_with k caf_prefix then skipn 4 k else k.
Definition config (files : list fields) : fields :=
  filter (fun x => match snd x with DNone => false | _ => true end)
    (map (fun x => (strip_caf (fst x), snd x)) (flatten (fold_left (fun acc f => merge true f acc) files []))).
