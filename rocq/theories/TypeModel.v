(** Model of types: libvast/vast/type.hpp and libvast/src/type.cpp.

    A [type] is a pointer to an immutable concrete type or null. Reference counts
    and copy-on-write are invisible and left out; a type is a tree. *)
From Coq Require Import List ZArith NArith Bool Arith.
From Verif Require Import OperatorModel AddressModel DataModel.
Import ListNotations.
Open Scope nat_scope.

(** [abstract_type::name_] and [attributes_] (type.hpp:253-254, attribute.hpp:20-34). *)
Record meta := { m_name : list N; m_attrs : list (list N * option (list N)) }.
Definition no_meta : meta := {| m_name := []; m_attrs := [] |}.

(** The basic types (type.hpp:479-514). *)
Inductive basic :=
| BBool | BInteger | BCount | BReal | BDuration | BTime | BString | BPattern | BAddress | BSubnet.

(** [concrete_types] (type.hpp:46-68) and the null pointer of a default [type]. *)
Inductive ty :=
| TNull
| TNone (m : meta)
| TBasic (m : meta) (b : basic)
| TEnum (m : meta) (fields : list (list N))
| TList (m : meta) (v : ty)
| TMap (m : meta) (k v : ty)
| TRecord (m : meta) (fields : list (list N * ty))
| TAlias (m : meta) (v : ty).

Notation field := (list N * ty)%type.
Notation offset := (list nat) (only parsing).

(** [type::name], [type::attributes] (type.cpp:107-116). *)
Definition ty_meta (t : ty) : meta :=
  match t with
  | TNull => no_meta
  | TNone m | TBasic m _ | TEnum m _ | TList m _ | TMap m _ _ | TRecord m _ | TAlias m _ => m
  end.
Definition ty_name (t : ty) : list N := m_name (ty_meta t).

(** Equality of optional attribute values and of attributes (attribute.cpp:24-26). *)
Definition opt_eqb (x y : option (list N)) : bool :=
  match x, y with Some a, Some b => bytes_eqb a b | None, None => true | _, _ => false end.
Definition attr_eqb (x y : list N * option (list N)) : bool := bytes_eqb (fst x) (fst y) && opt_eqb (snd x) (snd y).
Definition meta_eqb (x y : meta) : bool := bytes_eqb (m_name x) (m_name y) && eqs attr_eqb (m_attrs x) (m_attrs y).
(** [typeid] of the basic types. *)
Definition basic_eqb (x y : basic) : bool :=
  match x, y with
  | BBool, BBool | BInteger, BInteger | BCount, BCount | BReal, BReal | BDuration, BDuration
  | BTime, BTime | BString, BString | BPattern, BPattern | BAddress, BAddress | BSubnet, BSubnet => true
  | _, _ => false
  end.

(** [operator==] of [type] (type.cpp:43-49): a null pointer equals only a null
    pointer, otherwise [equals] (type.cpp:143-146, type.hpp:454-457, 532-534,
    577-580; type.cpp:419-421) compares [typeid], name, attributes and parts. *)
Fixpoint ty_eqb (x y : ty) {struct x} : bool :=
  match x, y with
  | TNull, TNull => true
  | TNone m, TNone n => meta_eqb m n
  | TBasic m a, TBasic n b => meta_eqb m n && basic_eqb a b
  | TEnum m a, TEnum n b => meta_eqb m n && eqs bytes_eqb a b
  | TList m a, TList n b => meta_eqb m n && ty_eqb a b
  | TMap m a b, TMap n c d => meta_eqb m n && ty_eqb a c && ty_eqb b d
  | TRecord m a, TRecord n b =>
      meta_eqb m n && eqs (fun p q => bytes_eqb (fst p) (fst q) && ty_eqb (snd p) (snd q)) a b
  | TAlias m a, TAlias n b => meta_eqb m n && ty_eqb a b
  | _, _ => false
  end.

(** [get_if<record_type>]: aliases are not looked through. *)
Definition as_record (t : ty) : option (list field) := match t with TRecord _ fs => Some fs | _ => None end.

(** * Iteration over the leaves of a record *)

(** One level of [records_], [trace] and [offset] (type.hpp:621-646): the fields of
    a record and the position of the current field. *)
Notation frame := (list field * nat)%type.

(** The descent of [each::each] and [each::next] into records below a type
    (type.cpp:210-215, 229-234), outermost level first. [fields[0]] of a record
    without fields is read out of bounds: [None]. *)
Fixpoint descend (t : ty) : option (list frame) :=
  match t with
  | TRecord _ fs =>
      match fs with
      | [] => None
      | (_, t') :: _ => match descend t' with None => None | Some l => Some ((fs, 0) :: l) end
      end
  | _ => Some []
  end.

(** [each::each] (type.cpp:206-216); levels innermost first, none for an empty record. *)
Definition each_begin (fs : list field) : option (list frame) :=
  match fs with
  | [] => Some []
  | _ => option_map (@rev frame) (descend (TRecord no_meta fs))
  end.

(** [each::next] (type.cpp:218-235). *)
Fixpoint each_next (st : list frame) : option (list frame) :=
  match st with
  | [] => None
  | (fs, i) :: rest =>
      match nth_error fs (S i) with
      | None => match rest with [] => Some [] | _ => each_next rest end
      | Some (_, t) => match descend t with None => None | Some l => Some (rev l ++ (fs, S i) :: rest) end
      end
  end.

(** The dot (ASCII). *)
Definition dot : N := 46%N.
(** [detail::join] with separator ['.']. *)
Fixpoint join (xs : list (list N)) : list N :=
  match xs with [] => [] | [x] => x | x :: xs' => x ++ dot :: join xs' end.

(** What the iteration yields: [offset], [key()] and [type()] (type.cpp:193-200). *)
Record leaf := { l_offset : list nat; l_key : list N; l_type : ty }.
Definition frame_field (f : frame) : field := nth (snd f) (fst f) ([], TNull).
Definition each_get (st : list frame) : leaf :=
  {| l_offset := map snd (rev st);
     l_key := join (map (fun f => fst (frame_field f)) (rev st));
     l_type := match st with [] => TNull | f :: _ => snd (frame_field f) end |}.

(** A loop [for (auto& i : record_type::each{r})]: every step yields one leaf. The
    fuel bounds the number of steps; [None] is undefined behaviour or no fuel left. *)
Fixpoint each_run (fuel : nat) (st : list frame) : option (list leaf) :=
  match st, fuel with
  | [], _ => Some []
  | _, O => None
  | _, S n =>
      match each_next st with
      | None => None
      | Some st' => option_map (cons (each_get st)) (each_run n st')
      end
  end.

(** * Sizes, flattening and offsets *)

(** [flat_size] (type.cpp:628-638). *)
Fixpoint flat_size (t : ty) : nat :=
  match t with
  | TRecord _ fs => list_sum (map (fun f => flat_size (snd f)) fs)
  | _ => 1
  end.

(** [record_type::num_leaves] (type.cpp:245-259) looks through one alias. *)
Fixpoint num_leaves (t : ty) : nat :=
  match t with
  | TRecord _ fs => list_sum (map (fun f => num_leaves (snd f)) fs)
  | TAlias _ (TRecord _ fs) => list_sum (map (fun f => num_leaves (snd f)) fs)
  | _ => 1
  end.

(** [flatten(const record_type&)] (type.cpp:593-606): the new fields. *)
Fixpoint flatten_field (f : list N) (t : ty) : list field :=
  match t with
  | TRecord _ fs => map (fun g => (f ++ dot :: fst g, snd g)) (flat_map (fun g => flatten_field (fst g) (snd g)) fs)
  | _ => [(f, t)]
  end.
Definition flatten_fields (fs : list field) : list field := flat_map (fun g => flatten_field (fst g) (snd g)) fs.
(** [flatten] on types (type.cpp:608-611). *)
Definition flatten (t : ty) : ty :=
  match t with TRecord m fs => TRecord m (flatten_fields fs) | _ => t end.
(** [is_flat] (type.cpp:613-624). *)
Definition is_flat (t : ty) : bool :=
  match t with
  | TRecord _ fs => forallb (fun f => match snd f with TRecord _ _ => false | _ => true end) fs
  | _ => true
  end.

(** [record_type::at(const offset&)] (type.cpp:376-389). *)
Fixpoint at_offset (fs : list field) (o : list nat) : option field :=
  match o with
  | [] => None
  | [i] => nth_error fs i
  | i :: o' =>
      match nth_error fs i with
      | Some (_, TRecord _ gs) => at_offset gs o'
      | _ => None
      end
  end.

(** [record_type::resolve(const offset&)] (type.cpp:291-309): a dot goes before every
    name unless the text so far is empty. *)
Fixpoint resolve_from (acc : list N) (fs : list field) (o : list nat) : option (list N) :=
  match o with
  | [] => None
  | i :: o' =>
      match nth_error fs i with
      | None => None
      | Some (n, t) =>
          let acc' := match acc with [] => n | _ => acc ++ dot :: n end in
          match o' with
          | [] => Some acc'
          | _ => match t with TRecord _ gs => resolve_from acc' gs o' | _ => None end
          end
      end
  end.
Definition resolve_offset (fs : list field) (o : list nat) : option (list N) := resolve_from [] fs o.

(** [record_type::flat_index_at] (type.cpp:446-475). *)
Fixpoint flat_index_at (fs : list field) (o : list nat) : option nat :=
  match o with
  | [] => None
  | i :: o' =>
      match nth_error fs i with
      | None => None
      | Some (_, t) =>
          let left := list_sum (map (fun f => flat_size (snd f)) (firstn i fs)) in
          match o', t with
          | [], TRecord _ _ => None
          | [], _ => Some left
          | _, TRecord _ gs => option_map (fun k => left + k) (flat_index_at gs o')
          | _, _ => None
          end
      end
  end.

(** [record_type::offset_from_index] (type.cpp:477-488): [i] increments of the
    iterator, checking for the end before each. The outer option is undefined behaviour. *)
Fixpoint advance (i : nat) (st : list frame) : option (list frame) :=
  match i, st with
  | O, _ => Some st
  | S _, [] => Some []
  | S i', _ => match each_next st with None => None | Some st' => advance i' st' end
  end.
Definition offset_from_index (fs : list field) (i : nat) : option (option (list nat)) :=
  match each_begin fs with
  | None => None
  | Some st => match advance i st with
               | None => None
               | Some [] => Some None
               | Some st' => Some (Some (l_offset (each_get st')))
               end
  end.

(** [record_type::flat_field_at] (type.cpp:427-444): the name of every field on the
    path is followed by a dot. The outer option is an access out of bounds. *)
Fixpoint flat_field_at (fs : list field) (o : list nat) : option (option field) :=
  match o with
  | [] => None
  | i :: o' =>
      match nth_error fs i with
      | None => None
      | Some (n, t) =>
          match o' with
          | [] => Some (Some (n ++ [dot], t))
          | _ => match t with
                 | TRecord _ gs =>
                     option_map (option_map (fun r => (n ++ dot :: fst r, snd r))) (flat_field_at gs o')
                 | _ => Some None
                 end
          end
      end
  end.

(** [record_type::resolve(std::string_view)] (type.cpp:261-289). [std::mismatch]
    stops at the end of the name; reading past the end of the key is [None]. *)
Inductive mismatch := mm_prefix (rest : list N) | mm_no | mm_oob.
Fixpoint mismatch_name (name key : list N) : mismatch :=
  match name, key with
  | [], _ => mm_prefix key
  | _ :: _, [] => mm_oob
  | a :: name', b :: key' => if (a =? b)%N then mismatch_name name' key' else mm_no
  end.
Section ResolveKey.
  (** [rec] resolves in a nested record. *)
  Variable rec : ty -> list N -> option (option (list nat)).
  Fixpoint resolve_fields (fs : list field) (i : nat) (key : list N) : option (option (list nat)) :=
    match fs with
    | [] => Some None
    | (name, t) :: fs' =>
        match mismatch_name name key with
        | mm_oob => None
        | mm_no => resolve_fields fs' (S i) key
        | mm_prefix [] => Some (Some [i])
        | mm_prefix (_ :: remainder) =>
            match t with
            | TRecord _ _ => option_map (option_map (cons i)) (rec t remainder)
            | _ => Some None
            end
        end
    end.
End ResolveKey.
Fixpoint resolve_key (t : ty) (key : list N) {struct t} : option (option (list nat)) :=
  match t with
  | TRecord _ fs => match key with [] => Some None | _ => resolve_fields resolve_key fs 0 key end
  | _ => Some None
  end.

(** [offset_map] (type.cpp:319-353): every field with the dotted path of names. *)
Section OffsetMap.
  Variable rec : list nat -> list N -> ty -> list (list nat * list N).
  Fixpoint map_fields (off : list nat) (trace : list N) (fs : list field) (i : nat) : list (list nat * list N) :=
    match fs with
    | [] => []
    | (n, t) :: fs' =>
        let o := off ++ [i] in let tr := trace ++ dot :: n in
        (o, tr) :: rec o tr t ++ map_fields off trace fs' (S i)
    end.
End OffsetMap.
Fixpoint offset_map_from (off : list nat) (trace : list N) (t : ty) {struct t} : list (list nat * list N) :=
  match t with
  | TRecord _ fs => map_fields offset_map_from off trace fs 0
  | _ => []
  end.
Definition offset_map (t : ty) : list (list nat * list N) := offset_map_from [] (ty_name t) t.

(** [record_type::find_suffix] (type.cpp:357-365). [glob_suffix key name] is the
    regular expression match [".*\\." + glob(key) + "$"], left abstract. *)
Definition find_suffix (glob_suffix : list N -> list N -> bool) (t : ty) (key : list N) : list (list nat) :=
  map fst (filter (fun p => bytes_eqb key (snd p) || glob_suffix key (snd p)) (offset_map t)).

(** * Congruence *)

(** [visit] through [alias_type] (type.cpp:669-677). *)
Fixpoint strip (t : ty) : ty := match t with TAlias _ v => strip v | _ => t end.

(** [congruent(const type&, const type&)] (type.cpp:662-709). Aliases are stripped on
    both sides at every level; a null type visits as [none_type] (type.cpp:122-124). *)
Fixpoint congruent (x y : ty) {struct x} : bool :=
  match x with
  | TAlias _ v => congruent v y
  | TNull | TNone _ => match strip y with TNull | TNone _ => true | _ => false end
  | TBasic _ a => match strip y with TBasic _ b => basic_eqb a b | _ => false end
  | TEnum _ a => match strip y with TEnum _ b => Nat.eqb (length a) (length b) | _ => false end
  | TList _ a => match strip y with TList _ b => congruent a b | _ => false end
  | TMap _ a b => match strip y with TMap _ c d => congruent a c && congruent b d | _ => false end
  | TRecord _ a => match strip y with TRecord _ b => eqs (fun p q => congruent (snd p) (snd q)) a b | _ => false end
  end.

(** [congruent(const type&, const data&)] (type.cpp:711-789). *)
Fixpoint congruent_data (t : ty) (d : data) {struct t} : bool :=
  match t with
  | TAlias _ v => congruent_data v d
  | TNull | TNone _ => match d with DNone => true | _ => false end
  | TBasic _ b =>
      match b, d with
      | BBool, DBool _ | BInteger, DInt _ | BCount, DCount _ | BReal, DReal _ | BDuration, DDuration _
      | BTime, DTime _ | BString, DString _ | BPattern, DPattern _ | BAddress, DAddress _
      | BSubnet, DSubnet _ => true
      | _, _ => false
      end
  | TEnum _ fs => match d with DString s => existsb (bytes_eqb s) fs | _ => false end
  | TList _ _ => match d with DList _ => true | _ => false end
  | TMap _ _ _ => match d with DMap _ => true | _ => false end
  | TRecord _ fs =>
      match d with
      | DList xs => (fix go (fs : list field) (xs : list data) {struct fs} : bool :=
                       match fs, xs with
                       | [], [] => true
                       | (_, t') :: fs', x :: xs' => congruent_data t' x && go fs' xs'
                       | _, _ => false
                       end) fs xs
      | _ => false
      end
  end.

(** [is_container] of types (type.cpp:653-655): lists and maps. *)
Definition ty_is_container (t : ty) : bool := match t with TList _ _ | TMap _ _ _ => true | _ => false end.
(** [is_container] of data (data.cpp:151-158). *)
Definition data_is_container (d : data) : bool := match d with DList _ | DMap _ | DRecord _ => true | _ => false end.
Definition is_string_type (t : ty) : bool := match t with TBasic _ BString => true | _ => false end.
Definition is_pattern_type (t : ty) : bool := match t with TBasic _ BPattern => true | _ => false end.
Definition is_address_type (t : ty) : bool := match t with TBasic _ BAddress => true | _ => false end.
Definition is_subnet_type (t : ty) : bool := match t with TBasic _ BSubnet => true | _ => false end.

(** [compatible(const type&, op, const data&)] (type.cpp:849-888). *)
Definition compatible (lhs : ty) (op : relop) (rhs : data) : bool :=
  let string_and_pattern :=
    (is_string_type lhs && match rhs with DPattern _ => true | _ => false end)
    || (is_pattern_type lhs && match rhs with DString _ => true | _ => false end) in
  match op with
  | op_match | op_not_match => string_and_pattern
  | op_eq | op_ne =>
      match lhs with TNull => true | _ => false end
      || match rhs with DNone => true | _ => false end
      || string_and_pattern || congruent_data lhs rhs
  | op_lt | op_le | op_gt | op_ge => congruent_data lhs rhs
  | op_in | op_not_in =>
      if is_string_type lhs
      then match rhs with DString _ => true | _ => data_is_container rhs end
      else if is_address_type lhs || is_subnet_type lhs
           then match rhs with DSubnet _ => true | _ => data_is_container rhs end
           else data_is_container rhs
  | op_ni | op_not_ni =>
      match rhs with
      | DString _ => is_string_type lhs || ty_is_container lhs
      | DAddress _ | DSubnet _ => is_subnet_type lhs || ty_is_container lhs
      | _ => ty_is_container lhs
      end
  end.

(** * Operations on records *)

(** [record_type::find] (type.cpp:311-315). *)
Fixpoint find_field (name : list N) (fs : list field) : option ty :=
  match fs with
  | [] => None
  | (n, t) :: fs' => if bytes_eqb n name then Some t else find_field name fs'
  end.

(** [is_subset] (type.cpp:894-914). *)
Fixpoint is_subset (x y : ty) {struct x} : bool :=
  match x, y with
  | TRecord _ fs, TRecord _ gs =>
      forallb (fun f => match find_field (fst f) gs with Some t => is_subset (snd f) t | None => false end) fs
  | _, _ => congruent x y
  end.

(** [remove_field(const record_type&, offset)] (type.cpp:566-591). *)
Fixpoint remove_at (fs : list field) (o : list nat) {struct o} : option (list field) :=
  match o with
  | [] => None
  | i :: o' =>
      match nth_error fs i with
      | None => None
      | Some (n, t) =>
          match o' with
          | [] => Some (firstn i fs ++ skipn (S i) fs)
          | _ => match t with
                 | TRecord m gs =>
                     match remove_at gs o' with
                     | None => None
                     | Some [] => Some (firstn i fs ++ skipn (S i) fs)
                     | Some gs' => Some (firstn i fs ++ (n, TRecord m gs') :: skipn (S i) fs)
                     end
                 | _ => None
                 end
          end
      end
  end.

(** [remove_field(const record_type&, path)] (type.cpp:541-564). The path is shortened
    when its first name is met and the loop goes on with the shortened path. *)
Section RemovePath.
  (** [rec] removes a path from the fields of a nested record. *)
  Variable rec : ty -> list (list N) -> option ty.
  Fixpoint remove_loop (fs : list field) (path : list (list N)) : option (list field) :=
    match fs with
    | [] => Some []
    | (n, t) :: fs' =>
        match path with
        | [] => None
        | p :: rest =>
            if bytes_eqb n p
            then match rest with
                 | [] => remove_loop fs' path
                 | _ => match t with
                        | TRecord _ _ =>
                            match rec t rest with
                            | None => None
                            | Some (TRecord _ []) => remove_loop fs' rest
                            | Some t' => option_map (cons (n, t')) (remove_loop fs' rest)
                            end
                        | _ => None
                        end
                 end
            else option_map (cons (n, t)) (remove_loop fs' path)
        end
    end.
End RemovePath.
Fixpoint remove_path (t : ty) (path : list (list N)) {struct t} : option ty :=
  match t with
  | TRecord m fs => option_map (TRecord m) (remove_loop remove_path fs path)
  | _ => None
  end.

(** [merge_policy] (type.hpp:776). *)
Inductive policy := prefer_left | prefer_right.
(** [update_attributes] (type.hpp:295-306). *)
Fixpoint update_attr (attrs : list (list N * option (list N))) (x : list N * option (list N)) :=
  match attrs with
  | [] => [x]
  | a :: rest => if bytes_eqb (fst a) (fst x) then (fst a, snd x) :: rest else a :: update_attr rest x
  end.
Definition update_attrs (attrs xs : list (list N * option (list N))) := fold_left update_attr xs attrs.

(** Replace the type of the first field of that name among the first [n] fields. *)
Fixpoint set_field (name : list N) (t : ty) (fs : list field) : list field :=
  match fs with
  | [] => []
  | (n, u) :: fs' => if bytes_eqb n name then (n, t) :: fs' else (n, u) :: set_field name t fs'
  end.

Section Merge.
  (** [rec] merges two records that stand under the same name. *)
  Variable rec : ty -> ty -> option ty.
  (** What happens to a field of two different types, [None] for an error. *)
  Variable clash : ty -> ty -> option ty.
  (** The loop over the right fields (type.cpp:499-521, 534-552). Only the first
      [length lhs] fields of the result are searched; they keep their names. *)
  Fixpoint merge_loop (gs : list field) (left added : list field) : option (list field) :=
    match gs with
    | [] => Some (left ++ added)
    | (n, t) :: gs' =>
        match find_field n left with
        | None => merge_loop gs' left (added ++ [(n, t)])
        | Some u =>
            if ty_eqb u t then merge_loop gs' left added
            else match (match u, t with
                        | TRecord _ _, TRecord _ _ => rec t u
                        | _, _ => clash u t
                        end) with
                 | None => None
                 | Some v => merge_loop gs' (set_field n v left) added
                 end
        end
    end.
End Merge.
(** [merge] (type.cpp:490-523); the second argument is the left record, so that the
    recursion follows the fields of the right one. The name is cleared. *)
Fixpoint merge_into (rhs lhs : ty) {struct rhs} : option ty :=
  match rhs, lhs with
  | TRecord _ gs, TRecord m fs =>
      option_map (TRecord {| m_name := []; m_attrs := m_attrs m |})
        (merge_loop merge_into (fun _ _ => None) gs fs [])
  | _, _ => None
  end.
Definition merge (lhs rhs : ty) : option ty := merge_into rhs lhs.
(** [priority_merge] (type.cpp:525-560). *)
Fixpoint priority_merge_into (p : policy) (rhs lhs : ty) {struct rhs} : option ty :=
  match rhs, lhs with
  | TRecord n gs, TRecord m fs =>
      let attrs := match p with
                   | prefer_left => update_attrs (m_attrs n) (m_attrs m)
                   | prefer_right => update_attrs (m_attrs m) (m_attrs n)
                   end in
      option_map (TRecord {| m_name := []; m_attrs := attrs |})
        (merge_loop (priority_merge_into p) (fun u t => Some (match p with prefer_left => u | prefer_right => t end)) gs fs [])
  | _, _ => None
  end.
Definition priority_merge (lhs rhs : ty) (p : policy) : option ty := priority_merge_into p rhs lhs.

(** [record_type::assign] (type.cpp:393-417): computes the update and then returns a
    copy of the original, because the result of [priority_merge] is discarded. An
    empty offset makes [o.size() - 1] wrap around: [None]. Errors are [Some None]. *)
Fixpoint path_records (fs : list field) (o : list nat) : bool :=
  match o with
  | [] => true
  | i :: o' => match nth_error fs i with Some (_, TRecord _ gs) => path_records gs o' | _ => false end
  end.
Definition assign (m : meta) (fs : list field) (o : list nat) (f : field) : option (option ty) :=
  match o with
  | [] => None
  | _ => Some (if path_records fs (removelast o) then Some (TRecord m fs) else None)
  end.

(** * Type checks *)

(** [type_check] (type.cpp:918-965): only the first element of lists and maps is checked. *)
Fixpoint type_check (t : ty) (d : data) {struct t} : bool :=
  match d with
  | DNone => true
  | _ =>
    match t with
    | TNull | TNone _ => true
    | TBasic _ b =>
        match b, d with
        | BBool, DBool _ | BInteger, DInt _ | BCount, DCount _ | BReal, DReal _ | BDuration, DDuration _
        | BTime, DTime _ | BString, DString _ | BPattern, DPattern _ | BAddress, DAddress _
        | BSubnet, DSubnet _ => true
        | _, _ => false
        end
    | TEnum _ fs => match d with DEnum e => (e <? N.of_nat (length fs))%N | _ => false end
    | TList _ v => match d with DList [] => true | DList (x :: _) => type_check v x | _ => false end
    | TMap _ k v => match d with DMap [] => true | DMap ((a, b) :: _) => type_check k a && type_check v b | _ => false end
    | TRecord _ fs =>
        match d with
        | DRecord xs => (fix go (fs : list field) (xs : list (list N * data)) {struct fs} : bool :=
                           match fs, xs with
                           | [], [] => true
                           | (n, t') :: fs', (k, x) :: xs' => bytes_eqb n k && type_check t' x && go fs' xs'
                           | _, _ => false
                           end) fs xs
        | _ => false
        end
    | TAlias _ v => type_check v d
    end
  end.
