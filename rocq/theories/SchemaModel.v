(** Model of schemas: how definitions of types are read from text
    (libvast/vast/concept/parseable/vast/schema.hpp), how the symbols in them are resolved (the
    same file), how schemas are written (libvast/vast/concept/printable/vast/schema.hpp), and
    the operations on schemas and directories of them (libvast/src/schema.cpp). *)
From Coq Require Import String Ascii List ZArith NArith Bool Arith.
From Coq Require Import Init.Datatypes.
From Verif Require Import OperatorModel EscapeModel AddressModel DataModel TypeModel ExpressionModel LiteralModel SyntaxModel.
Import ListNotations.
Open Scope N_scope.

(** A result, an error that is reported, or a failed assertion. *)
Inductive out (A : Type) := Done (a : A) | Fail | Abort.
Arguments Done {A}. Arguments Fail {A}. Arguments Abort {A}.
Definition andthen {A B} (x : out A) (f : A -> out B) : out B := match x with Done a => f a | Fail => Fail | Abort => Abort end.

(** ** Schemas *)

(** [schema::find] (schema.cpp:71-83). *)
Fixpoint schema_find (name : text) (s : list ty) : option ty :=
  match s with [] => None | t :: r => if bytes_eqb (ty_name t) name then Some t else schema_find name r end.
(** [schema::add] (schema.cpp:63-69). *)
Definition schema_add (t : ty) (s : list ty) : option (list ty) :=
  match t with
  | TNull | TNone _ => None
  | _ => match ty_name t with
         | [] => None
         | n => match schema_find n s with Some _ => None | None => Some (s ++ [t]) end
         end
  end.
(** [schema::merge] (schema.cpp:34-50). *)
Fixpoint merge_loop (s2 : list ty) (s1 result : list ty) : option (list ty) :=
  match s1 with
  | [] => Some result
  | t :: r => match schema_find (ty_name t) s2 with
              | Some u => if negb (ty_eqb t u) && bytes_eqb (ty_name t) (ty_name u) then None else merge_loop s2 r result
              | None => merge_loop s2 r (result ++ [t])
              end
  end.
Definition schema_merge (s1 s2 : list ty) : option (list ty) := merge_loop s2 s1 s2.
(** The assignment through the pointer that [find] returns (schema.cpp:56). *)
Fixpoint schema_set (name : text) (t : ty) (s : list ty) : list ty :=
  match s with [] => [] | u :: r => if bytes_eqb (ty_name u) name then t :: r else u :: schema_set name t r end.
(** [schema::combine] (schema.cpp:52-61). *)
Definition combine_step (result : list ty) (t : ty) : list ty :=
  match schema_find (ty_name t) result with
  | Some _ => schema_set (ty_name t) t result
  | None => match schema_add t result with Some r => r | None => result end
  end.
Definition schema_combine (s1 s2 : list ty) : list ty := fold_left combine_step s2 s1.

(** ** Resolution of symbols *)

(** [symbol_map] (parseable/vast/schema.hpp:24): a hash table. The list has the entries in the
    order of the table; [erase] does not change the order of the others. *)
Definition symbols := list (text * ty).
Fixpoint assoc (k : text) (m : symbols) : option ty :=
  match m with [] => None | (k', t) :: r => if bytes_eqb k' k then Some t else assoc k r end.
Fixpoint erase (k : text) (m : symbols) : symbols :=
  match m with [] => [] | (k', t) :: r => if bytes_eqb k' k then r else (k', t) :: erase k r end.

(** The state of a [symbol_resolver] (schema.hpp:182-187). *)
Record resolver := { r_local : symbols; r_resolved : symbols; r_schema : list ty }.

(** [type::name] as a setter (type.cpp:54-63). *)
Definition with_name (t : ty) (x : text) : ty :=
  let up m := {| m_name := x; m_attrs := m_attrs m |} in
  match t with
  | TNull => TNull
  | TNone m => TNone (up m)
  | TBasic m b => TBasic (up m) b
  | TEnum m fs => TEnum (up m) fs
  | TList m v => TList (up m) v
  | TMap m k v => TMap (up m) k v
  | TRecord m fs => TRecord (up m) fs
  | TAlias m v => TAlias (up m) v
  end.
Definition algebra_key : text := chars "$algebra".
(** [has_attribute] (type.hpp:947-964). *)
Definition has_attribute (m : meta) (k : text) : bool := existsb (fun a => bytes_eqb (fst a) k) (m_attrs m).

(** The loop over the operators of a type expression (schema.hpp:100-127). Names that are no
    operators are skipped. *)
Fixpoint algebra (acc : ty) (ops : list (text * ty)) : out ty :=
  match ops with
  | [] => Done acc
  | (op, rhs) :: r =>
      match rhs with
      | TRecord _ gs =>
          let next := if bytes_eqb op (chars "+") then merge acc rhs
                      else if bytes_eqb op (chars "<+") then priority_merge acc rhs prefer_left
                      else if bytes_eqb op (chars "+>") then priority_merge acc rhs prefer_right
                      else if bytes_eqb op (chars "-") then remove_path acc (map fst gs)
                      else Some acc in
          match next with Some acc' => algebra acc' r | None => Fail end
      | _ => Abort
      end
  end.
(** A record whose fields have been resolved (schema.hpp:95-139). *)
Definition finish_record (m : meta) (fs : list (text * ty)) : out ty :=
  if has_attribute m algebra_key
  then match fs with
       | (_, base) :: ((_ :: _) as ops) =>
           match base with
           | TRecord _ _ => andthen (algebra base ops) (fun acc =>
               match acc with
               | TRecord _ [] => Fail
               | TRecord _ gs => if existsb (fun f => match fst f with [] => true | _ => false end) gs then Abort else Done (with_name acc (m_name m))
               | _ => Abort
               end)
           | _ => Abort
           end
       | _ => Abort
       end
  else Done (TRecord m fs).

Section Visit.
  (** [lookup] finds the type of a symbol. *)
  Variable lookup : text -> resolver -> out (ty * resolver).
  (** [symbol_resolver::operator()] (schema.hpp:47-140). *)
  Fixpoint visit (t : ty) (st : resolver) : out (ty * resolver) :=
    match t with
    | TNull => Abort
    | TNone m => match m_name m with
                 | [] => Abort
                 | x => andthen (lookup x st) (fun '(u, st') => Done (with_attrs u (m_attrs m), st'))
                 end
    | TBasic _ _ | TEnum _ _ => Done (t, st)
    | TAlias m v => andthen (visit v st) (fun '(v', st') => Done (TAlias m v', st'))
    | TList m v => andthen (visit v st) (fun '(v', st') => Done (TList m v', st'))
    | TMap m k v => andthen (visit v st) (fun '(v', st1) => andthen (visit k st1) (fun '(k', st2) => Done (TMap m k' v', st2)))
    | TRecord m fs =>
        andthen ((fix go (l : list (text * ty)) (st : resolver) : out (list (text * ty) * resolver) :=
                    match l with
                    | [] => Done ([], st)
                    | f :: r => andthen (visit (snd f) st) (fun '(u, st1) => andthen (go r st1) (fun '(r', st2) => Done ((fst f, u) :: r', st2)))
                    end) fs st)
          (fun '(fs', st') => andthen (finish_record m fs') (fun t => Done (t, st')))
    end.
End Visit.

Section Resolve.
  Variable global : symbols.
  (** [symbol_resolver::resolve] of one entry (schema.hpp:142-160), where [lookup] serves the
      visitor. *)
  Definition resolve_one (lookup : text -> resolver -> out (ty * resolver)) (k : text) (t : ty) (st : resolver) : out (ty * resolver) :=
    match assoc k (r_resolved st) with
    | Some _ => Fail
    | None =>
        andthen (visit lookup t {| r_local := erase k (r_local st); r_resolved := r_resolved st; r_schema := r_schema st |}) (fun '(u, st1) =>
          match assoc k (r_resolved st1) with
          | Some _ => Fail
          | None => match schema_add u (r_schema st1) with
                    | None => Fail
                    | Some s => Done (u, {| r_local := r_local st1; r_resolved := (k, u) :: r_resolved st1; r_schema := s |})
                    end
          end)
    end.
  (** [symbol_resolver::lookup] (schema.hpp:29-45). Each nested resolution removes an entry, so
      that the recursion ends; [n] bounds its depth. *)
  Fixpoint lookup (n : nat) (k : text) (st : resolver) : out (ty * resolver) :=
    match assoc k (r_resolved st) with
    | Some t => Done (t, st)
    | None => match assoc k (r_local st) with
              | Some t => match n with O => Abort | S n' => resolve_one (lookup n') k t st end
              | None => match assoc k global with Some t => Done (t, st) | None => Fail end
              end
    end.
  (** [symbol_resolver::resolve] (schema.hpp:172-180): the loop takes the first entry of the
      table. *)
  Fixpoint resolve_loop (n : nat) (st : resolver) : out resolver :=
    match r_local st with
    | [] => Done st
    | (k, t) :: _ => match n with
                     | O => Abort
                     | S n' => andthen (resolve_one (lookup n') k t st) (fun '(_, st') => resolve_loop n' st')
                     end
    end.
  Definition resolve (local : symbols) : out resolver :=
    resolve_loop (length local) {| r_local := local; r_resolved := []; r_schema := [] |}.
End Resolve.

(** ** Definitions as text *)

(** [symbol_map_parser::to_type] (schema.hpp:199-211): a type that has a name is a symbol. *)
Definition define (x : text) (t : ty) : ty :=
  match ty_name t with [] => with_name t x | _ => TAlias {| m_name := x; m_attrs := [] |} t end.
(** [decl] (schema.hpp:215-218). *)
Definition decl_p (n : nat) : parser (text * ty) :=
  then_ (lit (chars "type")) (then_ skp (bind identifier (fun x => then_ skp (then_ (ch (chr "=")) (then_ skp (act (fun t => (x, define x t)) (type_p n))))))).
(** [unordered_map::emplace] (schema.hpp:206): the first definition of a name stays. *)
Definition emplace (x : text * ty) (m : symbols) : option symbols :=
  match assoc (fst x) m with Some _ => None | None => Some (m ++ [x]) end.
Fixpoint emplace_all (xs : list (text * ty)) (m : symbols) : option symbols :=
  match xs with [] => Some m | x :: r => match emplace x m with Some m' => emplace_all r m' | None => None end end.
(** [symbol_map_parser::parse] (schema.hpp:195-225) into a table that may have entries. *)
Definition symbols_p (n : nat) (m : symbols) : parser symbols :=
  bind (plus (then_ skp (decl_p n))) (fun xs => then_ skp (fun s => match emplace_all xs m with Some m' => Ok m' s | None => No end)).
(** [schema_parser::parse] (schema.hpp:242-257). [order] is the order in which the hash table
    has its entries. *)
Definition schema_p (n : nat) (order : symbols -> symbols) (s : text) : res (list ty) :=
  match symbols_p n [] s with
  | Ok m r => match resolve [] (order m) with Done st => Ok (r_schema st) r | Fail => No | Abort => Bad end
  | No => No
  | Bad => Bad
  end.
(** [to<schema>] (parseable/to.hpp:30-41): all of the text must be read. *)
Definition to_schema (n : nat) (order : symbols -> symbols) (s : text) : res (list ty) :=
  match schema_p n order s with Ok l [] => Ok l [] | Ok _ _ => No | No => No | Bad => Bad end.

(** [schema_printer] (printable/vast/schema.hpp:22-33). *)
Definition show_def (t : ty) : text := chars "type " ++ ty_name t ++ chars " = " ++ show_kind show_type t ++ [10].
Definition show_schema (s : list ty) : text := flat_map show_def s.
(** What a schema becomes when it is sent to another actor: [serialize] writes the text, and the
    receiver, whose own schema is [s0], reads it back (schema.cpp:174-186). Neither an error nor
    text that is left over is noticed. [None] stands for a crash. *)
Definition transmit (n : nat) (order : symbols -> symbols) (s s0 : list ty) : option (list ty) :=
  match show_schema s with
  | [] => Some s0
  | x => match schema_p n order x with Ok l _ => Some l | No => Some [] | Bad => None end
  end.

(** ** Directories *)

(** [unordered_map::merge] (schema.cpp:309): entries of the global table whose names are new. *)
Definition merge_symbols (local global : symbols) : symbols :=
  local ++ filter (fun x => match assoc (fst x) local with Some _ => false | None => true end) global.
(** One directory in [load_schema] (schema.cpp:283-312), given the symbols in its files. After
    [resolve], [local] holds the resolved symbols (schema.hpp:178). *)
Definition load_dir (global : symbols) (types : list ty) (local : symbols) : out (symbols * list ty) :=
  andthen (resolve global local) (fun st => Done (merge_symbols (r_resolved st) global, schema_combine types (r_schema st))).
(** [load_schema] over the directories, from the first to the last (schema.cpp:274-314). *)
Fixpoint load_dirs (global : symbols) (types : list ty) (dirs : list symbols) : out (list ty) :=
  match dirs with [] => Done types | d :: r => andthen (load_dir global types d) (fun '(g, ts) => load_dirs g ts r) end.
Definition load_schema (dirs : list symbols) : out (list ty) := load_dirs [] [] dirs.
