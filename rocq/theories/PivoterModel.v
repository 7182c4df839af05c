(** Model of the actor that pivots from the results of a query to another type:
    libvast/src/system/pivoter.cpp.

    The node and the exporters are the environment: the node answers each request to spawn an exporter
    with success or failure, and a spawned exporter goes down once. What the exporters send goes to the
    sink directly (pivoter.cpp:147) and is not modelled here. Layouts have names and the tree of their
    fields; the types of leaves do not matter, since values that are no strings are skipped. *)
From Coq Require Import List NArith Bool Arith String Ascii.
From Verif Require Import AddressModel DataModel EscapeModel LiteralModel OperatorModel TypeModel ExpressionModel.
Import ListNotations.
Open Scope N_scope.
Local Notation length := List.length.

(** A field of a layout: a column or a record. *)
Inductive tfield := TLeaf (name : text) | TNode (name : text) (fs : list tfield).
Definition tname (f : tfield) : text := match f with TLeaf n => n | TNode n _ => n end.
Record layout := { l_name : text; l_fields : list tfield }.
(** Equality of layouts, for the cache ([record_type] as key, pivoter.hpp:59-61). *)
Fixpoint tfield_dec (a b : tfield) {struct a} : {a = b} + {a <> b}.
Proof. decide equality; try (apply list_eq_dec, N.eq_dec). apply list_eq_dec, tfield_dec. Defined.
Definition layout_dec (a b : layout) : {a = b} + {a <> b}.
Proof. decide equality; [apply list_eq_dec, tfield_dec|apply list_eq_dec, N.eq_dec]. Defined.

(** [starts_with] and [ends_with] (vast/detail/string.hpp:200-230). *)
Fixpoint starts_with (s start : text) {struct start} : bool :=
  match start, s with
  | [], _ => true
  | c :: r, d :: s' => (c =? d) && starts_with s' r
  | _ :: _, [] => false
  end.
Definition ends_with (s e : text) : bool := starts_with (rev s) (rev e).

(** [offset_map] (type.cpp:319-353): all fields with their names, and whether they are columns. *)
Fixpoint names (trace : text) (f : tfield) : list (text * bool) :=
  match f with
  | TLeaf n => [(trace ++ 46 :: n, true)]
  | TNode n fs => (trace ++ 46 :: n, false) :: flat_map (names (trace ++ 46 :: n)) fs
  end.
(** [find_suffix] (type.cpp:354-362), of which the first is taken, and [flat_index_at], for names without
    special characters (table_slice_column.cpp:37-48). [Some None]: the field is a record, which
    violates an assertion; [None]: there is none. [i] counts columns. *)
Fixpoint pick (key : text) (es : list (text * bool)) (i : nat) : option (option nat) :=
  match es with
  | [] => None
  | (n, leaf) :: r =>
      if bytes_eqb key n || ends_with n (46 :: key) then Some (if leaf then Some i else None)
      else pick key r (if leaf then S i else i)
  end.
Definition column_of (key : text) (l : layout) : option (option nat) := pick key (flat_map (names (l_name l)) (l_fields l)) 0.

(** [common_field] without the cache (pivoter.cpp:55-66). *)
Definition zeek : text := chars "zeek".
Definition edge_name (target : text) (l : layout) : text :=
  if starts_with target zeek && starts_with (l_name l) zeek then chars "uid" else chars "community_id".
Definition common (target : text) (l : layout) : option text :=
  if existsb (fun f => bytes_eqb (tname f) (edge_name target l)) (l_fields l) then Some (edge_name target l) else None.

(** [pivoter_state] (pivoter.hpp:33-73), whether the actor has quit or violated an assertion, and the
    environment: requests without answer, exporters that run, and what was asked for: the field and the
    identifiers of each query. *)
Record world := { requested : list text; cached : list (layout * option text); running : nat; final : bool; gone : bool; crashed : bool;
                  pending : nat; alive : nat; asked : list (text * list text) }.
Definition start : world := {| requested := []; cached := []; running := 0; final := false; gone := false; crashed := false; pending := 0; alive := 0; asked := [] |}.

(** [common_field] (pivoter.cpp:32-71). *)
Definition common_field (target : text) (l : layout) (w : world) : option text * world :=
  match find (fun p => if layout_dec (fst p) l then true else false) (cached w) with
  | Some p => (snd p, w)
  | None => let f := common target l in
      (f, {| requested := requested w; cached := (l, f) :: cached w; running := running w; final := final w; gone := gone w; crashed := crashed w;
             pending := pending w; alive := alive w; asked := asked w |})
  end.
(** The loop over the column (pivoter.cpp:107-118). *)
Fixpoint collect (req : list text) (vs : list data) : list text * list text :=
  match vs with
  | [] => (req, [])
  | DString x :: r => if existsb (bytes_eqb x) req then collect req r else let '(req', xs) := collect (x :: req) r in (req', x :: xs)
  | _ :: r => collect req r
  end.
(** [quit_if_done] (pivoter.cpp:86-90). *)
Definition quit_if_done (w : world) : world :=
  if final w && (running w =? 0)%nat then
    {| requested := requested w; cached := cached w; running := running w; final := final w; gone := true; crashed := crashed w; pending := pending w; alive := alive w; asked := asked w |}
  else w.

(** What happens: a slice arrives with its rows, the final status of the first query arrives, the node
    answers a request, an exporter goes down. *)
Inductive op := Slice (l : layout) (rows : list (list data)) | Final | Answer (fine : bool) | Down.
(** [None]: this cannot happen now. Messages to an actor that has quit are dropped. *)
Definition step (target : text) (o : op) (w : world) : option world :=
  if crashed w then None else
  match o with
  | Slice l rows =>
      if gone w then Some w else
      let '(f, w) := common_field target l w in
      match f with
      | None => Some w
      | Some k =>
          match column_of k l with
          | Some (Some c) =>
              match collect (requested w) (map (fun r => nth c r DNone) rows) with
              | (_, []) => Some w
              | (req, xs) => Some {| requested := req; cached := cached w; running := S (running w); final := final w; gone := false; crashed := false;
                                     pending := S (pending w); alive := alive w; asked := asked w ++ [(k, xs)] |}
              end
          | _ => Some {| requested := requested w; cached := cached w; running := running w; final := final w; gone := false; crashed := true;
                         pending := pending w; alive := alive w; asked := asked w |}
          end
      end
  | Final =>
      if gone w then Some w else
      Some (quit_if_done {| requested := requested w; cached := cached w; running := running w; final := true; gone := false; crashed := false; pending := pending w; alive := alive w; asked := asked w |})
  | Answer fine =>
      match pending w with
      | O => None
      | S n => Some {| requested := requested w; cached := cached w; running := if fine then running w else Nat.pred (running w); final := final w; gone := gone w; crashed := false;
                       pending := n; alive := if fine then S (alive w) else alive w; asked := asked w |}
      end
  | Down =>
      match alive w with
      | O => None
      | S n => Some (quit_if_done {| requested := requested w; cached := cached w; running := Nat.pred (running w); final := final w; gone := gone w; crashed := false; pending := pending w; alive := n; asked := asked w |})
      end
  end.
Fixpoint steps (target : text) (os : list op) (w : world) : option world :=
  match os with
  | [] => Some w
  | o :: r => match step target o w with Some w' => steps target r w' | None => None end
  end.

(** The query (pivoter.cpp:124-129), which is passed on as text. *)
Definition query_of (target : text) (q : text * list text) : expr :=
  EAnd [EPred {| p_lhs := OMeta MType; p_op := op_eq; p_rhs := OVal (DString target) |};
        EPred {| p_lhs := OField (fst q); p_op := op_in; p_rhs := OVal (DList (map DString (snd q))) |}].
