(** Model of the evaluation of a query in a partition: libvast/vast/system/evaluator.hpp
    and libvast/src/system/evaluator.cpp. ID sets are bitmaps of any kind that offers
    the operations of BitmapOps.v. An actor is a state and a function per message. *)
From Coq Require Import List ZArith NArith Bool Arith.
From Verif Require Import BitmapOps OperatorModel AddressModel DataModel TypeModel ExpressionModel.
Import ListNotations.
Open Scope nat_scope.

Section Evaluator.
  Context {B : Type} (ops : bitmap_ops B).

  (** [evaluator_state::predicate_hits_map] (evaluator.hpp:27): positions with the
      number of missing responses and the hits so far. Keys are distinct. *)
  Notation hits_map := (list (list nat * (nat * B))).

  (** [std::map::find], [hits_for] (evaluator.cpp:137-141). *)
  Fixpoint find_hits (m : hits_map) (o : list nat) : option (nat * B) :=
    match m with
    | [] => None
    | (k, v) :: m' => if eqs Nat.eqb k o then Some v else find_hits m' o
    end.
  (** Assignment through [std::map::operator[]]. *)
  Fixpoint put_hits (m : hits_map) (o : list nat) (v : nat * B) : hits_map :=
    match m with
    | [] => [(o, v)]
    | (k, w) :: m' => if eqs Nat.eqb k o then (k, v) :: m' else (k, w) :: put_hits m' o v
    end.

  Section Connective.
    Variable rec : list nat -> expr -> option B.
    Variable op : B -> B -> B.
    (** The loop over the operands of a connective (evaluator.cpp:37-45): [i] is the
        last component of the position. *)
    Fixpoint connect_ids (o : list nat) (i : nat) (acc : B) (es : list expr) : option B :=
      match es with
      | [] => Some acc
      | e :: es' =>
        match rec (o ++ [i]) e with
        | None => None
        | Some r => connect_ids o (S i) (op acc r) es'
        end
      end.
  End Connective.

  (** [ids_evaluator] (evaluator.cpp:26-80) at position [o]; [None] is the failed
      assertion on an empty connective (evaluator.cpp:38). *)
  Fixpoint ids_eval (m : hits_map) (o : list nat) (e : expr) {struct e} : option B :=
    match e with
    | ENone => Some (b_empty ops)
    | EAnd [] | EOr [] => None
    | EAnd (x :: es) =>
      match ids_eval m (o ++ [0]) x with
      | None => None
      | Some r => connect_ids (ids_eval m) (b_and ops) o 1 r es
      end
    | EOr (x :: es) =>
      match ids_eval m (o ++ [0]) x with
      | None => None
      | Some r => connect_ids (ids_eval m) (b_or ops) o 1 r es
      end
    | ENot x => option_map (b_not ops) (ids_eval m (o ++ [0]) x)
    | EPred _ => Some (match find_hits m o with Some (_, r) => r | None => b_empty ops end)
    end.

  (** [any<1>] (bitmap_algorithms.hpp:583-588) in terms of the bits. *)
  Definition any_one (x : B) : bool := negb (N.eqb (b_size ops x) 0) && negb (b_all ops false x).

  (** [evaluator_state] (evaluator.hpp:26-72); [delivered] are the values delivered to
      the response promise. *)
  Record evaluator_state := {
    pending : nat;
    predicate_hits : hits_map;
    hits : B;
    delivered : list B
  }.

  (** [evaluate] (evaluator.cpp:118-125). *)
  Definition evaluate_hits (e : expr) (s : evaluator_state) : option evaluator_state :=
    match ids_eval (predicate_hits s) [0] e with
    | None => None
    | Some expr_hits =>
      let delta := b_diff ops expr_hits (hits s) in
      Some {| pending := pending s; predicate_hits := predicate_hits s;
              hits := if any_one delta then b_or ops (hits s) delta else hits s;
              delivered := delivered s |}
    end.
  (** [decrement_pending] (evaluator.cpp:127-135). *)
  Definition decrement_pending (s : evaluator_state) : option evaluator_state :=
    match pending s with
    | 0 => None
    | S n => Some {| pending := n; predicate_hits := predicate_hits s; hits := hits s;
                     delivered := match n with 0 => delivered s ++ [hits s] | _ => delivered s end |}
    end.
  (** A response to a request: [Some ids] for [handle_result] and [None] for
      [handle_missing_result] (evaluator.cpp:90-116). [None] as result: the position is
      unknown or its counter wraps. *)
  Definition handle (e : expr) (s : evaluator_state) (r : list nat * option B) : option evaluator_state :=
    match find_hits (predicate_hits s) (fst r) with
    | None | Some (0, _) => None
    | Some (S missing, acc) =>
      let acc' := match snd r with Some ids => b_or ops acc ids | None => acc end in
      let s' := {| pending := pending s; predicate_hits := put_hits (predicate_hits s) (fst r) (missing, acc');
                   hits := hits s; delivered := delivered s |} in
      match (match missing with 0 => evaluate_hits e s' | _ => Some s' end) with
      | None => None
      | Some s'' => decrement_pending s''
      end
    end.
  Fixpoint handle_all (e : expr) (s : evaluator_state) (rs : list (list nat * option B)) : option evaluator_state :=
    match rs with
    | [] => Some s
    | r :: rs' => match handle e s r with None => None | Some s' => handle_all e s' rs' end
    end.

  (** [++predicate_hits[pos].first] (evaluator.cpp:160). *)
  Definition count_position (m : hits_map) (o : list nat) : hits_map :=
    match find_hits m o with
    | Some (n, r) => put_hits m o (S n, r)
    | None => put_hits m o (1, b_empty ops)
    end.
  (** The handler of [atom::run] (evaluator.cpp:151-174): one request per triple. *)
  Definition start (positions : list (list nat)) : evaluator_state :=
    let m := fold_left count_position positions [] in
    {| pending := length positions; predicate_hits := m; hits := b_empty ops;
       delivered := match positions with [] => [b_empty ops] | _ => [] end |}.
End Evaluator.
