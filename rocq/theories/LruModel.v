(** Model of the caches libvast/vast/detail/lru_cache.hpp,
    libvast/vast/detail/flat_lru_cache.hpp and libvast/vast/detail/cache.hpp.

    A [std::list] is a list of nodes with identities, a list iterator is the identity of
    a node, and an [std::unordered_map] is an association list. [None] stands for an
    iterator or reference that is no longer valid, or for a violated assertion. *)
From Coq Require Import List Bool Arith.
Import ListNotations.
Open Scope nat_scope.

Section Caches.
  Context {K V : Type} (keq : K -> K -> bool).

  (** A node of the list with its key and value (lru_cache.hpp:43-46, cache.hpp:34-36). *)
  Record node := Node { n_id : nat; n_key : K; n_val : V }.

  (** [find], [operator[]] and [erase] of the map from keys to iterators. *)
  Fixpoint find_map (k : K) (m : list (K * nat)) : option nat :=
    match m with
    | [] => None
    | (x, i) :: m' => if keq x k then Some i else find_map k m'
    end.
  Fixpoint set_map (k : K) (i : nat) (m : list (K * nat)) : list (K * nat) :=
    match m with
    | [] => [(k, i)]
    | (x, j) :: m' => if keq x k then (x, i) :: m' else (x, j) :: set_map k i m'
    end.
  Definition del_map (k : K) (m : list (K * nat)) : list (K * nat) := filter (fun p => negb (keq (fst p) k)) m.

  (** The node an iterator refers to, and [erase] of the list. *)
  Definition find_node (i : nat) (l : list node) : option node := find (fun n => n_id n =? i) l.
  Definition erase_node (i : nat) (l : list node) : list node := filter (fun n => negb (n_id n =? i)) l.

  (** * [lru_cache] *)

  (** The value of a key after it was moved from (lru_cache.hpp:88-89, 95): for
      trivially copyable keys such as [uuid] the key itself. *)
  Variable moved : K -> K.

  (** [max_size_], [cache_items_list_] and [cache_items_map_] (lru_cache.hpp:142-151), and
      the identity of the next node. *)
  Record lru := { lru_max : nat; lru_list : list node; lru_map : list (K * nat); lru_fresh : nat }.
  (** The constructor (lru_cache.hpp:48-50). *)
  Definition lru_new (max : nat) : lru := {| lru_max := max; lru_list := []; lru_map := []; lru_fresh := 0 |}.
  (** [clear] (lru_cache.hpp:52-55). *)
  Definition lru_clear (c : lru) : lru :=
    {| lru_max := lru_max c; lru_list := []; lru_map := []; lru_fresh := lru_fresh c |}.
  (** [resize] (lru_cache.hpp:57-68). *)
  Definition lru_resize (c : lru) (max : nat) : lru :=
    if max <? length (lru_list c)
    then {| lru_max := max; lru_list := firstn max (lru_list c);
            lru_map := fold_left (fun m n => del_map (n_key n) m) (skipn max (lru_list c)) (lru_map c);
            lru_fresh := lru_fresh c |}
    else {| lru_max := max; lru_list := lru_list c; lru_map := lru_map c; lru_fresh := lru_fresh c |}.
  (** [put] (lru_cache.hpp:86-103): the cache and the value that the returned reference
      refers to. *)
  Definition lru_put (c : lru) (k : K) (v : V) : lru * option V :=
    let i := lru_fresh c in
    let l1 := Node i k v :: lru_list c in
    let '(l2, m2) := match find_map k (lru_map c) with
                     | Some old => (erase_node old l1, del_map k (lru_map c))
                     | None => (l1, lru_map c)
                     end in
    let m3 := set_map (moved k) i m2 in
    let '(l3, m4) := if lru_max c <? length m3
                     then (removelast l2, match rev l2 with [] => m3 | n :: _ => del_map (n_key n) m3 end)
                     else (l2, m3) in
    ({| lru_max := lru_max c; lru_list := l3; lru_map := m4; lru_fresh := S i |},
     option_map n_val (find_node i l3)).
  (** [splice] of a node to the front (lru_cache.hpp:108-109). *)
  Definition to_front (i : nat) (l : list node) : list node :=
    match find_node i l with Some n => n :: erase_node i l | None => l end.
  (** [get_or_load] (lru_cache.hpp:105-113); [loaded] is what the factory returns. *)
  Definition lru_get (c : lru) (k : K) (loaded : V) : lru * option V :=
    match find_map k (lru_map c) with
    | Some i => ({| lru_max := lru_max c; lru_list := to_front i (lru_list c); lru_map := lru_map c; lru_fresh := lru_fresh c |},
                 option_map n_val (find_node i (lru_list c)))
    | None => lru_put c k loaded
    end.
  (** [drop] (lru_cache.hpp:115-121). *)
  Definition lru_drop (c : lru) (k : K) : lru :=
    match find_map k (lru_map c) with
    | Some i => {| lru_max := lru_max c; lru_list := erase_node i (lru_list c); lru_map := del_map k (lru_map c);
                   lru_fresh := lru_fresh c |}
    | None => c
    end.
  (** [eject] (lru_cache.hpp:125-135). *)
  Definition lru_eject (c : lru) (k : K) (loaded : V) : lru * option V :=
    match find_map k (lru_map c) with
    | Some i => (lru_drop c k, option_map n_val (find_node i (lru_list c)))
    | None => (c, Some loaded)
    end.
  (** [contains] (lru_cache.hpp:137-139). *)
  Definition lru_contains (c : lru) (k : K) : bool :=
    match find_map k (lru_map c) with Some _ => true | None => false end.

  (** The operations of a client; loads carry the value the factory returns. *)
  Inductive lru_op :=
  | LPut (k : K) (v : V) | LGet (k : K) (loaded : V) | LDrop (k : K) | LEject (k : K) (loaded : V)
  | LResize (max : nat) | LClear.
  Definition lru_step (c : lru) (o : lru_op) : lru * option V :=
    match o with
    | LPut k v => lru_put c k v
    | LGet k v => lru_get c k v
    | LDrop k => (lru_drop c k, None)
    | LEject k v => lru_eject c k v
    | LResize n => (lru_resize c n, None)
    | LClear => (lru_clear c, None)
    end.
  Definition lru_run (ops : list lru_op) (c : lru) : lru := fold_left (fun c o => fst (lru_step c o)) ops c.

  (** * [flat_lru_cache] *)

  (** [elements_], oldest first, and [size_] (flat_lru_cache.hpp:101-106). An element
      is a key with a value; [pred_(key)] tests for equality with the key. *)
  Record flat := { fl_size : nat; fl_elements : list (K * V) }.
  Definition flat_new (size : nat) : flat := {| fl_size := size; fl_elements := [] |}.
  (** [contains] (flat_lru_cache.hpp:42-48). *)
  Definition flat_contains (c : flat) (k : K) : bool := existsb (fun e => keq (fst e) k) (fl_elements c).
  (** [add] (flat_lru_cache.hpp:65-74): without capacity the rotation is undefined. *)
  Definition flat_add (c : flat) (e : K * V) : option flat :=
    if length (fl_elements c) <? fl_size c
    then Some {| fl_size := fl_size c; fl_elements := fl_elements c ++ [e] |}
    else match fl_elements c with
         | [] => None
         | _ :: es => Some {| fl_size := fl_size c; fl_elements := es ++ [e] |}
         end.
  (** [std::find_if] with [std::rotate(i, i + 1, last)] (flat_lru_cache.hpp:53-59): the
      element goes to the end. *)
  Fixpoint rotate_to_back (k : K) (es : list (K * V)) : option (list (K * V) * V) :=
    match es with
    | [] => None
    | e :: es' => if keq (fst e) k then Some (es' ++ [e], snd e)
                  else option_map (fun r => (e :: fst r, snd r)) (rotate_to_back k es')
    end.
  (** [get_or_add] (flat_lru_cache.hpp:51-62). *)
  Definition flat_get (c : flat) (k : K) (made : V) : option (flat * V) :=
    match rotate_to_back k (fl_elements c) with
    | Some (es, v) => Some ({| fl_size := fl_size c; fl_elements := es |}, v)
    | None => option_map (fun c' => (c', made)) (flat_add c (k, made))
    end.
  (** [size(new_size)] (flat_lru_cache.hpp:84-92). *)
  Definition flat_resize (c : flat) (n : nat) : flat :=
    {| fl_size := n; fl_elements := if n <? length (fl_elements c)
                                    then skipn (length (fl_elements c) - n) (fl_elements c) else fl_elements c |}.
  (** The operations of a client: [add] requires a key that is not present. *)
  Inductive flat_op := FGet (k : K) (made : V) | FResize (n : nat).
  Definition flat_step (c : flat) (o : flat_op) : option flat :=
    match o with FGet k v => option_map fst (flat_get c k v) | FResize n => Some (flat_resize c n) end.
  Fixpoint flat_run (ops : list flat_op) (c : flat) : option flat :=
    match ops with [] => Some c | o :: ops' => match flat_step c o with Some c' => flat_run ops' c' | None => None end end.

  (** * [cache] *)

  (** The policies [lru] and [mru] (cache.hpp:249-273). *)
  Inductive policy := Lru | Mru.
  (** [xs_], [tracker_], [capacity_] (cache.hpp:242-247), the identity of the next node,
      and the entries passed to the eviction callback, in order. *)
  Record cache := { ca_policy : policy; ca_xs : list node; ca_tracker : list (K * nat); ca_capacity : nat;
                    ca_fresh : nat; ca_evicted : list (K * V) }.
  (** The constructor (cache.hpp:47-49). *)
  Definition cache_new (p : policy) (capacity : nat) : option cache :=
    if 0 <? capacity
    then Some {| ca_policy := p; ca_xs := []; ca_tracker := []; ca_capacity := capacity; ca_fresh := 0; ca_evicted := [] |}
    else None.
  (** [evict] (cache.hpp:62-72). *)
  Definition evict (c : cache) : option cache :=
    match ca_xs c with
    | [] => None
    | n :: xs =>
      match find_map (n_key n) (ca_tracker c) with
      | None => None
      | Some _ => Some {| ca_policy := ca_policy c; ca_xs := xs; ca_tracker := del_map (n_key n) (ca_tracker c);
                          ca_capacity := ca_capacity c; ca_fresh := ca_fresh c;
                          ca_evicted := ca_evicted c ++ [(n_key n, n_val n)] |}
      end
    end.
  Fixpoint evict_n (n : nat) (c : cache) : option cache :=
    match n with O => Some c | S n' => match evict c with Some c' => evict_n n' c' | None => None end end.
  (** [capacity(c)] (cache.hpp:84-90). *)
  Definition set_capacity (c : cache) (n : nat) : option cache :=
    if 0 <? n
    then evict_n (length (ca_xs c) - n)
           {| ca_policy := ca_policy c; ca_xs := ca_xs c; ca_tracker := ca_tracker c; ca_capacity := n;
              ca_fresh := ca_fresh c; ca_evicted := ca_evicted c |}
    else None.
  (** [policy::access] (cache.hpp:251-254, 264-267). *)
  Definition access (p : policy) (i : nat) (l : list node) : list node :=
    match find_node i l with
    | None => l
    | Some n => match p with Lru => erase_node i l ++ [n] | Mru => n :: erase_node i l end
    end.
  (** [policy::insert] (cache.hpp:256-259, 269-272). *)
  Definition policy_insert (p : policy) (n : node) (l : list node) : list node :=
    match p with Lru => l ++ [n] | Mru => n :: l end.
  Definition touch (c : cache) (i : nat) : cache :=
    {| ca_policy := ca_policy c; ca_xs := access (ca_policy c) i (ca_xs c); ca_tracker := ca_tracker c;
       ca_capacity := ca_capacity c; ca_fresh := ca_fresh c; ca_evicted := ca_evicted c |}.
  (** [insert] (cache.hpp:159-175): the cache, the entry of the returned iterator and
      whether it is new. *)
  Definition cache_insert (c : cache) (k : K) (v : V) : option (cache * V * bool) :=
    match find_map k (ca_tracker c) with
    | Some i => match find_node i (ca_xs c) with
                | None => None
                | Some n => Some (touch c i, n_val n, false)
                end
    | None =>
      match (if length (ca_xs c) =? ca_capacity c then evict c else Some c) with
      | None => None
      | Some c1 =>
        Some ({| ca_policy := ca_policy c1; ca_xs := policy_insert (ca_policy c1) (Node (ca_fresh c1) k v) (ca_xs c1);
                 ca_tracker := ca_tracker c1 ++ [(k, ca_fresh c1)]; ca_capacity := ca_capacity c1;
                 ca_fresh := S (ca_fresh c1); ca_evicted := ca_evicted c1 |}, v, true)
      end
    end.
  (** [find] (cache.hpp:214-220); the inner option is the end iterator. *)
  Definition cache_find (c : cache) (k : K) : option (cache * option V) :=
    match find_map k (ca_tracker c) with
    | None => Some (c, None)
    | Some i => match find_node i (ca_xs c) with
                | None => None
                | Some n => Some (touch c i, Some (n_val n))
                end
    end.
  (** [erase(key)] (cache.hpp:185-192). *)
  Definition cache_erase (c : cache) (k : K) : cache :=
    match find_map k (ca_tracker c) with
    | None => c
    | Some i => {| ca_policy := ca_policy c; ca_xs := erase_node i (ca_xs c); ca_tracker := del_map k (ca_tracker c);
                   ca_capacity := ca_capacity c; ca_fresh := ca_fresh c; ca_evicted := ca_evicted c |}
    end.
  (** [erase(iterator)] (cache.hpp:195-204) with the iterator that [find] returned. *)
  Definition cache_erase_at (c : cache) (i : nat) : cache :=
    {| ca_policy := ca_policy c; ca_xs := erase_node i (ca_xs c);
       ca_tracker := filter (fun p => negb (snd p =? i)) (ca_tracker c);
       ca_capacity := ca_capacity c; ca_fresh := ca_fresh c; ca_evicted := ca_evicted c |}.
  (** [clear] (cache.hpp:207-210). *)
  Definition cache_clear (c : cache) : cache :=
    {| ca_policy := ca_policy c; ca_xs := []; ca_tracker := []; ca_capacity := ca_capacity c; ca_fresh := ca_fresh c;
       ca_evicted := ca_evicted c |}.

  Inductive cache_op := CInsert (k : K) (v : V) | CFind (k : K) | CErase (k : K) | CEraseAt (k : K) | CCapacity (n : nat) | CEvict | CClear.
  (** One operation; [CEraseAt] erases through the iterator that [find] returned. *)
  Definition cache_step (c : cache) (o : cache_op) : option cache :=
    match o with
    | CInsert k v => option_map (fun r => fst (fst r)) (cache_insert c k v)
    | CFind k => option_map fst (cache_find c k)
    | CErase k => Some (cache_erase c k)
    | CEraseAt k => match find_map k (ca_tracker c), cache_find c k with
                    | Some i, Some (c', _) => Some (cache_erase_at c' i)
                    | _, _ => None
                    end
    | CCapacity n => set_capacity c n
    | CEvict => evict c
    | CClear => Some (cache_clear c)
    end.
  Fixpoint cache_run (ops : list cache_op) (c : cache) : option cache :=
    match ops with [] => Some c | o :: ops' => match cache_step c o with Some c' => cache_run ops' c' | None => None end end.
End Caches.
Arguments node : clear implicits.
Arguments lru : clear implicits.
Arguments flat : clear implicits.
Arguments cache : clear implicits.
Arguments lru_op : clear implicits.
Arguments flat_op : clear implicits.
Arguments cache_op : clear implicits.
