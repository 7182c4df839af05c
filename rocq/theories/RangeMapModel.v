(** Model of [detail::range_map], libvast/vast/detail/range_map.hpp.

    The underlying [std::map<Point, std::pair<Point, Value>>] is a list of
    entries sorted by left endpoint. Points are unbounded naturals [N]. *)
From Coq Require Import List NArith Lia Bool.
Import ListNotations.
Open Scope N_scope.

Section RangeMap.
Context {V : Type} (veq : V -> V -> bool).

(** Left endpoint (key), right endpoint, value (range_map.hpp:26,259-272). *)
Record entry := E { eleft : N; eright : N; evalue : V }.
Definition rmap := list entry.

(** A [std::map] iterator: entries before it (reversed) and from it on; the
    end iterator has an empty second component. *)
Definition iter := (list entry * list entry)%type.

(** [std::map::lower_bound]: first entry whose key is not below [p]. *)
Fixpoint lower_bound_go (acc : list entry) (m : rmap) (p : N) : iter :=
  match m with
  | [] => (acc, [])
  | e :: m' => if eleft e <? p then lower_bound_go (e :: acc) m' p else (acc, m)
  end.
Definition lower_bound (m : rmap) (p : N) : iter := lower_bound_go [] m p.

(** [std::map::emplace]: no effect if the key exists. *)
Fixpoint map_emplace (e : entry) (m : rmap) : rmap :=
  match m with
  | [] => [e]
  | x :: m' => if eleft e <? eleft x then e :: m
               else if eleft e =? eleft x then m
               else x :: map_emplace e m'
  end.

(** [std::map::erase(iterator)]; keys are unique, so the key names the entry. *)
Definition map_erase (k : N) (m : rmap) : rmap :=
  filter (fun e => negb (eleft e =? k)) m.

(** Assignment through [right(i) = r] (range_map.hpp:264-267). *)
Definition set_right (k r : N) (m : rmap) : rmap :=
  map (fun e => if eleft e =? k then E (eleft e) r (evalue e) else e) m.

(** [locate] (range_map.hpp:274-288): the entry containing [p], if any. Note
    that an entry whose key equals [p] is returned without looking at its right
    endpoint. *)
Definition locate (p : N) (lb : iter) : option entry :=
  match lb with
  | (before, e :: _) =>
    if p =? eleft e then Some e
    else match before with
         | x :: _ => if p <? eright x then Some x else None
         | [] => None
         end
  | (x :: _, []) => if p <? eright x then Some x else None
  | ([], []) => None
  end.

(** [lookup] and [find] (range_map.hpp:215-234). *)
Definition lookup (m : rmap) (p : N) : option V :=
  option_map evalue (locate p (lower_bound m p)).
Definition find (m : rmap) (p : N) : option (N * N * V) :=
  option_map (fun e => (eleft e, eright e, evalue e))
             (locate p (lower_bound m p)).

(** [insert] (range_map.hpp:83-89). *)
Definition insert (l r : N) (v : V) (m : rmap) : rmap * bool :=
  let lb := lower_bound m l in
  match locate l lb with
  | Some _ => (m, false)
  | None =>
    match snd lb with
    | e :: _ => if r <=? eleft e then (map_emplace (E l r v) m, true)
                else (m, false)
    | [] => (map_emplace (E l r v) m, true)
    end
  end.

(** Position adjustment of [inject] (range_map.hpp:101-113): the current entry,
    the previous one and the next one. Only called on a non-empty map. *)
Definition neighbours (l : N) (m : rmap)
  : option (option entry * entry * option entry) :=
  match lower_bound m l with
  | (b, e :: s) =>
    match b with
    | x :: b' =>
      if l =? eleft e
      then Some (Some x, e, hd_error s)            (* i = lower_bound *)
      else Some (hd_error b', x, Some e)           (* --i *)
    | [] => Some (None, e, hd_error s)             (* i == begin *)
    end
  | (x :: b', []) => Some (hd_error b', x, None)   (* i == end: --i *)
  | ([], []) => None
  end.

Definition is_none {A} (o : option A) : bool :=
  match o with None => true | Some _ => false end.
Definition opt_test {A} (f : A -> bool) (o : option A) : bool :=
  match o with None => false | Some x => f x end.

(** [inject] (range_map.hpp:99-149). *)
Definition inject (l r : N) (v : V) (m : rmap) : rmap * bool :=
  match neighbours l m with
  | None => (map_emplace (E l r v) m, true)
  | Some (p, i, n) =>
    let fits_left :=
      (r <=? eleft i) && (is_none p || opt_test (fun p => eright p <=? l) p) in
    let fits_right :=
      (eright i <=? l) && (is_none n || opt_test (fun n => r <=? eleft n) n) in
    if fits_left then
      let right_merge := (r =? eleft i) && veq v (evalue i) in
      let left_merge := opt_test (fun p => (l =? eright p) && veq v (evalue p)) p in
      (match p, left_merge, right_merge with
       | Some p, true, true => map_erase (eleft i) (set_right (eleft p) (eright i) m)
       | Some p, true, false => set_right (eleft p) r m
       | _, _, true => map_erase (eleft i) (map_emplace (E l (eright i) v) m)
       | _, _, false => map_emplace (E l r v) m
       end, true)
    else if fits_right then
      let right_merge := opt_test (fun n => (r =? eleft n) && veq v (evalue n)) n in
      let left_merge := (l =? eright i) && veq v (evalue i) in
      (match n, left_merge, right_merge with
       | Some n, true, true => map_erase (eleft n) (set_right (eleft i) (eright n) m)
       | _, true, _ => set_right (eleft i) r m
       | Some n, false, true => map_erase (eleft n) (map_emplace (E l (eright n) v) m)
       | _, false, _ => map_emplace (E l r v) m
       end, true)
    else (m, false)
  end.

(** [erase(Point)] (range_map.hpp:156-162). *)
Definition erase_point (p : N) (m : rmap) : rmap * bool :=
  match locate p (lower_bound m p) with
  | Some e => (map_erase (eleft e) m, true)
  | None => (m, false)
  end.

(** [erase_value] (range_map.hpp:201-209). *)
Definition erase_value (x : V) (m : rmap) : rmap :=
  filter (fun e => negb (veq (evalue e) x)) m.

(** [erase(Point, Point)] (range_map.hpp:168-198). [None] is a violated
    assertion [l < r] in the nested [inject]. The fuel bounds the iterations. *)
Fixpoint erase_range_go (fuel : nat) (next_left l r : N) (m : rmap)
  : option rmap :=
  match fuel with
  | O => Some m
  | S f =>
    let lb := lower_bound m next_left in
    let i := match locate next_left lb with
             | Some e => Some e
             | None => hd_error (snd lb)
             end in
    match i with
    | None => Some m
    | Some i =>
      if r <=? eleft i then Some m
      else
        let next := eright i in
        if (l <=? eleft i) && (eright i <=? r) then
          erase_range_go f next l r (map_erase (eleft i) m)
        else if (eleft i <=? l) && (r <=? eright i) then
          if r <? eright i
          then Some (fst (inject r (eright i) (evalue i) (set_right (eleft i) l m)))
          else None
        else if (l <=? eleft i) && (eleft i <? r) then
          Some (map_erase (eleft i) (map_emplace (E r (eright i) (evalue i)) m))
        else if (l <? eright i) && (eright i <=? r) then
          erase_range_go f next l r (set_right (eleft i) l m)
        else erase_range_go f next l r m
    end
  end.
Definition erase_range (l r : N) (m : rmap) : option rmap :=
  if r <? l then Some m else erase_range_go (S (length m)) l l r m.

End RangeMap.
Arguments entry : clear implicits.
Arguments rmap : clear implicits.
