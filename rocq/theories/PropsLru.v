(** C25: the caches keep the most recently used entries.

    [entries] lists what a cache holds, most recently used first for [lru_cache].
    [recent] lists the distinct keys of a history, most recent first. *)
From Coq Require Import List Bool Arith Lia.
From Verif Require Import LruModel LruProofs.
Import ListNotations.
Open Scope nat_scope.

Section Props.
  Context {K V : Type} (keq : K -> K -> bool).
  Hypothesis keq_eq : forall a b, keq a b = true <-> a = b.
  Notation same_key := (fun k : K => k).

  (** Whatever puts and loads a cache has seen, its keys are the most recently used
      distinct keys, as many as fit, newest first. *)
  Theorem C25_most_recent : forall cap ops, Forall put_or_get ops ->
    map fst (entries (lru_list (lru_run keq same_key ops (@lru_new K V cap)))) = firstn cap (recent keq (used ops)).
  Proof using keq_eq.
    intros cap ops H. destruct (lru_run_spec keq keq_eq ops (lru_new cap) (lru_new_ok cap)) as [_ E].
    destruct (spec_history keq keq_eq ops cap [] [] H) as [_ E2]; [destruct cap; reflexivity|].
    cbn [lru_new lru_max lru_list entries map] in E. rewrite app_nil_r in E2. rewrite <- E in E2. exact E2.
  Qed.

  (** After any operations the cache is within its capacity, holds no key twice, and its
      key index finds exactly the keys of its entries. *)
  Theorem C25_within_capacity : forall cap ops,
    let c := lru_run keq same_key ops (@lru_new K V cap) in
    length (entries (lru_list c)) <= lru_max c /\ NoDup (map fst (entries (lru_list c))) /\
    length (lru_map c) = length (entries (lru_list c)) /\
    (forall k, lru_contains keq c k = true <-> In k (map fst (entries (lru_list c)))).
  Proof using keq_eq.
    intros cap ops c. destruct (lru_run_spec keq keq_eq ops (lru_new cap) (lru_new_ok cap)) as [[A Hlen] _]. fold c in A, Hlen.
    rewrite entries_length, map_fst_entries. split; [assumption|]. split; [apply A|].
    split; [eapply agree_length; eassumption|]. intros k. unfold lru_contains. rewrite <- (agree_key _ _ _ _ A).
    destruct (find_map keq k (lru_map c)) as [i|] eqn:E.
    - apply (find_map_in keq keq_eq) in E; [|apply A]. apply (in_map fst) in E. tauto.
    - apply (find_map_none keq keq_eq) in E. split; [discriminate|contradiction].
  Qed.

  (** In every state, every operation has the effect and the answer of the list of
      entries kept in order of use: a hit returns the stored value and moves the entry
      to the front, a miss stores and returns the loaded value, replacing the least
      recently used entry of a full cache. *)
  Theorem C25_operations : forall cap ops o,
    let c := lru_run keq same_key ops (@lru_new K V cap) in
    let '(c', answer) := lru_step keq same_key c o in
    ((lru_max c', entries (lru_list c')), answer) = lru_spec keq (lru_max c, entries (lru_list c)) o.
  Proof using keq_eq.
    intros cap ops o c. destruct (lru_run_spec keq keq_eq ops (lru_new cap) (lru_new_ok cap)) as [H _]. fold c in H.
    pose proof (lru_step_spec keq keq_eq c o H) as P. destruct (lru_step keq same_key c o). apply P.
  Qed.

  (** A load returns the value stored last for the key, if the key is still cached. *)
  Theorem C25_put_then_get : forall cap ops (k : K) (v w : V), 0 < cap -> Forall put_or_get ops ->
    snd (lru_step keq same_key (lru_run keq same_key (ops ++ [LPut k v]) (lru_new cap)) (LGet k w)) = Some v.
  Proof using keq_eq.
    intros cap ops k v w Hcap H. unfold lru_run. rewrite fold_left_app. cbn [fold_left].
    fold (lru_run keq same_key ops (@lru_new K V cap)).
    destruct (lru_run_spec keq keq_eq ops (lru_new cap) (lru_new_ok cap)) as [Ok E].
    destruct (spec_history keq keq_eq ops cap [] [] H) as [Ec _]; [destruct cap; reflexivity|].
    cbn [lru_new lru_max lru_list entries map] in E. rewrite <- E in Ec. cbn [fst] in Ec.
    set (c := lru_run keq same_key ops (lru_new cap)) in *. pose proof (lru_step_spec keq keq_eq c (LPut k v) Ok) as P.
    destruct (lru_step keq same_key c (LPut k v)) as [c1 r]. destruct P as [Ok1 P]. cbn [fst]. rewrite Ec in P. cbn [lru_spec] in P.
    pose proof (lru_step_spec keq keq_eq c1 (LGet k w) Ok1) as P1. destruct (lru_step keq same_key c1 (LGet k w)) as [c2 r2].
    destruct P1 as [_ P1]. cbn [lru_spec snd] in *. injection P as Em El _. rewrite El in P1. destruct cap as [|cap]; [lia|].
    rewrite firstn_cons in P1. unfold lookup in P1. cbn [find fst] in P1. rewrite (keq_refl keq keq_eq) in P1. cbn in P1. congruence.
  Qed.

  (** [flat_lru_cache]: with a positive size it never meets undefined behaviour, stays
      within its size and has the same contents as the list in order of use. *)
  Theorem C25_flat : forall cap ops, 0 < cap -> Forall flat_valid ops -> exists c,
    flat_run keq ops (@flat_new K V cap) = Some c /\ length (fl_elements c) <= fl_size c /\ NoDup (map fst (fl_elements c)) /\
    (fl_size c, rev (fl_elements c)) = lru_spec_run keq (map flat_as_lru ops) (cap, []).
  Proof using keq_eq.
    intros cap ops Hcap Hv. destruct (flat_run_spec keq keq_eq ops (flat_new cap)) as (c & R1 & R2 & R3); [|assumption|].
    - split; [constructor|cbn; split; [lia|assumption] ].
    - exists c. split; [assumption|]. split; [apply R2|]. split; [apply R2|]. exact R3.
  Qed.
  (** Hence it holds the most recently used keys. *)
  Theorem C25_flat_most_recent : forall cap (gets : list (K * V)), 0 < cap -> exists c,
    flat_run keq (map (fun e => FGet (fst e) (snd e)) gets) (flat_new cap) = Some c /\
    map fst (rev (fl_elements c)) = firstn cap (recent keq (rev (map fst gets))).
  Proof using keq_eq.
    intros cap gets Hcap. destruct (C25_flat cap (map (fun e => FGet (fst e) (snd e)) gets) Hcap) as (c & R1 & _ & _ & R2).
    - apply Forall_map. apply Forall_forall. intros e _. exact I.
    - exists c. split; [assumption|]. rewrite map_map in R2. cbn [flat_as_lru] in R2.
      destruct (spec_history keq keq_eq (map (fun e => LGet (fst e) (snd e)) gets) cap [] []) as [_ E].
      + apply Forall_map. apply Forall_forall. intros e _. eexists. reflexivity.
      + destruct cap; reflexivity.
      + rewrite <- R2 in E. cbn [snd] in E. rewrite E, app_nil_r. f_equal. f_equal. unfold used. f_equal.
        clear. induction gets as [|[k v] gets IH]; cbn; [reflexivity|]. rewrite IH. reflexivity.
  Qed.

  (** [cache], for both policies: no operation whose precondition holds fails, and the
      cache, its callback and its capacity behave like the list of entries in eviction
      order; the key index always agrees with the entries. *)
  Theorem C25_cache : forall p cap (c : cache K V) ops, cache_new p cap = Some c -> cache_history keq c ops -> exists c',
    cache_run keq ops c = Some c' /\ cache_view c' = fold_left (cache_spec keq) ops (p, cap, [], []) /\
    length (ca_xs c') <= ca_capacity c' /\ NoDup (map n_key (ca_xs c')) /\
    (forall k, find_map keq k (ca_tracker c') <> None <-> In k (map n_key (ca_xs c'))).
  Proof using keq_eq.
    intros p cap c ops E H. unfold cache_new in E. destruct (Nat.ltb_spec 0 cap) as [Hcap|]; [|discriminate]. injection E as <-.
    match type of H with cache_history _ ?c0 _ => assert (cache_ok c0) as Ok0 by (split; [apply agree_nil|cbn; split; lia]) end.
    destruct (cache_run_spec keq keq_eq ops _ Ok0 H) as (c' & R1 & (A & Hl & _) & R3).
    exists c'. split; [assumption|]. split; [exact R3|]. split; [assumption|]. split; [apply A|].
    intros k. rewrite <- (agree_key _ _ _ _ A). rewrite (find_map_none keq keq_eq). split; [|tauto].
    intros Hn. destruct (in_dec (fun a b => match bool_dec (keq a b) true with left e => left (proj1 (keq_eq a b) e) | right n => right (fun e => n (proj2 (keq_eq a b) e)) end) k (map fst (ca_tracker c'))); tauto.
  Qed.
  (** [find] and [insert] answer with the stored value, or with the end iterator and the
      new value. *)
  Theorem C25_cache_answers : forall p cap (c : cache K V) ops c' k v, cache_new p cap = Some c -> cache_history keq c ops -> cache_run keq ops c = Some c' ->
    exists c1 c2, cache_find keq c' k = Some (c1, lookup keq k (entries (ca_xs c'))) /\
      cache_insert keq c' k v = Some (c2, match lookup keq k (entries (ca_xs c')) with Some w => w | None => v end,
                                      match lookup keq k (entries (ca_xs c')) with Some _ => false | None => true end).
  Proof using keq_eq.
    intros p cap c ops c' k v E H R. unfold cache_new in E. destruct (Nat.ltb_spec 0 cap) as [Hcap|]; [|discriminate]. injection E as <-.
    assert (cache_ok c') as Ok.
    { match type of R with cache_run _ _ ?c0 = _ => assert (cache_ok c0) as Ok0 by (split; [apply agree_nil|cbn; split; lia]) end.
      destruct (cache_run_spec keq keq_eq ops _ Ok0 H) as (c1 & R1 & Ok1 & _). congruence. }
    destruct (cache_find_spec keq keq_eq c' k Ok) as (c1 & E1 & _). destruct (cache_insert_spec keq keq_eq c' k v Ok) as (c2 & E2 & _).
    exists c1, c2. auto.
  Qed.

  (** No entry leaves [cache] without the callback unless it is erased or cleared: what
      was inserted as new is either held or was passed to the callback. *)
  Theorem C25_cache_nothing_lost : forall p cap es out o, (match o with CInsert _ _ | CFind _ | CEvict | CCapacity _ => True | _ => False end) ->
    forall e, In e (es ++ out) ->
    let '(_, _, es', out') := @cache_spec K V keq (p, cap, es, out) o in
    In e (es' ++ out') \/ (exists w, lookup keq (fst e) es = Some w /\ In (fst e, w) (es' ++ out')).
  Proof using keq_eq.
    intros p cap es out o Ho e He. rewrite in_app_iff in He.
    assert (forall k w es, lookup keq k es = Some w -> forall e : K * V, In e es -> In e (use p (k, w) (without keq k es)) \/ (fst e = k /\ In (k, w) (use p (k, w) (without keq k es)))) as Huse.
    { intros k w l Hl x Hx. destruct (keq (fst x) k) eqn:E.
      - right. apply keq_eq in E. split; [assumption|]. destruct p; cbn; [apply in_app_iff; right; left; reflexivity|left; reflexivity].
      - left. assert (In x (without keq k l)) by (unfold without; apply filter_In; rewrite E; auto).
        destruct p; cbn; [apply in_app_iff; auto|auto]. }
    assert (forall n (l : list (K * V)), In e l -> In e (skipn n l) \/ In e (firstn n l)) as Hsplit.
    { intros n l Hl. rewrite <- (firstn_skipn n l), in_app_iff in Hl. tauto. }
    destruct o as [k v|k|k|k|n| |]; try contradiction; cbn [cache_spec].
    - destruct (lookup keq k es) as [w|] eqn:El.
      + destruct He as [He|He]; [|left; rewrite in_app_iff; auto].
        destruct (Huse k w es El e He) as [H|[<- H] ]; [left; rewrite in_app_iff; auto|]. right. exists w. rewrite in_app_iff. auto.
      + destruct (length es =? cap); left; rewrite !in_app_iff.
        * destruct He as [He|He]; [|auto]. destruct (Hsplit 1 es He) as [H|H]; [|auto].
          left. destruct p; cbn [use]; [apply in_app_iff; auto|right; assumption].
        * destruct He as [He|He]; [|auto]. left. destruct p; cbn [use]; [apply in_app_iff; auto|right; assumption].
    - destruct (lookup keq k es) as [w|] eqn:El; [|left; rewrite in_app_iff; assumption].
      destruct He as [He|He]; [|left; rewrite in_app_iff; auto].
      destruct (Huse k w es El e He) as [H|[<- H] ]; [left; rewrite in_app_iff; auto|]. right. exists w. rewrite in_app_iff. auto.
    - left. rewrite !in_app_iff. destruct He as [He|He]; [|auto]. destruct (Hsplit (length es - n) es He); auto.
    - left. rewrite !in_app_iff. destruct He as [He|He]; [|auto]. destruct (Hsplit 1 es He); auto.
  Qed.
End Props.

(** A history in which the cache is full, an entry is used again and another evicted. *)
Definition lru_history : list (lru_op nat nat) := [LPut 1 10; LPut 2 20; LGet 1 11; LPut 3 30; LGet 2 21; LPut 1 12].
Example C25_most_recent_example : Forall put_or_get lru_history /\
  map fst (entries (lru_list (lru_run Nat.eqb (fun k => k) lru_history (lru_new 2)))) = [1; 2] /\
  firstn 2 (recent Nat.eqb (used lru_history)) = [1; 2] /\
  entries (lru_list (lru_run Nat.eqb (fun k => k) lru_history (lru_new 2))) = [(1, 12); (2, 21)] /\
  entries (lru_list (lru_run Nat.eqb (fun k => k) (lru_history ++ [LResize 1; LGet 7 70; LDrop 7]) (lru_new 2))) = [].
Proof. split; [repeat constructor; eexists; reflexivity|]. vm_compute. auto. Qed.
Example C25_flat_example : Forall (@flat_valid nat nat) [FGet 1 10; FGet 2 20; FGet 1 11; FGet 3 30; FResize 1] /\
  option_map fl_elements (flat_run Nat.eqb [FGet 1 10; FGet 2 20; FGet 1 11; FGet 3 30] (flat_new 2)) = Some [(1, 10); (3, 30)].
Proof. split; [repeat constructor|reflexivity]. Qed.
Example C25_cache_example : exists c, @cache_new nat nat Lru 2 = Some c /\
  cache_history Nat.eqb c [CInsert 1 10; CInsert 2 20; CFind 1; CInsert 3 30; CEvict] /\
  option_map cache_view (cache_run Nat.eqb [CInsert 1 10; CInsert 2 20; CFind 1; CInsert 3 30; CEvict] c)
    = Some (Lru, 2, [(3, 30)], [(2, 20); (1, 10)]).
Proof.
  eexists. split; [reflexivity|]. split; [|reflexivity]. cbn [cache_history].
  repeat (split; [exact I|]; let c' := fresh "c" in let E := fresh "E" in intros c' E; vm_compute in E; injection E as <-).
  split; [vm_compute; discriminate|]. intros ? _. exact I.
Qed.
Example C25_cache_nothing_lost_example : cache_spec Nat.eqb (Lru, 2, [(1, 10); (2, 20)], []) (CInsert 3 30) = (Lru, 2, [(2, 20); (3, 30)], [(1, 10)]).
Proof. reflexivity. Qed.

(** Without capacity, [put] and [get_or_load] return a reference to an entry that was
    already destroyed. *)
Theorem C25_zero_capacity_refuted : exists (k v : nat), snd (lru_put Nat.eqb (fun k => k) (lru_new 0) k v) = None.
Proof. exists 1, 2. reflexivity. Qed.
(** Without capacity, adding to a [flat_lru_cache] is undefined. *)
Theorem C25_flat_zero_refuted : exists e : nat * nat, flat_add (flat_new 0) e = None.
Proof. exists (1, 2). reflexivity. Qed.
(** [put] indexes the new entry under the moved-from key. With a key type whose moved-from
    value differs, such as strings, the entry is not found afterwards, and entries that
    are indexed under the same moved-from value make the cache exceed its capacity. *)
Theorem C25_moved_key_refuted : exists (k v : list nat) (v2 : list nat),
  let c := lru_run (fun a b => if list_eq_dec Nat.eq_dec a b then true else false) (fun _ => []) [LPut k v; LPut v v2] (lru_new 1) in
  lru_contains (fun a b => if list_eq_dec Nat.eq_dec a b then true else false) c k = false /\
  lru_max c < length (lru_list c).
Proof. exists [1], [2], [3]. vm_compute. split; [reflexivity|lia]. Qed.

Definition assumptions_lru := (@C25_most_recent, @C25_within_capacity, @C25_operations, @C25_put_then_get, @C25_flat,
  @C25_flat_most_recent, @C25_cache, @C25_cache_answers, @C25_cache_nothing_lost, C25_zero_capacity_refuted, C25_flat_zero_refuted, C25_moved_key_refuted).
Print Assumptions assumptions_lru.
