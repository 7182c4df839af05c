(** Proofs about the caches of LruModel. *)
From Coq Require Import List Bool Arith Lia Permutation.
From Verif Require Import LruModel.
Import ListNotations.
Open Scope nat_scope.

Section Specification.
  Context {K V : Type} (keq : K -> K -> bool).

  (** What a user keeps in mind: a list of entries, most recently used first. *)
  Definition lookup (k : K) (es : list (K * V)) : option V := option_map snd (find (fun e => keq (fst e) k) es).
  Definition without (k : K) (es : list (K * V)) : list (K * V) := filter (fun e => negb (keq (fst e) k)) es.

  (** The distinct keys of a history, most recent first. *)
  Fixpoint recent (ks : list K) : list K :=
    match ks with [] => [] | k :: ks' => k :: filter (fun x => negb (keq x k)) (recent ks') end.

  (** The effect of an operation on the entries and the capacity, and its answer. *)
  Definition lru_spec (s : nat * list (K * V)) (o : lru_op K V) : (nat * list (K * V)) * option V :=
    let '(cap, es) := s in
    match o with
    | LPut k v => ((cap, firstn cap ((k, v) :: without k es)), if cap =? 0 then None else Some v)
    | LGet k v => match lookup k es with
                  | Some w => ((cap, (k, w) :: without k es), Some w)
                  | None => ((cap, firstn cap ((k, v) :: es)), if cap =? 0 then None else Some v)
                  end
    | LDrop k => ((cap, without k es), None)
    | LEject k v => ((cap, without k es), Some (match lookup k es with Some w => w | None => v end))
    | LResize n => ((n, firstn n es), None)
    | LClear => ((cap, []), None)
    end.
  Definition lru_spec_run (ops : list (lru_op K V)) (s : nat * list (K * V)) : nat * list (K * V) :=
    fold_left (fun s o => fst (lru_spec s o)) ops s.
End Specification.

Section Proofs.
  Context {K V : Type} (keq : K -> K -> bool).
  Hypothesis keq_eq : forall a b, keq a b = true <-> a = b.

  Notation node := (node K V).
  Definition entries (l : list node) : list (K * V) := map (fun n => (n_key n, n_val n)) l.

  (** The list and the map agree. *)
  Definition agree (l : list node) (m : list (K * nat)) (fresh : nat) : Prop :=
    NoDup (map n_key l) /\ NoDup (map n_id l) /\ NoDup (map fst m) /\ (forall n, In n l -> n_id n < fresh)
    /\ (forall k i, In (k, i) m <-> exists n, In n l /\ n_key n = k /\ n_id n = i).

  Lemma keq_refl : forall a, keq a a = true.
  Proof using keq_eq. intros a. apply keq_eq. reflexivity. Qed.
  Lemma keq_neq : forall a b, keq a b = false <-> a <> b.
  Proof using keq_eq.
    intros a b. destruct (keq a b) eqn:E.
    - apply keq_eq in E. split; [discriminate|congruence].
    - split; [|reflexivity]. intros _ Heq. apply keq_eq in Heq. congruence.
  Qed.

  Lemma NoDup_filter' : forall (A : Type) (f : A -> bool) xs, NoDup xs -> NoDup (filter f xs).
  Proof using. intros A f xs H. induction H; cbn; [constructor|]. destruct (f x); [|assumption]. constructor; [|assumption]. rewrite filter_In. tauto. Qed.
  Lemma filter_shorter : forall (A : Type) (f : A -> bool) xs, length (filter f xs) <= length xs.
  Proof using. induction xs as [|x xs IH]; cbn; [lia|]. destruct (f x); cbn; lia. Qed.
  Lemma NoDup_map_filter : forall (A B : Type) (g : A -> B) (f : A -> bool) xs, NoDup (map g xs) -> NoDup (map g (filter f xs)).
  Proof using.
    intros A B g f xs. induction xs as [|x xs IH]; cbn; intros H; [constructor|].
    inversion H; subst. destruct (f x); cbn; [|auto]. constructor; [|auto].
    rewrite in_map_iff in *. intros [y [E Hy]]. apply H2. exists y. apply filter_In in Hy. tauto.
  Qed.
  Lemma NoDup_key : forall (A B : Type) (g : A -> B) xs x y, NoDup (map g xs) -> In x xs -> In y xs -> g x = g y -> x = y.
  Proof using.
    intros A B g xs x y. induction xs as [|z xs IH]; cbn; intros H Hx Hy E; [easy|]. inversion H; subst.
    destruct Hx as [->|Hx], Hy as [->|Hy]; auto.
    - exfalso. apply H2. rewrite E. apply in_map. assumption.
    - exfalso. apply H2. rewrite <- E. apply in_map. assumption.
  Qed.

  (** * The map *)
  Lemma find_map_in : forall m k i, NoDup (map fst m) -> (find_map keq k m = Some i <-> In (k, i) m).
  Proof using keq_eq.
    induction m as [|[x j] m IH]; cbn; intros k i H; [split; [discriminate|easy]|]. inversion H; subst.
    destruct (keq x k) eqn:E.
    - apply keq_eq in E. subst x. split.
      + intros [= ->]. auto.
      + intros [[= ->]|Hin]; [reflexivity|]. exfalso. apply H2. apply (in_map fst) in Hin. assumption.
    - rewrite IH by assumption. split; [auto|]. intros [[= -> ->]|Hin]; [|assumption]. rewrite keq_refl in E. discriminate.
  Qed.
  Lemma find_map_none : forall m k, find_map keq k m = None <-> ~ In k (map fst m).
  Proof using keq_eq.
    induction m as [|[x j] m IH]; cbn; intros k; [tauto|]. destruct (keq x k) eqn:E.
    - apply keq_eq in E. subst. split; [discriminate|tauto].
    - rewrite IH. apply keq_neq in E. tauto.
  Qed.
  Lemma del_map_in : forall m k x i, In (x, i) (del_map keq k m) <-> In (x, i) m /\ x <> k.
  Proof using keq_eq. intros. unfold del_map. rewrite filter_In. cbn. rewrite negb_true_iff, keq_neq. tauto. Qed.
  Lemma del_map_nodup : forall m k, NoDup (map fst m) -> NoDup (map fst (del_map keq k m)).
  Proof using. intros. apply NoDup_map_filter. assumption. Qed.
  Lemma set_map_fresh : forall m k i, ~ In k (map fst m) -> set_map keq k i m = m ++ [(k, i)].
  Proof using keq_eq.
    induction m as [|[x j] m IH]; cbn; intros k i H; [reflexivity|]. destruct (keq x k) eqn:E.
    - apply keq_eq in E. tauto.
    - rewrite IH by tauto. reflexivity.
  Qed.

  (** * The list *)
  Lemma find_node_in : forall (l : list node) i n, find_node i l = Some n -> In n l /\ n_id n = i.
  Proof using. intros l i n H. apply find_some in H. rewrite Nat.eqb_eq in H. assumption. Qed.
  Lemma find_node_unique : forall (l : list node) n, NoDup (map n_id l) -> In n l -> find_node (n_id n) l = Some n.
  Proof using.
    intros l n H Hin. destruct (find_node (n_id n) l) as [x|] eqn:E.
    - apply find_node_in in E as [H1 H2]. f_equal. eapply NoDup_key with (g := n_id); eauto.
    - pose proof (find_none _ _ E _ Hin) as F. cbn in F. rewrite Nat.eqb_refl in F. discriminate.
  Qed.
  Lemma erase_node_in : forall (l : list node) i n, In n (erase_node i l) <-> In n l /\ n_id n <> i.
  Proof using. intros. unfold erase_node. rewrite filter_In, negb_true_iff, Nat.eqb_neq. tauto. Qed.
  Lemma entries_erase : forall (l : list node) n, NoDup (map n_key l) -> NoDup (map n_id l) -> In n l ->
    entries (erase_node (n_id n) l) = without keq (n_key n) (entries l).
  Proof using keq_eq.
    intros l n Hk Hi Hin. unfold entries, erase_node, without.
    assert (forall l', incl l' l -> map (fun n => (n_key n, n_val n)) (filter (fun n0 => negb (n_id n0 =? n_id n)) l') =
              filter (fun e => negb (keq (fst e) (n_key n))) (map (fun n => (n_key n, n_val n)) l')) as G.
    { induction l' as [|x l' IH]; cbn; intros Hincl; [reflexivity|].
      assert (keq (n_key x) (n_key n) = (n_id x =? n_id n)) as ->.
      { apply eq_true_iff_eq. rewrite keq_eq, Nat.eqb_eq.
        assert (In x l) as Hx by (apply Hincl; left; reflexivity). split; intros E.
        - assert (x = n) as -> by (eapply NoDup_key with (g := n_key); eauto). reflexivity.
        - assert (x = n) as -> by (eapply NoDup_key with (g := n_id); eauto). reflexivity. }
      destruct (negb (n_id x =? n_id n)); cbn; rewrite IH; auto; intros y Hy; apply Hincl; right; assumption. }
    apply G. apply incl_refl.
  Qed.
  Lemma without_absent : forall (es : list (K * V)) k, ~ In k (map fst es) -> without keq k es = es.
  Proof using keq_eq.
    unfold without. induction es as [|[x v] es IH]; cbn; intros k H; [reflexivity|].
    destruct (keq x k) eqn:E; cbn; [apply keq_eq in E; tauto|]. rewrite IH by tauto. reflexivity.
  Qed.
  Lemma lookup_present : forall (l : list node) n, NoDup (map n_key l) -> In n l -> lookup keq (n_key n) (entries l) = Some (n_val n).
  Proof using keq_eq.
    unfold lookup, entries. induction l as [|x l IH]; cbn; intros n H Hin; [easy|]. inversion H; subst.
    destruct Hin as [->|Hin]; [rewrite keq_refl; reflexivity|].
    destruct (keq (n_key x) (n_key n)) eqn:E; [|auto]. apply keq_eq in E. exfalso. apply H2. rewrite E. apply in_map. assumption.
  Qed.
  Lemma lookup_absent : forall (es : list (K * V)) k, ~ In k (map fst es) <-> lookup keq k es = None.
  Proof using keq_eq.
    unfold lookup. induction es as [|[x v] es IH]; cbn; intros k; [tauto|].
    destruct (keq x k) eqn:E; cbn.
    - apply keq_eq in E. split; [tauto|discriminate].
    - rewrite <- IH. apply keq_neq in E. tauto.
  Qed.
  Lemma map_fst_entries : forall (l : list node), map fst (entries l) = map n_key l.
  Proof using. intros. unfold entries. rewrite map_map. reflexivity. Qed.

  (** * Agreement *)
  Lemma agree_key : forall (l : list node) m f k, agree l m f -> (In k (map fst m) <-> In k (map n_key l)).
  Proof using.
    intros l m f k (_ & _ & _ & _ & H). rewrite !in_map_iff. split.
    - intros [[x i] [<- Hin]]. apply H in Hin as (n & Hn & <- & _). exists n. auto.
    - intros [n [<- Hn]]. exists (n_key n, n_id n). split; [reflexivity|]. apply H. exists n. auto.
  Qed.
  Lemma agree_length : forall l m f, agree l m f -> length m = length l.
  Proof using.
    intros l m f H. rewrite <- (map_length fst m), <- (map_length n_key l). apply Permutation_length.
    apply NoDup_Permutation; try apply H. intros k. apply (agree_key _ _ _ _ H).
  Qed.
  Lemma agree_find : forall l m f k i, agree l m f -> find_map keq k m = Some i ->
    exists n, In n l /\ n_key n = k /\ n_id n = i /\ find_node i l = Some n.
  Proof using keq_eq.
    intros l m f k i H E. apply find_map_in in E; [|apply H]. apply H in E as (n & Hn & Hk & Hid).
    exists n. repeat split; auto. rewrite <- Hid. apply find_node_unique; [apply H|assumption].
  Qed.
  Lemma agree_find_none : forall l m f k, agree l m f -> find_map keq k m = None -> ~ In k (map n_key l).
  Proof using keq_eq. intros l m f k H E. apply find_map_none in E. rewrite <- (agree_key _ _ _ _ H). assumption. Qed.
  Lemma agree_nil : forall f, agree [] [] f.
  Proof using.
    intros f. unfold agree. cbn. split; [constructor|]. split; [constructor|]. split; [constructor|]. split; [easy|].
    intros k i. split; [easy|]. intros (n & [] & _).
  Qed.
  Lemma agree_erase : forall l m f n, agree l m f -> In n l -> agree (erase_node (n_id n) l) (del_map keq (n_key n) m) f.
  Proof using keq_eq.
    intros l m f n H Hin. destruct H as (Hk & Hi & Hm & Hf & Hc). unfold agree.
    split; [apply NoDup_map_filter; assumption|]. split; [apply NoDup_map_filter; assumption|].
    split; [apply del_map_nodup; assumption|]. split; [intros x Hx; apply erase_node_in in Hx; apply Hf; tauto|].
    intros k i. rewrite del_map_in, Hc. split.
    - intros [(x & Hx & <- & <-) Hne]. exists x. rewrite erase_node_in. repeat split; auto.
      intros E. apply Hne. assert (x = n) as -> by (eapply NoDup_key with (g := n_id); eauto). reflexivity.
    - intros (x & Hx & <- & <-). apply erase_node_in in Hx as [Hx Hne]. split; [exists x; auto|].
      intros E. apply Hne. assert (x = n) as -> by (eapply NoDup_key with (g := n_key); eauto). reflexivity.
  Qed.
  Lemma agree_permute : forall l l' m f, agree l m f -> Permutation l l' -> agree l' m f.
  Proof using.
    intros l l' m f (Hk & Hi & Hm & Hf & Hc) P. unfold agree.
    split; [eapply Permutation_NoDup; [apply Permutation_map; eassumption|assumption]|].
    split; [eapply Permutation_NoDup; [apply Permutation_map; eassumption|assumption]|].
    split; [assumption|].
    split; [intros n Hn; apply Hf; eapply Permutation_in; [apply Permutation_sym; eassumption|assumption]|].
    intros k i. rewrite Hc. split; intros (n & Hn & E); exists n; split; auto.
    - eapply Permutation_in; eassumption.
    - eapply Permutation_in; [apply Permutation_sym; eassumption|assumption].
  Qed.
  Lemma agree_add : forall l m f k v, agree l m f -> ~ In k (map n_key l) ->
    agree (Node f k v :: l) (m ++ [(k, f)]) (S f).
  Proof using.
    intros l m f k v H Habs. pose proof (agree_key _ _ _ k H) as Hkey. destruct H as (Hk & Hi & Hm & Hf & Hc). unfold agree. cbn.
    split; [constructor; assumption|].
    split; [constructor; [|assumption]; rewrite in_map_iff; intros (n & E & Hn); apply Hf in Hn; lia|].
    split.
    { rewrite map_app. cbn. apply (Permutation_NoDup (l := k :: map fst m)); [apply Permutation_cons_append|].
      constructor; [rewrite Hkey; assumption|assumption]. }
    split; [intros n [<-|Hn]; cbn; [lia|apply Hf in Hn; lia]|].
    intros x i. rewrite in_app_iff, Hc. cbn. split.
    - intros [(n & Hn & E)|[[= <- <-]|[]]]; [exists n; auto|]. exists (Node f k v). auto.
    - intros (n & [<-|Hn] & E1 & E2); cbn in *; [subst; auto|]. left. exists n. auto.
  Qed.
  Lemma removelast_rev : forall (A : Type) (l : list A) n r, rev l = n :: r -> removelast l = rev r /\ l = removelast l ++ [n].
  Proof using.
    intros A l n r H. assert (l = rev r ++ [n]) as -> by (rewrite <- (rev_involutive l), H; reflexivity).
    rewrite removelast_last. split; reflexivity.
  Qed.
  Lemma erase_middle : forall (a b : list node) n, NoDup (map n_id (a ++ n :: b)) -> erase_node (n_id n) (a ++ n :: b) = a ++ b.
  Proof using.
    intros a b n H. unfold erase_node. rewrite filter_app. cbn. rewrite Nat.eqb_refl. cbn.
    rewrite map_app in H. cbn in H. apply NoDup_remove_2 in H. rewrite in_app_iff in H.
    assert (forall c, ~ In (n_id n) (map n_id c) -> filter (fun x : node => negb (n_id x =? n_id n)) c = c) as G.
    { induction c as [|x c IH]; cbn; intros Hc; [reflexivity|]. destruct (Nat.eqb_spec (n_id x) (n_id n)); cbn; [tauto|].
      rewrite IH by tauto. reflexivity. }
    rewrite !G by tauto. reflexivity.
  Qed.
  Lemma agree_last : forall l m f n r, agree l m f -> rev l = n :: r -> agree (removelast l) (del_map keq (n_key n) m) f.
  Proof using keq_eq.
    intros l m f n r H E. destruct (removelast_rev _ _ _ _ E) as [_ E2].
    assert (In n l) as Hin by (rewrite in_rev, E; left; reflexivity).
    assert (removelast l = erase_node (n_id n) l) as ->; [|apply agree_erase; assumption].
    rewrite E2 at 2. rewrite erase_middle; [rewrite app_nil_r; reflexivity|]. rewrite <- E2. apply H.
  Qed.

  (** * [lru_cache] *)
  Definition lru_ok (c : lru K V) : Prop :=
    agree (lru_list c) (lru_map c) (lru_fresh c) /\ length (lru_list c) <= lru_max c.

  Lemma lru_new_ok : forall max, lru_ok (lru_new max).
  Proof using. intros max. split; [apply agree_nil|cbn; lia]. Qed.

  Lemma firstn_removelast' : forall (A : Type) (l : list A) n, length l = S n -> firstn n l = removelast l.
  Proof using.
    intros A l n H. destruct (rev l) as [|x r] eqn:E.
    - apply (f_equal (@length A)) in E. rewrite rev_length in E. cbn in E. lia.
    - destruct (removelast_rev _ _ _ _ E) as [_ E2]. rewrite E2 in H at 1. rewrite app_length in H. cbn in H.
      rewrite E2 at 1. rewrite firstn_app. replace (n - length (removelast l)) with 0 by lia. cbn. rewrite app_nil_r.
      apply firstn_all2. lia.
  Qed.
  Lemma entries_firstn : forall n (l : list node), entries (firstn n l) = firstn n (entries l).
  Proof using. intros. unfold entries. symmetry. apply firstn_map. Qed.
  Lemma entries_length : forall l : list node, length (entries l) = length l.
  Proof using. intros. unfold entries. apply map_length. Qed.

  Lemma lru_put_spec : forall c k v, lru_ok c ->
    let '(c', r) := lru_put keq (fun k => k) c k v in
    lru_ok c' /\ lru_max c' = lru_max c /\
    entries (lru_list c') = firstn (lru_max c) ((k, v) :: without keq k (entries (lru_list c))) /\
    r = (if lru_max c =? 0 then None else Some v).
  Proof using keq_eq.
    intros c k v [A Hlen]. unfold lru_put. set (i := lru_fresh c).
    assert (exists l2 m2, (match find_map keq k (lru_map c) with
                     | Some old => (erase_node old (Node i k v :: lru_list c), del_map keq k (lru_map c))
                     | None => (Node i k v :: lru_list c, lru_map c)
                     end) = (Node i k v :: l2, m2) /\ agree l2 m2 i /\ ~ In k (map n_key l2)
                     /\ length l2 <= lru_max c /\ entries l2 = without keq k (entries (lru_list c))) as (l2 & m2 & -> & A2 & Habs & Hl2 & He).
    { destruct (find_map keq k (lru_map c)) as [old|] eqn:E.
      - destruct (agree_find _ _ _ _ _ A E) as (n & Hn & Hk & Hid & _). subst k old.
        exists (erase_node (n_id n) (lru_list c)), (del_map keq (n_key n) (lru_map c)).
        split. { unfold erase_node at 1. cbn. assert (n_id n < i) by (apply A; assumption).
          destruct (Nat.eqb_spec i (n_id n)); [lia|]. reflexivity. }
        split; [apply agree_erase; assumption|].
        split. { rewrite in_map_iff. intros (x & Ek & Hx). apply erase_node_in in Hx as [Hx Hne]. apply Hne.
          assert (x = n) as -> by (eapply NoDup_key with (g := n_key); eauto; apply A). reflexivity. }
        split; [unfold erase_node; etransitivity; [apply filter_shorter|assumption]|].
        apply entries_erase; [apply A|apply A|assumption].
      - exists (lru_list c), (lru_map c). split; [reflexivity|]. split; [assumption|].
        pose proof (agree_find_none _ _ _ _ A E). repeat split; auto.
        rewrite without_absent; [reflexivity|]. rewrite map_fst_entries. assumption. }
    rewrite (set_map_fresh m2) by (rewrite (agree_key _ _ _ _ A2); assumption).
    pose proof (agree_add _ _ _ k v A2 Habs) as A3. rewrite (agree_length _ _ _ A3). rewrite <- He. clear He. cbn [length].
    change ((k, v) :: entries l2) with (entries (Node i k v :: l2)). rewrite <- entries_firstn.
    destruct (Nat.ltb_spec (lru_max c) (S (length l2))) as [Hlt|Hge].
    - destruct (rev (Node i k v :: l2)) as [|n r] eqn:E.
      { apply (f_equal (@length _)) in E. rewrite rev_length in E. discriminate. }
      pose proof (agree_last _ _ _ _ _ A3 E) as A4.
      cbv beta iota.
      assert (S (length l2) = S (lru_max c)) as Hl by lia.
      rewrite firstn_removelast' by (cbn [length]; assumption).
      split; [split; [exact A4|]|]; cbn [lru_list lru_max lru_map].
      { destruct (removelast_rev _ _ _ _ E) as [_ E2]. apply (f_equal (@length _)) in E2. rewrite app_length in E2. cbn [length] in E2. lia. }
      split; [reflexivity|]. split; [reflexivity|].
      destruct (lru_max c) as [|cap]; cbn [Nat.eqb].
      + destruct l2; [|cbn in Hl; lia]. reflexivity.
      + destruct l2 as [|y l2]; [cbn in Hl; lia|]. unfold find_node.
        change (removelast (Node i k v :: y :: l2)) with (Node i k v :: removelast (y :: l2)).
        cbn [find n_id]. rewrite Nat.eqb_refl. reflexivity.
    - cbv beta iota. split; [split; [exact A3|cbn [lru_list lru_max length]; lia]|]. cbn [lru_list lru_max].
      split; [reflexivity|]. split; [rewrite firstn_all2 by (cbn [length]; lia); reflexivity|].
      unfold find_node. cbn [find n_id]. rewrite Nat.eqb_refl. destruct (Nat.eqb_spec (lru_max c) 0); [lia|reflexivity].
  Qed.

  Lemma access_permutation : forall (l : list node) n, NoDup (map n_id l) -> In n l -> Permutation l (n :: erase_node (n_id n) l).
  Proof using.
    intros l n H Hin. apply in_split in Hin as (a & b & ->). rewrite erase_middle by assumption.
    apply Permutation_sym, Permutation_middle.
  Qed.

  Lemma lru_get_spec : forall c k v, lru_ok c ->
    let '(c', r) := lru_get keq (fun k => k) c k v in
    lru_ok c' /\ lru_max c' = lru_max c /\ (entries (lru_list c'), r) =
      match lookup keq k (entries (lru_list c)) with
      | Some w => ((k, w) :: without keq k (entries (lru_list c)), Some w)
      | None => (firstn (lru_max c) ((k, v) :: entries (lru_list c)), if lru_max c =? 0 then None else Some v)
      end.
  Proof using keq_eq.
    intros c k v [A Hlen]. unfold lru_get. destruct (find_map keq k (lru_map c)) as [i|] eqn:E.
    - destruct (agree_find _ _ _ _ _ A E) as (n & Hn & Hk & Hid & Hf). subst k i.
      rewrite lookup_present by (try assumption; apply A). unfold to_front. rewrite Hf.
      assert (Permutation (lru_list c) (n :: erase_node (n_id n) (lru_list c))) as P by (apply access_permutation; [apply A|assumption]).
      split; [split|]; cbn [lru_list lru_max lru_map lru_fresh].
      + eapply agree_permute; eassumption.
      + rewrite <- (Permutation_length P). assumption.
      + split; [reflexivity|]. cbn [entries map]. change (map (fun n => (n_key n, n_val n))) with entries.
        rewrite entries_erase by (try assumption; apply A). reflexivity.
    - pose proof (agree_find_none _ _ _ _ A E) as Habs. rewrite <- map_fst_entries in Habs.
      pose proof (lru_put_spec c k v (conj A Hlen)) as P. destruct (lru_put keq (fun k => k) c k v) as [c' r].
      destruct P as (P1 & P2 & P3 & P4). split; [assumption|]. split; [assumption|]. rewrite P3, P4.
      rewrite (proj1 (lookup_absent _ _) Habs), without_absent by assumption. reflexivity.
  Qed.

  Lemma lru_drop_spec : forall c k, lru_ok c ->
    lru_ok (lru_drop keq c k) /\ lru_max (lru_drop keq c k) = lru_max c /\
    entries (lru_list (lru_drop keq c k)) = without keq k (entries (lru_list c)).
  Proof using keq_eq.
    intros c k [A Hlen]. unfold lru_drop. destruct (find_map keq k (lru_map c)) as [i|] eqn:E.
    - destruct (agree_find _ _ _ _ _ A E) as (n & Hn & Hk & Hid & Hf). subst k i. cbn [lru_list lru_max].
      split; [split; [apply agree_erase; assumption|unfold erase_node; cbn [lru_list lru_max]; etransitivity; [apply filter_shorter|assumption] ]|].
      split; [reflexivity|]. apply entries_erase; [apply A|apply A|assumption].
    - split; [split; assumption|]. split; [reflexivity|]. rewrite without_absent; [reflexivity|].
      rewrite map_fst_entries. eapply agree_find_none; eassumption.
  Qed.

  Lemma agree_keep : forall l1 l2 m f, agree (l1 ++ l2) m f -> agree l1 (fold_left (fun m n => del_map keq (n_key n) m) l2 m) f.
  Proof using keq_eq.
    intros l1 l2. revert l1. induction l2 as [|n l2 IH]; cbn; intros l1 m f A; [rewrite app_nil_r in A; assumption|].
    apply IH. rewrite <- (erase_middle l1 l2 n) by apply A. apply agree_erase; [assumption|]. rewrite in_app_iff. cbn. auto.
  Qed.
  Lemma lru_resize_spec : forall c n, lru_ok c ->
    lru_ok (lru_resize keq c n) /\ lru_max (lru_resize keq c n) = n /\
    entries (lru_list (lru_resize keq c n)) = firstn n (entries (lru_list c)).
  Proof using keq_eq.
    intros c n [A Hlen]. unfold lru_resize. destruct (Nat.ltb_spec n (length (lru_list c))); cbn [lru_list lru_max].
    - split; [split; cbn [lru_list lru_max lru_map lru_fresh]|].
      + apply agree_keep. rewrite firstn_skipn. assumption.
      + rewrite firstn_length. lia.
      + split; [reflexivity|]. apply entries_firstn.
    - split; [split; cbn [lru_list lru_max lru_map lru_fresh]; auto|]. split; [reflexivity|]. rewrite firstn_all2; [reflexivity|].
      rewrite entries_length. assumption.
  Qed.

  Lemma lru_step_spec : forall c o, lru_ok c ->
    let '(c', r) := lru_step keq (fun k => k) c o in
    lru_ok c' /\ ((lru_max c', entries (lru_list c')), r) = lru_spec keq (lru_max c, entries (lru_list c)) o.
  Proof using keq_eq.
    intros c o H. destruct o as [k v|k v|k|k v|n|]; cbn [lru_step lru_spec].
    - pose proof (lru_put_spec c k v H) as P. destruct (lru_put keq (fun k => k) c k v) as [c' r].
      destruct P as (P1 & P2 & P3 & P4). rewrite P2, P3, P4. auto.
    - pose proof (lru_get_spec c k v H) as P. destruct (lru_get keq (fun k => k) c k v) as [c' r].
      destruct P as (P1 & P2 & P3). split; [assumption|]. rewrite P2.
      destruct (lookup keq k (entries (lru_list c))); injection P3 as -> ->; reflexivity.
    - destruct (lru_drop_spec c k H) as (P1 & P2 & P3). rewrite P2, P3. auto.
    - unfold lru_eject. destruct H as [A Hlen]. destruct (find_map keq k (lru_map c)) as [i|] eqn:E.
      + destruct (lru_drop_spec c k (conj A Hlen)) as (P1 & P2 & P3). rewrite P2, P3. split; [assumption|].
        destruct (agree_find _ _ _ _ _ A E) as (n & Hn & Hk & Hid & Hf). subst k i. rewrite Hf.
        rewrite lookup_present by (try assumption; apply A). reflexivity.
      + split; [split; assumption|]. pose proof (agree_find_none _ _ _ _ A E) as Habs. rewrite <- map_fst_entries in Habs.
        rewrite (proj1 (lookup_absent _ _) Habs), without_absent by assumption. reflexivity.
    - destruct (lru_resize_spec c n H) as (P1 & P2 & P3). rewrite P2, P3. auto.
    - split; [split; [apply agree_nil|cbn; lia]|]. reflexivity.
  Qed.

  Lemma lru_run_spec : forall ops c, lru_ok c ->
    let c' := lru_run keq (fun k => k) ops c in
    lru_ok c' /\ (lru_max c', entries (lru_list c')) = lru_spec_run keq ops (lru_max c, entries (lru_list c)).
  Proof using keq_eq.
    unfold lru_run, lru_spec_run. induction ops as [|o ops IH]; cbn [fold_left]; intros c H; [auto|].
    pose proof (lru_step_spec c o H) as P. destruct (lru_step keq (fun k => k) c o) as [c' r]. destruct P as [P1 P2].
    rewrite <- P2. cbn [fst]. apply IH. assumption.
  Qed.

  (** * Histories *)
  Lemma recent_in : forall ks k, In k (recent keq ks) <-> In k ks.
  Proof using keq_eq.
    induction ks as [|a ks IH]; cbn; intros k; [tauto|]. rewrite filter_In, IH, negb_true_iff, keq_neq.
    split; [tauto|]. intros [->|H]; [auto|]. destruct (keq k a) eqn:E; [apply keq_eq in E; auto|apply keq_neq in E; auto].
  Qed.
  Lemma recent_nodup : forall ks, NoDup (recent keq ks).
  Proof using keq_eq.
    induction ks as [|a ks IH]; cbn; [constructor|]. constructor; [|apply NoDup_filter'; assumption].
    rewrite filter_In, negb_true_iff, keq_neq. tauto.
  Qed.
  Lemma filter_firstn_present : forall (l : list K) k cap, NoDup l -> In k (firstn cap l) ->
    k :: filter (fun x => negb (keq x k)) (firstn cap l) = firstn cap (k :: filter (fun x => negb (keq x k)) l).
  Proof using keq_eq.
    intros l k cap Hnd Hin. destruct cap as [|cap]; [destruct Hin|].
    replace (firstn (S cap) (k :: filter (fun x => negb (keq x k)) l)) with (k :: firstn cap (filter (fun x => negb (keq x k)) l)) by reflexivity. f_equal.
    assert (forall l cap, ~ In k l -> filter (fun x => negb (keq x k)) (firstn cap l) = firstn cap (filter (fun x => negb (keq x k)) l)) as Nope.
    { induction l0 as [|a l0 IH]; intros c Hn; [destruct c; reflexivity|]. cbn. cbn in Hn.
      destruct c as [|c]; cbn; [reflexivity|]. destruct (keq a k) eqn:E; cbn; [apply keq_eq in E; tauto|].
      rewrite IH by tauto. reflexivity. }
    assert (forall l, ~ In k l -> filter (fun x => negb (keq x k)) l = l) as Same.
    { induction l0 as [|a l0 IH]; cbn; intros Hn; [reflexivity|]. destruct (keq a k) eqn:E; cbn; [apply keq_eq in E; tauto|]. rewrite IH by tauto. reflexivity. }
    revert cap Hin. induction l as [|a l IH]; intros cap Hin; [destruct cap; reflexivity|].
    inversion Hnd; subst. cbn [firstn filter]. destruct (keq a k) eqn:E; cbn [negb].
    - apply keq_eq in E. subst a. rewrite !Same; auto. intros Hin'. apply H1. rewrite <- (firstn_skipn cap l). apply in_app_iff. auto.
    - cbn [firstn] in Hin. destruct Hin as [Hin|Hin]; [apply keq_neq in E; congruence|].
      destruct cap as [|cap]; [destruct Hin|]. cbn [firstn]. f_equal. apply IH; assumption.
  Qed.
  Lemma filter_firstn_absent : forall (l : list K) k cap, ~ In k (firstn cap l) ->
    firstn cap (k :: firstn cap l) = firstn cap (k :: filter (fun x => negb (keq x k)) l).
  Proof using keq_eq.
    intros l k cap H. destruct cap as [|cap]; [reflexivity|]. rewrite !firstn_cons. f_equal.
    rewrite firstn_firstn. replace (min cap (S cap)) with cap by lia.
    revert cap H. induction l as [|a l IH]; intros cap H; [reflexivity|]. cbn [firstn] in H. cbn in H.
    destruct cap as [|cap]; [reflexivity|]. cbn [filter firstn].
    destruct (keq a k) eqn:E; cbn [negb]; [apply keq_eq in E; tauto|]. cbn [firstn]. f_equal. apply IH. tauto.
  Qed.

  (** The keys used by puts and loads, most recent first. *)
  Definition op_key (o : lru_op K V) : option K :=
    match o with LPut k _ | LGet k _ => Some k | _ => None end.
  Definition used (ops : list (lru_op K V)) : list K := rev (flat_map (fun o => match op_key o with Some k => [k] | None => [] end) ops).
  Definition put_or_get (o : lru_op K V) : Prop := exists k, op_key o = Some k.

  Lemma map_fst_without : forall k es, map fst (@without K V keq k es) = filter (fun x => negb (keq x k)) (map fst es).
  Proof using. unfold without. induction es as [|[x v] es IH]; cbn; [reflexivity|]. destruct (keq x k); cbn; rewrite ?IH; reflexivity. Qed.

  Lemma spec_history_step : forall cap es o ks, put_or_get o -> NoDup ks -> map fst es = firstn cap ks ->
    forall k, op_key o = Some k ->
    fst (fst (lru_spec keq (cap, es) o)) = cap /\
    map fst (snd (fst (lru_spec keq (cap, es) o))) = firstn cap (k :: filter (fun x => negb (keq x k)) ks).
  Proof using keq_eq.
    intros cap es o ks Ho Hnd He k Hk. destruct o as [k' v|k' v|k'|k' v|n|]; cbn in Hk; try discriminate; injection Hk as ->; cbn [lru_spec].
    - split; [reflexivity|]. cbn [fst snd]. rewrite <- firstn_map. cbn [map fst]. rewrite map_fst_without, He.
      destruct (in_dec (fun a b => match bool_dec (keq a b) true with left e => left (proj1 (keq_eq a b) e) | right n => right (fun e => n (proj2 (keq_eq a b) e)) end) k (firstn cap ks)) as [Hin|Hout].
      + rewrite (filter_firstn_present ks k cap) by assumption.
        rewrite firstn_firstn. f_equal. lia.
      + rewrite <- (filter_firstn_absent ks k cap Hout). f_equal. f_equal.
        assert (forall l, ~ In k l -> filter (fun x => negb (keq x k)) l = l) as Same.
        { induction l as [|a l IH]; cbn; intros Hn; [reflexivity|]. destruct (keq a k) eqn:E; cbn; [apply keq_eq in E; tauto|]. rewrite IH by tauto. reflexivity. }
        apply Same. assumption.
    - destruct (lookup keq k es) as [w|] eqn:El.
      + split; [reflexivity|]. cbn [fst snd map]. rewrite map_fst_without, He. apply filter_firstn_present; [assumption|].
        rewrite <- He. destruct (in_dec (fun a b => match bool_dec (keq a b) true with left e => left (proj1 (keq_eq a b) e) | right n => right (fun e => n (proj2 (keq_eq a b) e)) end) k (map fst es)) as [Hin|Hout]; [assumption|].
        apply lookup_absent in Hout. congruence.
      + split; [reflexivity|]. cbn [fst snd]. rewrite <- firstn_map. cbn [map fst]. rewrite He.
        apply filter_firstn_absent. rewrite <- He. apply lookup_absent. assumption.
  Qed.

  Lemma spec_history : forall ops cap es ks, Forall put_or_get ops -> map fst es = firstn cap (recent keq ks) ->
    fst (lru_spec_run keq ops (cap, es)) = cap /\
    map fst (snd (lru_spec_run keq ops (cap, es))) = firstn cap (recent keq (used ops ++ ks)).
  Proof using keq_eq.
    induction ops as [|o ops IH]; intros cap es ks Hops He; [cbn; auto|]. inversion Hops as [|? ? Ho Hrest]; subst.
    destruct Ho as [k Hk]. assert (put_or_get o) as Ho by (exists k; assumption).
    destruct (spec_history_step cap es o (recent keq ks) Ho (recent_nodup ks) He k Hk) as [S1 S2].
    cbn [lru_spec_run fold_left]. destruct (lru_spec keq (cap, es) o) as [[cap' es'] r]. cbn [fst snd] in *. subst cap'.
    change (firstn cap (k :: filter (fun x => negb (keq x k)) (recent keq ks))) with (firstn cap (recent keq (k :: ks))) in S2.
    destruct (IH cap es' (k :: ks) Hrest S2) as [R1 R2].
    unfold lru_spec_run in R1, R2. split; [assumption|]. rewrite R2. f_equal. f_equal.
    unfold used. cbn [flat_map]. rewrite Hk. cbn [app rev]. rewrite <- app_assoc. reflexivity.
  Qed.

  (** * [flat_lru_cache] *)
  Lemma rotate_spec : forall (es : list (K * V)) k, NoDup (map fst es) ->
    rotate_to_back keq k es = match lookup keq k es with Some v => Some (without keq k es ++ [(k, v)], v) | None => None end.
  Proof using keq_eq.
    unfold lookup. induction es as [|[x v] es IH]; intros k H; [reflexivity|]. inversion H; subst. cbn [rotate_to_back find fst snd without filter].
    destruct (keq x k) eqn:E; cbn [negb option_map].
    - apply keq_eq in E. subst x. cbn [snd]. change (filter (fun e => negb (keq (fst e) k)) es) with (without keq k es).
      rewrite without_absent by assumption. reflexivity.
    - rewrite IH by assumption. destruct (option_map snd (find (fun e => keq (fst e) k) es)); reflexivity.
  Qed.
  Definition flat_ok (c : flat K V) : Prop := NoDup (map fst (fl_elements c)) /\ length (fl_elements c) <= fl_size c /\ 0 < fl_size c.

  Lemma NoDup_without : forall k es, NoDup (map fst es) -> NoDup (map fst (@without K V keq k es)).
  Proof using. intros. apply NoDup_map_filter. assumption. Qed.
  Lemma NoDup_snoc : forall (es : list (K * V)) k v, NoDup (map fst es) -> ~ In k (map fst es) -> NoDup (map fst (es ++ [(k, v)])).
  Proof using.
    intros es k v H Hn. rewrite map_app. cbn. apply (Permutation_NoDup (l := k :: map fst es)); [apply Permutation_cons_append|].
    constructor; assumption.
  Qed.
  Lemma without_absent_in : forall k es, ~ In k (map fst (@without K V keq k es)).
  Proof using keq_eq. intros k es. rewrite map_fst_without, filter_In, negb_true_iff, keq_neq. tauto. Qed.
  Lemma without_length : forall k (es : list (K * V)) v, NoDup (map fst es) -> lookup keq k es = Some v -> S (length (without keq k es)) = length es.
  Proof using keq_eq.
    unfold lookup. intros k es v. induction es as [|[x w] es IH]; cbn; intros H E; [discriminate|]. inversion H; subst.
    destruct (keq x k) eqn:Ek; cbn.
    - apply keq_eq in Ek. subst. change (filter (fun e => negb (keq (fst e) k)) es) with (without keq k es). rewrite without_absent by assumption. reflexivity.
    - f_equal. apply IH; assumption.
  Qed.
  Lemma rev_firstn_snoc : forall (A : Type) (es : list A) x n, length es <= n ->
    rev (es ++ [x]) = x :: rev es.
  Proof using. intros. apply rev_unit. Qed.
  Lemma firstn_rev_tail : forall (A : Type) (a : A) (es : list A), firstn (length es) (rev (a :: es)) = rev es.
  Proof using.
    intros A a es. cbn. rewrite <- (rev_length es), firstn_app, Nat.sub_diag. cbn. rewrite app_nil_r. apply firstn_all.
  Qed.

  Lemma flat_get_spec : forall c k v, flat_ok c -> exists c' w, flat_get keq c k v = Some (c', w) /\ flat_ok c' /\ fl_size c' = fl_size c /\
    (rev (fl_elements c'), Some w) =
    (snd (fst (lru_spec keq (fl_size c, rev (fl_elements c)) (LGet k v))), snd (lru_spec keq (fl_size c, rev (fl_elements c)) (LGet k v))).
  Proof using keq_eq.
    intros c k v (Hnd & Hlen & Hpos). unfold flat_get. rewrite rotate_spec by assumption. cbn [lru_spec].
    assert (lookup keq k (rev (fl_elements c)) = lookup keq k (fl_elements c)) as ->.
    { destruct (lookup keq k (fl_elements c)) as [w|] eqn:E.
      - unfold lookup in *. destruct (find (fun e => keq (fst e) k) (fl_elements c)) as [[x w']|] eqn:F; [|discriminate].
        cbn in E. injection E as ->. apply find_some in F as [F1 F2]. cbn in F2. apply keq_eq in F2. subst x.
        destruct (find (fun e => keq (fst e) k) (rev (fl_elements c))) as [[y u]|] eqn:G.
        + apply find_some in G as [G1 G2]. cbn in G2. apply keq_eq in G2. subst y. apply in_rev in G1.
          assert ((k, u) = (k, w)) as [= ->] by (eapply NoDup_key with (g := fst); eauto). reflexivity.
        + pose proof (find_none _ _ G (k, w)) as N'. rewrite <- in_rev in N'. specialize (N' F1). cbn in N'. rewrite keq_refl in N'. discriminate.
      - apply lookup_absent. apply lookup_absent in E. rewrite map_rev, <- in_rev. assumption. }
    assert (forall es : list (K * V), without keq k (rev es) = rev (without keq k es)) as Wrev.
    { intros es. unfold without. induction es as [|[x w] es IH]; cbn; [reflexivity|]. rewrite filter_app, IH. cbn.
      destruct (keq x k); cbn; [rewrite app_nil_r; reflexivity|reflexivity]. }
    destruct (lookup keq k (fl_elements c)) as [w|] eqn:E.
    - eexists; exists w. split; [reflexivity|]. cbn [fl_elements fl_size fst snd]. split.
      + split; [apply NoDup_snoc; [apply NoDup_without; assumption|apply without_absent_in]|]. cbn [fl_elements fl_size].
        rewrite app_length. cbn. pose proof (without_length k _ w Hnd E). split; [lia|assumption].
      + split; [reflexivity|]. rewrite Wrev, rev_unit. reflexivity.
    - pose proof (proj2 (lookup_absent (fl_elements c) k) E) as Habs. unfold flat_add.
      destruct (Nat.ltb_spec (length (fl_elements c)) (fl_size c)) as [Hlt|Hge].
      + eexists; exists v. split; [reflexivity|]. cbn [fl_elements fl_size fst snd]. split.
        * split; [apply NoDup_snoc; assumption|]. cbn [fl_elements fl_size]. rewrite app_length. cbn. split; lia.
        * split; [reflexivity|]. rewrite rev_unit. rewrite firstn_all2 by (cbn [length]; rewrite rev_length; lia).
          destruct (Nat.eqb_spec (fl_size c) 0); [lia|reflexivity].
      + destruct (fl_elements c) as [|a es] eqn:El; [cbn in Hge; lia|].
        eexists; exists v. split; [reflexivity|]. cbn [fl_elements fl_size fst snd]. inversion Hnd as [|? ? Ha Hnd']; subst. split.
        * split; [apply NoDup_snoc; [assumption|cbn in Habs; tauto]|]. cbn [fl_elements fl_size]. rewrite app_length. cbn in *. split; lia.
        * split; [reflexivity|]. rewrite rev_unit. assert (fl_size c = S (length es)) as -> by (cbn in *; lia).
          cbn [Nat.eqb]. rewrite firstn_cons, firstn_rev_tail. reflexivity.
  Qed.
  Lemma flat_resize_spec : forall c n, flat_ok c -> 0 < n ->
    flat_ok (flat_resize c n) /\ rev (fl_elements (flat_resize c n)) = firstn n (rev (fl_elements c)).
  Proof using.
    intros c n (Hnd & Hlen & Hpos) Hn. unfold flat_resize, flat_ok. cbn [fl_elements fl_size].
    destruct (Nat.ltb_spec n (length (fl_elements c))).
    - split.
      + split; [|split; [rewrite skipn_length; lia|assumption]].
        rewrite <- (firstn_skipn (length (fl_elements c) - n) (fl_elements c)), map_app in Hnd.
        clear -Hnd. induction (map fst (firstn (length (fl_elements c) - n) (fl_elements c))); [assumption|]. inversion Hnd; auto.
      + pose proof (firstn_skipn (length (fl_elements c) - n) (fl_elements c)) as E. rewrite <- E at 3. rewrite rev_app_distr.
        rewrite firstn_app, firstn_all2 by (rewrite rev_length, skipn_length; lia).
        rewrite rev_length, skipn_length. replace (n - (length (fl_elements c) - (length (fl_elements c) - n))) with 0 by lia.
        cbn. rewrite app_nil_r. reflexivity.
    - split; [auto|]. rewrite firstn_all2; [reflexivity|]. rewrite rev_length. assumption.
  Qed.

  Definition flat_as_lru (o : flat_op K V) : lru_op K V := match o with FGet k v => LGet k v | FResize n => LResize n end.
  Definition flat_valid (o : flat_op K V) : Prop := match o with FGet _ _ => True | FResize n => 0 < n end.
  Lemma flat_run_spec : forall ops c, flat_ok c -> Forall flat_valid ops -> exists c', flat_run keq ops c = Some c' /\ flat_ok c' /\
    (fl_size c', rev (fl_elements c')) = lru_spec_run keq (map flat_as_lru ops) (fl_size c, rev (fl_elements c)).
  Proof using keq_eq.
    induction ops as [|o ops IH]; intros c H Hv; [exists c; auto|]. inversion Hv as [|? ? Ho Hv']; subst. cbn [flat_run map].
    unfold lru_spec_run. cbn [fold_left].
    destruct o as [k v|n]; cbn [flat_step flat_as_lru].
    - destruct (flat_get_spec c k v H) as (c' & w & -> & Hok & Hsz & [= E _]). cbn [option_map fst].
      destruct (IH c' Hok Hv') as (c'' & R1 & R2 & R3). exists c''. split; [assumption|]. split; [assumption|]. rewrite R3, E, Hsz.
      assert (fst (fst (lru_spec keq (fl_size c, rev (fl_elements c)) (LGet k v))) = fl_size c) as Ec
        by (cbn [lru_spec]; destruct (lookup keq k (rev (fl_elements c))); reflexivity).
      rewrite <- Ec at 1. rewrite <- surjective_pairing. reflexivity.
    - cbn in Ho. destruct (flat_resize_spec c n H Ho) as [Hok E]. destruct (IH _ Hok Hv') as (c'' & R1 & R2 & R3).
      exists c''. split; [assumption|]. split; [assumption|]. rewrite R3, E. reflexivity.
  Qed.

  (** * [cache] *)
  Definition cache_ok (c : cache K V) : Prop :=
    agree (ca_xs c) (ca_tracker c) (ca_fresh c) /\ length (ca_xs c) <= ca_capacity c /\ 0 < ca_capacity c.

  (** What [cache] holds, in the order in which it would evict, and what it evicted. *)
  Definition cache_view (c : cache K V) : policy * nat * list (K * V) * list (K * V) :=
    (ca_policy c, ca_capacity c, entries (ca_xs c), ca_evicted c).

  (** The specification: the list of entries in eviction order; a use of an entry puts
      it last (least recently used policy) or first (most recently used policy). *)
  Definition use (p : policy) (e : K * V) (es : list (K * V)) : list (K * V) :=
    match p with Lru => es ++ [e] | Mru => e :: es end.
  Definition cache_spec (s : policy * nat * list (K * V) * list (K * V)) (o : cache_op K V) : policy * nat * list (K * V) * list (K * V) :=
    let '(p, cap, es, out) := s in
    match o with
    | CInsert k v =>
      match lookup keq k es with
      | Some w => (p, cap, use p (k, w) (without keq k es), out)
      | None => if length es =? cap then (p, cap, use p (k, v) (skipn 1 es), out ++ firstn 1 es)
                else (p, cap, use p (k, v) es, out)
      end
    | CFind k => match lookup keq k es with Some w => (p, cap, use p (k, w) (without keq k es), out) | None => s end
    | CErase k | CEraseAt k => (p, cap, without keq k es, out)
    | CCapacity n => (p, n, skipn (length es - n) es, out ++ firstn (length es - n) es)
    | CEvict => (p, cap, skipn 1 es, out ++ firstn 1 es)
    | CClear => (p, cap, [], out)
    end.
  (** What the callers must ensure. *)
  Definition cache_valid (c : cache K V) (o : cache_op K V) : Prop :=
    match o with
    | CEvict => ca_xs c <> []
    | CCapacity n => 0 < n
    | CEraseAt k => In k (map n_key (ca_xs c))
    | _ => True
    end.

  Lemma evict_spec : forall c, cache_ok c -> ca_xs c <> [] -> exists c', evict keq c = Some c' /\ cache_ok c' /\
    ca_policy c' = ca_policy c /\ ca_capacity c' = ca_capacity c /\ length (ca_xs c) = S (length (ca_xs c')) /\
    entries (ca_xs c') = skipn 1 (entries (ca_xs c)) /\ ca_evicted c' = ca_evicted c ++ firstn 1 (entries (ca_xs c)).
  Proof using keq_eq.
    intros c (A & Hlen & Hpos) Hne. unfold evict. destruct (ca_xs c) as [|n xs] eqn:E; [contradiction|].
    assert (In (n_key n, n_id n) (ca_tracker c)) as Hin by (apply A; exists n; cbn; auto).
    apply find_map_in in Hin; [|apply A]. rewrite Hin.
    eexists. split; [reflexivity|]. cbn.
    split; [|auto 6]. split; [|cbn in *; split; [lia|assumption]]. cbn.
    pose proof (agree_erase _ _ _ n A (or_introl eq_refl)) as A'.
    change (n :: xs) with ([] ++ n :: xs) in A'. rewrite erase_middle in A' by apply A. exact A'.
  Qed.
  Lemma evict_n_spec : forall n c, cache_ok c -> n <= length (ca_xs c) -> exists c', evict_n keq n c = Some c' /\ cache_ok c' /\
    ca_policy c' = ca_policy c /\ ca_capacity c' = ca_capacity c /\
    entries (ca_xs c') = skipn n (entries (ca_xs c)) /\ ca_evicted c' = ca_evicted c ++ firstn n (entries (ca_xs c)).
  Proof using keq_eq.
    induction n as [|n IH]; cbn; intros c H Hn; [exists c; rewrite app_nil_r; auto 8|].
    destruct (evict_spec c H) as (c1 & -> & H1 & P1 & C1 & L1 & E1 & V1); [intros E; rewrite E in Hn; cbn in Hn; lia|].
    destruct (IH c1 H1) as (c2 & -> & H2 & P2 & C2 & E2 & V2); [lia|].
    exists c2. split; [reflexivity|]. split; [assumption|]. split; [congruence|]. split; [congruence|].
    rewrite E2, V2, E1, V1. destruct (entries (ca_xs c)) as [|e es]; cbn; [rewrite skipn_nil, firstn_nil, !app_nil_r; auto|].
    rewrite <- app_assoc. auto.
  Qed.
  Lemma evict_n_spec' : forall n c, agree (ca_xs c) (ca_tracker c) (ca_fresh c) -> 0 < ca_capacity c -> length (ca_xs c) - ca_capacity c <= n -> n <= length (ca_xs c) ->
    exists c', evict_n keq n c = Some c' /\ cache_ok c' /\
    ca_policy c' = ca_policy c /\ ca_capacity c' = ca_capacity c /\
    entries (ca_xs c') = skipn n (entries (ca_xs c)) /\ ca_evicted c' = ca_evicted c ++ firstn n (entries (ca_xs c)).
  Proof using keq_eq.
    induction n as [|n IH]; cbn; intros c A Hpos H1 H2.
    - exists c. rewrite app_nil_r. repeat split; auto; try apply A; lia.
    - destruct (ca_xs c) as [|x xs] eqn:Ex; [cbn in H2; lia|]. unfold evict. rewrite Ex.
      assert (In (n_key x, n_id x) (ca_tracker c)) as Hin by (apply A; exists x; cbn; auto).
      apply find_map_in in Hin; [|apply A]. rewrite Hin.
      set (c1 := {| ca_policy := ca_policy c; ca_xs := xs; ca_tracker := del_map keq (n_key x) (ca_tracker c);
                          ca_capacity := ca_capacity c; ca_fresh := ca_fresh c;
                          ca_evicted := ca_evicted c ++ [(n_key x, n_val x)] |}).
      destruct (IH c1) as (c2 & -> & H3 & P2 & C2 & E2 & V2).
      + pose proof (agree_erase _ _ _ x A (or_introl eq_refl)) as A'.
        change (x :: xs) with ([] ++ x :: xs) in A'. rewrite erase_middle in A' by apply A. exact A'.
      + assumption.
      + unfold c1. cbn [ca_xs ca_capacity length] in *. lia.
      + unfold c1. cbn [ca_xs ca_capacity length] in *. lia.
      + exists c2. split; [reflexivity|]. split; [assumption|]. split; [assumption|]. split; [assumption|]. cbn in *.
        rewrite E2, V2, <- app_assoc. auto.
  Qed.

  Lemma access_entries : forall p (l : list node) n m f, agree l m f -> In n l ->
    entries (access p (n_id n) l) = use p (n_key n, n_val n) (without keq (n_key n) (entries l)) /\ Permutation l (access p (n_id n) l).
  Proof using keq_eq.
    intros p l n m f A Hin. unfold access. rewrite find_node_unique by (try assumption; apply A).
    assert (Permutation l (n :: erase_node (n_id n) l)) as P by (apply access_permutation; [apply A|assumption]).
    destruct p; cbn [use]; (split; [|]).
    - unfold entries at 1. rewrite map_app. change (map (fun n => (n_key n, n_val n)) (erase_node (n_id n) l)) with (entries (erase_node (n_id n) l)).
      rewrite entries_erase by (try assumption; apply A). reflexivity.
    - etransitivity; [exact P|]. apply Permutation_cons_append.
    - cbn [entries map]. change (map (fun n => (n_key n, n_val n)) (erase_node (n_id n) l)) with (entries (erase_node (n_id n) l)).
      rewrite entries_erase by (try assumption; apply A). reflexivity.
    - exact P.
  Qed.

  Lemma touch_ok : forall c n, cache_ok c -> In n (ca_xs c) -> cache_ok (touch c (n_id n)) /\
    cache_view (touch c (n_id n)) = (ca_policy c, ca_capacity c, use (ca_policy c) (n_key n, n_val n) (without keq (n_key n) (entries (ca_xs c))), ca_evicted c).
  Proof using keq_eq.
    intros c n (A & Hlen & Hpos) Hin. destruct (access_entries (ca_policy c) _ n _ _ A Hin) as [E P]. unfold touch, cache_ok, cache_view. cbn [ca_policy ca_xs ca_tracker ca_capacity ca_fresh ca_evicted].
    rewrite E. split; [|reflexivity]. split; [eapply agree_permute; eassumption|]. rewrite <- (Permutation_length P). auto.
  Qed.

  Lemma erase_at_erase : forall c k i, cache_ok c -> find_map keq k (ca_tracker c) = Some i -> cache_erase_at c i = cache_erase keq c k.
  Proof using keq_eq.
    intros c k i (A & _ & _) E. unfold cache_erase_at, cache_erase. rewrite E. f_equal. unfold del_map.
    apply find_map_in in E; [|apply A]. apply A in E as (n & Hn & <- & <-).
    apply filter_ext_in. intros [x j] Hin. cbn. f_equal. apply A in Hin as (m & Hm & <- & <-).
    apply eq_true_iff_eq. rewrite keq_eq, Nat.eqb_eq. split; intros E.
    - assert (m = n) as -> by (eapply NoDup_key with (g := n_id); eauto; apply A). reflexivity.
    - assert (m = n) as -> by (eapply NoDup_key with (g := n_key); eauto; apply A). reflexivity.
  Qed.
  Lemma cache_erase_spec : forall c k, cache_ok c -> cache_ok (cache_erase keq c k) /\
    cache_view (cache_erase keq c k) = (ca_policy c, ca_capacity c, without keq k (entries (ca_xs c)), ca_evicted c).
  Proof using keq_eq.
    intros c k (A & Hlen & Hpos). unfold cache_erase. destruct (find_map keq k (ca_tracker c)) as [i|] eqn:E.
    - destruct (agree_find _ _ _ _ _ A E) as (n & Hn & Hk & Hid & Hf). subst k i. unfold cache_ok, cache_view. cbn [ca_policy ca_xs ca_tracker ca_capacity ca_fresh ca_evicted].
      rewrite entries_erase by (try assumption; apply A). split; [|reflexivity].
      split; [apply agree_erase; assumption|]. split; [|assumption]. unfold erase_node. etransitivity; [apply filter_shorter|assumption].
    - split; [repeat split; auto; apply A|]. unfold cache_view. rewrite without_absent; [reflexivity|].
      rewrite map_fst_entries. eapply agree_find_none; eassumption.
  Qed.

  Lemma cache_find_spec : forall c k, cache_ok c -> exists c', cache_find keq c k = Some (c', lookup keq k (entries (ca_xs c))) /\ cache_ok c' /\
    cache_view c' = cache_spec (cache_view c) (CFind k).
  Proof using keq_eq.
    intros c k H. pose proof H as (A & Hlen & Hpos). unfold cache_find. destruct (find_map keq k (ca_tracker c)) as [i|] eqn:E.
    - destruct (agree_find _ _ _ _ _ A E) as (n & Hn & Hk & Hid & Hf). subst k i. rewrite Hf.
      destruct (touch_ok c n H Hn) as [T1 T2]. exists (touch c (n_id n)). rewrite T2. cbn [cache_spec cache_view].
      rewrite lookup_present by (try assumption; apply A). auto.
    - exists c. pose proof (agree_find_none _ _ _ _ A E) as Habs. rewrite <- map_fst_entries in Habs. apply lookup_absent in Habs.
      cbn [cache_spec cache_view]. rewrite Habs. auto.
  Qed.

  Lemma cache_insert_spec : forall c k v, cache_ok c -> exists c', cache_insert keq c k v =
      Some (c', match lookup keq k (entries (ca_xs c)) with Some w => w | None => v end, match lookup keq k (entries (ca_xs c)) with Some _ => false | None => true end)
      /\ cache_ok c' /\ cache_view c' = cache_spec (cache_view c) (CInsert k v).
  Proof using keq_eq.
    intros c k v H. pose proof H as (A & Hlen & Hpos). unfold cache_insert. destruct (find_map keq k (ca_tracker c)) as [i|] eqn:E.
    - destruct (agree_find _ _ _ _ _ A E) as (n & Hn & Hk & Hid & Hf). subst k i. rewrite Hf.
      destruct (touch_ok c n H Hn) as [T1 T2]. exists (touch c (n_id n)). rewrite T2. cbn [cache_spec cache_view].
      rewrite lookup_present by (try assumption; apply A). auto.
    - pose proof (agree_find_none _ _ _ _ A E) as Habs0. pose proof Habs0 as Habs. rewrite <- map_fst_entries in Habs. apply lookup_absent in Habs.
      cbn [cache_spec cache_view]. rewrite Habs, entries_length.
      assert (exists c1, (if length (ca_xs c) =? ca_capacity c then evict keq c else Some c) = Some c1 /\ cache_ok c1 /\ length (ca_xs c1) < ca_capacity c1
        /\ ~ In k (map n_key (ca_xs c1))
        /\ ca_policy c1 = ca_policy c /\ ca_capacity c1 = ca_capacity c /\
        (entries (ca_xs c1), ca_evicted c1) = if length (ca_xs c) =? ca_capacity c
           then (skipn 1 (entries (ca_xs c)), ca_evicted c ++ firstn 1 (entries (ca_xs c))) else (entries (ca_xs c), ca_evicted c))
        as (c1 & -> & H1 & L1 & N1 & P1 & C1 & E1).
      { destruct (Nat.eqb_spec (length (ca_xs c)) (ca_capacity c)).
        - destruct (evict_spec c H) as (c1 & -> & H1 & P1 & C1 & L1 & E1 & V1); [intros En; rewrite En in *; cbn in *; lia|].
          exists c1. split; [reflexivity|]. split; [assumption|]. split; [lia|]. rewrite E1, V1. split; [|auto].
          rewrite <- map_fst_entries, E1. rewrite <- map_fst_entries in Habs0. intros Hin. apply Habs0.
          destruct (entries (ca_xs c)); cbn in *; auto.
        - exists c. repeat split; auto; try apply A. lia. }
      eexists. split; [reflexivity|].
      pose proof H1 as (A1 & Hlen1 & Hpos1). pose proof (agree_add _ _ _ k v A1 N1) as A2. split.
      + split; [|split; [|assumption]]; cbn.
        * eapply agree_permute; [exact A2|]. destruct (ca_policy c1); cbn; [apply Permutation_cons_append|reflexivity].
        * destruct (ca_policy c1); cbn; rewrite ?app_length; cbn; lia.
      + unfold cache_view. cbn [ca_policy ca_xs ca_tracker ca_capacity ca_fresh ca_evicted]. rewrite P1, C1.
        assert (forall p l, entries (policy_insert p (Node (ca_fresh c1) k v) l) = use p (k, v) (entries l)) as ->.
        { intros p l. destruct p; cbn; [unfold entries; rewrite map_app|]; reflexivity. }
        destruct (length (ca_xs c) =? ca_capacity c); injection E1 as -> ->; reflexivity.
  Qed.

  Lemma without_use : forall p k w es, without keq k (use p (k, w) (without keq k es)) = without keq k es.
  Proof using keq_eq.
    intros p k w es. pose proof (without_absent (without keq k es) k (without_absent_in k es)) as E.
    destruct p; cbn [use]; unfold without at 1; rewrite ?filter_app; cbn [filter fst]; rewrite keq_refl; cbn [negb]; rewrite ?app_nil_r; exact E.
  Qed.
  Lemma cache_step_spec : forall c o, cache_ok c -> cache_valid c o -> exists c', cache_step keq c o = Some c' /\ cache_ok c' /\
    cache_view c' = cache_spec (cache_view c) o.
  Proof using keq_eq.
    intros c o H Hv. destruct o as [k v|k|k|k|n| |]; cbn [cache_step].
    - destruct (cache_insert_spec c k v H) as (c' & -> & H1 & H2). exists c'. auto.
    - destruct (cache_find_spec c k H) as (c' & -> & H1 & H2). exists c'. auto.
    - destruct (cache_erase_spec c k H) as [H1 H2]. eexists. split; [reflexivity|]. auto.
    - cbn in Hv. pose proof H as (A & Hlen & Hpos).
      destruct (find_map keq k (ca_tracker c)) as [i|] eqn:E; [|exfalso; eapply agree_find_none; eassumption].
      destruct (agree_find _ _ _ _ _ A E) as (n & Hn & Hk & Hid & Hf). subst k i.
      unfold cache_find. rewrite E, Hf. destruct (touch_ok c n H Hn) as [T1 T2].
      rewrite (erase_at_erase (touch c (n_id n)) (n_key n) (n_id n) T1 E).
      destruct (cache_erase_spec (touch c (n_id n)) (n_key n) T1) as [H1 H2].
      eexists. split; [reflexivity|]. split; [assumption|]. rewrite H2. unfold cache_view in T2. injection T2 as E3.
      unfold cache_view. cbn [cache_spec].
      change (ca_policy (touch c (n_id n))) with (ca_policy c). change (ca_capacity (touch c (n_id n))) with (ca_capacity c).
      change (ca_evicted (touch c (n_id n))) with (ca_evicted c).
      change (ca_xs (touch c (n_id n))) with (access (ca_policy c) (n_id n) (ca_xs c)).
      f_equal. f_equal. match type of E3 with ?a = _ => change a with (entries (access (ca_policy c) (n_id n) (ca_xs c))) in E3 end. rewrite E3.
      apply without_use.
    - cbn in Hv. unfold set_capacity. destruct (Nat.ltb_spec 0 n); [|lia]. destruct H as (A & Hlen & Hpos).
      match goal with |- context [evict_n keq _ ?c0] => destruct (evict_n_spec' (length (ca_xs c) - n) c0) as (c' & -> & H1 & P1 & C1 & E1 & V1) end; cbn; auto; try lia.
      exists c'. split; [reflexivity|]. split; [assumption|]. unfold cache_view. cbn [cache_spec]. rewrite P1, C1, E1, V1, entries_length. reflexivity.
    - destruct (evict_spec c H Hv) as (c' & -> & H1 & P1 & C1 & L1 & E1 & V1). exists c'. split; [reflexivity|]. split; [assumption|].
      unfold cache_view. cbn [cache_spec]. rewrite P1, C1, E1, V1. reflexivity.
    - eexists. split; [reflexivity|]. destruct H as (A & Hlen & Hpos). split; [|reflexivity].
      split; [apply agree_nil|]. cbn. split; [lia|assumption].
  Qed.

  (** A history whose every operation meets its precondition when it is executed. *)
  Fixpoint cache_history (c : cache K V) (ops : list (cache_op K V)) : Prop :=
    match ops with
    | [] => True
    | o :: ops' => cache_valid c o /\ (forall c', cache_step keq c o = Some c' -> cache_history c' ops')
    end.
  Lemma cache_run_spec : forall ops c, cache_ok c -> cache_history c ops -> exists c', cache_run keq ops c = Some c' /\ cache_ok c' /\
    cache_view c' = fold_left cache_spec ops (cache_view c).
  Proof using keq_eq.
    induction ops as [|o ops IH]; cbn [cache_run cache_history fold_left]; intros c H Hh; [exists c; auto|].
    destruct Hh as [Hv Hrest]. destruct (cache_step_spec c o H Hv) as (c1 & E & H1 & V1). rewrite E.
    destruct (IH c1 H1 (Hrest _ E)) as (c2 & R1 & R2 & R3). exists c2. rewrite R3, V1. auto.
  Qed.
End Proofs.
