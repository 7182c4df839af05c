(** Proofs about transforms of table slices. *)
From Coq Require Import List ZArith NArith Bool Arith Lia ZifyBool ZifyNat ZifyN.
From Verif Require Import OperatorModel AddressModel AddressProofs DataModel DataProofs TypeModel TypeProofs MsgpackProofs ArrowModel ArrowProofs TransformModel.
Import ListNotations.
Open Scope nat_scope.

(** * Schemas *)

Section AtypeRect.
  Variable P : atype -> Prop.
  Hypothesis Hnull : P TyNull.
  Hypothesis Hprim : forall k, P (TyPrim k).
  Hypothesis Hlist : forall a, P a -> P (TyList a).
  Hypothesis Hstruct : forall fs, Forall (fun f => P (snd f)) fs -> P (TyStruct fs).
  Fixpoint atype_rect' (a : atype) : P a :=
    match a with
    | TyNull => Hnull
    | TyPrim k => Hprim k
    | TyList x => Hlist x (atype_rect' x)
    | TyStruct fs => Hstruct fs ((fix go (fs : list (name * atype)) : Forall (fun f => P (snd f)) fs :=
                                    match fs with [] => Forall_nil _ | f :: r => Forall_cons _ (atype_rect' (snd f)) (go r) end) fs)
    end.
End AtypeRect.
Lemma akind_eqb_eq : forall a b, akind_eqb a b = true <-> a = b.
Proof. intros [] []; cbn; try (split; congruence). rewrite Nat.eqb_eq. split; congruence. Qed.
Lemma atype_eqb_eq : forall a b, atype_eqb a b = true <-> a = b.
Proof.
  induction a as [|k|a IH|fs IH] using atype_rect'; intros [|l|c|gs]; cbn [atype_eqb]; try (split; congruence).
  - rewrite akind_eqb_eq. split; congruence.
  - rewrite IH. split; congruence.
  - revert gs. induction IH as [|[n x] fs H Hs IHs]; intros [|[m y] gs]; try (split; congruence).
    cbn [snd] in H. rewrite !andb_true_iff, bytes_eqb_spec, H. specialize (IHs gs). rewrite IHs. split.
    + intros [ [-> ->] E]. injection E as ->. reflexivity.
    + intros E. injection E as -> -> ->. auto.
Qed.
Lemma schema_eqb_eq : forall x y, schema_eqb x y = true <-> x = y.
Proof.
  induction x as [|[n a] x IH]; intros [|[m b] y]; cbn [schema_eqb]; try (split; congruence).
  rewrite !andb_true_iff, bytes_eqb_spec, atype_eqb_eq, IH. split; [intros [ [-> ->] ->]; reflexivity|]. intros E. injection E as -> -> ->. auto.
Qed.

Definition nonempty (fs : list field) : Prop := forallb (fun f => no_empty (snd f)) fs = true.
Definition schema_of (fs : list field) : schema := map (fun f => (fst f, arrow_type (snd f))) (flatten_fields fs).
Lemma make_schema_flat : forall fs, nonempty fs -> make_schema fs = Some (schema_of fs).
Proof.
  intros fs H. unfold make_schema, each. destruct (each_leaves fs 0 H) as (st & B & R). rewrite B.
  assert (E : flat_size (TRecord no_meta fs) = length (leaf_list fs)) by (symmetry; exact (leaf_list_length fs 0)).
  rewrite Nat.add_0_r in R. rewrite E, R. cbn [option_map]. f_equal. unfold schema_of. rewrite flatten_leaves, !map_map. apply map_ext. intros [ [o ns] t]. reflexivity.
Qed.
Definition batch_schema (b : batch) : schema := map (fun c => (fst c, arr_type (snd c))) b.

(** Slices as the builders make them: the columns are those of the layout and all have as
    many slots as there are rows. *)
Definition sane (s : tslice) : Prop :=
  nonempty (t_fields s) /\ batch_schema (t_batch s) = schema_of (t_fields s) /\ Forall (fun c => alen (snd c) = t_rows s) (t_batch s).

Lemma create_spec : forall m fs b rows, nonempty fs ->
  create m fs b rows = if schema_eqb (batch_schema b) (schema_of fs)
                       then Some {| t_meta := m; t_fields := fs; t_batch := b; t_rows := rows; t_offset := None |} else None.
Proof. intros m fs b rows H. unfold create. rewrite make_schema_flat by exact H. reflexivity. Qed.
Lemma create_sane : forall m fs b rows s, nonempty fs -> Forall (fun c => alen (snd c) = rows) b -> create m fs b rows = Some s ->
  sane s /\ s = {| t_meta := m; t_fields := fs; t_batch := b; t_rows := rows; t_offset := None |}.
Proof.
  intros m fs b rows s Hn Ha H. rewrite create_spec in H by exact Hn. destruct (schema_eqb _ _) eqn:E; [|discriminate]. injection H as <-.
  apply schema_eqb_eq in E. split; [|reflexivity]. repeat split; assumption.
Qed.
Lemma sane_length : forall s, sane s -> length (t_batch s) = length (flatten_fields (t_fields s)).
Proof. intros s (_ & E & _). apply (f_equal (@length _)) in E. unfold batch_schema, schema_of in E. rewrite !map_length in E. exact E. Qed.

Lemma forallb_firstn_skipn : forall {A : Type} (p : A -> bool) i l, forallb p l = true -> forallb p (firstn i l) = true /\ forallb p (skipn i l) = true.
Proof.
  intros A p i l H. rewrite <- (firstn_skipn i l) in H. rewrite forallb_app in H. apply andb_true_iff in H. exact H.
Qed.
Lemma remove_at_nonempty : forall o fs gs, nonempty fs -> remove_at fs o = Some gs -> nonempty gs.
Proof.
  unfold nonempty. induction o as [|i o IH]; intros fs gs H R; [discriminate|]. cbn [remove_at] in R. destruct (nth_error fs i) as [ [n t]|] eqn:E; [|discriminate].
  assert (D : forallb (fun f => no_empty (snd f)) (firstn i fs ++ skipn (S i) fs) = true).
  { rewrite forallb_app. apply andb_true_iff. split; apply forallb_firstn_skipn; exact H. }
  destruct o as [|j o]; [injection R as <-; exact D|]. destruct t as [| | | | | |m hs|]; try discriminate.
  destruct (remove_at hs (j :: o)) as [ [|g hs']|] eqn:Q; try discriminate; injection R as <-; [exact D|].
  assert (Hh : forallb (fun f => no_empty (snd f)) hs = true).
  { rewrite forallb_forall in H. specialize (H _ (nth_error_In _ _ E)). cbn [snd no_empty] in H. apply andb_true_iff in H. apply H. }
  pose proof (IH hs (g :: hs') Hh Q) as G. rewrite forallb_app in D |- *. apply andb_true_iff in D. destruct D as [D1 D2]. rewrite D1. cbn [andb forallb snd no_empty negb].
  cbn [forallb] in G. rewrite G. exact D2.
Qed.
Lemma forall_firstn_skipn : forall {A : Type} (P : A -> Prop) i l, Forall P l -> Forall P (firstn i l) /\ Forall P (skipn i l).
Proof. intros A P i l H. rewrite <- (firstn_skipn i l) in H. apply Forall_app in H. exact H. Qed.

Lemma nonempty_snoc : forall fs n m b, nonempty fs -> nonempty (fs ++ [(n, TBasic m b)]).
Proof. intros fs n m b H. unfold nonempty. rewrite forallb_app, H. reflexivity. Qed.
Lemma flatten_snoc : forall fs n m b, flatten_fields (fs ++ [(n, TBasic m b)]) = flatten_fields fs ++ [(n, TBasic m b)].
Proof. intros. rewrite flatten_fields_app. reflexivity. Qed.
Lemma assign_same : forall m fs o f t, assign m fs o f = Some (Some t) -> t = TRecord m fs.
Proof. intros m fs o f t. unfold assign. destruct o; [discriminate|]. destruct (path_records _ _); [congruence|discriminate]. Qed.
Lemma leaf_path : forall fs o ns t, leaf_at fs o ns t -> o <> [] /\ path_records fs (removelast o) = true.
Proof.
  induction 1 as [fs i n t E R|fs i n m gs o ns t E L [No IH] ]; split; try discriminate; [reflexivity|].
  destruct o as [|j o]; [congruence|]. cbn [removelast path_records]. rewrite E. exact IH.
Qed.

(** * Steps *)

Section WithDigest.
  Variable digest : scalar -> option name -> name.

  Lemma hashes_len : forall a salt rows, alen (hashes digest a salt rows) = rows.
  Proof. intros. unfold hashes. cbn [alen]. now rewrite map_length, seq_length. Qed.
  Lemma remove_column_forall : forall (P : name * arr -> Prop) b i b', Forall P b -> remove_column b i = Some b' -> Forall P b'.
  Proof. intros P b i b' H. unfold remove_column. destruct (_ <? _); [|discriminate]. intros E.
    match type of E with Some ?l = Some b' => assert (X : b' = l) by congruence end. rewrite X. apply Forall_app. split; apply forall_firstn_skipn; exact H. Qed.
  Lemma add_column_forall : forall rows b i n a b', Forall (fun c : name * arr => alen (snd c) = rows) b -> add_column rows b i n a = Some b' ->
    Forall (fun c => alen (snd c) = rows) b'.
  Proof.
    intros rows b i n a b' H. unfold add_column. destruct (_ && _) eqn:E; [|discriminate]. intros E'.
    match type of E' with Some ?l = Some b' => assert (X : b' = l) by congruence end. rewrite X. apply Forall_app.
    split; [apply forall_firstn_skipn; exact H|]. constructor; [cbn [snd]; lia|]. apply forall_firstn_skipn. exact H.
  Qed.

  Lemma run_step_sane : forall st m fs b rows fs' b', nonempty fs -> Forall (fun c => alen (snd c) = rows) b ->
    run_step digest st m fs b rows = Some (fs', b') -> nonempty fs' /\ Forall (fun c => alen (snd c) = rows) b'.
  Proof.
    intros st m fs b rows fs' b' Hn Ha. unfold run_step. set (field := match st with Delete f => f | Hash f _ _ => f | Replace f _ => f end).
    destruct (resolve_key (TRecord m fs) field) as [ [o|]|]; [|intros [= <- <-]; auto|discriminate].
    destruct (flat_index_at fs o) as [k|]; [|discriminate]. destruct st as [f|f out salt|f x].
    - destruct (remove_column b k) as [b1|] eqn:R; [|discriminate]. destruct (remove_at fs o) as [gs|] eqn:Q; [|discriminate]. intros [= <- <-].
      split; [eapply remove_at_nonempty; eassumption|eapply remove_column_forall; eassumption].
    - destruct (nth_error b k) as [ [n a]|]; [|discriminate]. destruct (add_column _ _ _ _ _) as [b1|] eqn:R; [|discriminate]. cbn [option_map]. intros [= <- <-].
      split; [apply nonempty_snoc, Hn|eapply add_column_forall; eassumption].
    - destruct (basic_type x) as [t|]; [|discriminate]. destruct (make_column t) as [a0|]; [|discriminate]. destruct (fill t x rows a0) as [a|]; [|discriminate].
      destruct (remove_column b k) as [b1|] eqn:R; [|discriminate]. destruct (add_column _ _ _ _ _) as [b2|] eqn:Q; [|discriminate].
      destruct (assign m fs o (field, t)) as [ [u|]|] eqn:As; try discriminate. apply assign_same in As. subst u. intros [= <- <-].
      split; [exact Hn|]. eapply add_column_forall; [|exact Q]. eapply remove_column_forall; eassumption.
  Qed.
  Lemma apply_step_sane : forall st s s', sane s -> apply_step digest st s = Some s' ->
    sane s' /\ t_meta s' = t_meta s /\ t_rows s' = t_rows s /\ t_offset s' = None.
  Proof.
    intros st s s' (Hn & Hs & Ha) H. unfold apply_step in H. destruct (run_step _ _ _ _ _ _) as [ [fs b]|] eqn:R; [|discriminate].
    destruct (run_step_sane _ _ _ _ _ _ _ Hn Ha R) as [Hn' Ha']. destruct (create_sane _ _ _ _ _ Hn' Ha' H) as [S' ->]. auto.
  Qed.
  Lemma apply_steps_sane : forall sts s s', sane s -> apply_steps digest sts s = Some s' ->
    sane s' /\ t_meta s' = t_meta s /\ t_rows s' = t_rows s.
  Proof.
    induction sts as [|st sts IH]; intros s s' S H; cbn [apply_steps] in H; [injection H as <-; auto|].
    destruct (apply_step digest st s) as [s1|] eqn:E; [|discriminate]. destruct (apply_step_sane _ _ _ S E) as (S1 & M1 & R1 & _).
    destruct (IH s1 s' S1 H) as (S2 & M2 & R2). repeat split; try congruence; apply S2.
  Qed.
  Lemma apply_all_sane : forall ts size s r, sane s -> t_rows s = size -> apply_all digest ts size s = Some r ->
    exists s', r = Done s' /\ sane s' /\ t_meta s' = t_meta s /\ t_rows s' = t_rows s.
  Proof.
    induction ts as [|t ts IH]; intros size s r S Sz H; cbn [apply_all] in H; [injection H as <-; eauto|].
    destruct (apply_transform digest t s) as [s1|] eqn:E; [|discriminate].
    assert (G : sane s1 /\ t_meta s1 = t_meta s /\ t_rows s1 = t_rows s).
    { unfold apply_transform in E. destruct (names_event _ _); [|injection E as <-; auto]. apply apply_steps_sane with (tr_steps t); assumption. }
    destruct G as (S1 & M1 & R1). replace (t_rows s1 =? size) with true in H by lia.
    destruct (IH size s1 r S1 ltac:(congruence) H) as (s' & -> & S2 & M2 & R2). exists s'. split; [reflexivity|]. split; [exact S2|]. split; congruence.
  Qed.

  (** ** Columns *)

  (** The column [j] of one slice is the column [j'] of another: name, type and what is read
      from every row. *)
  Definition same_column (s : tslice) (j : nat) (s' : tslice) (j' : nat) : Prop :=
    nth_error (keys s') j' = nth_error (keys s) j /\ nth_error (as_cols (view s')) j' = nth_error (as_cols (view s)) j /\
    (forall i, at_ (view s') i j' = at_ (view s) i j) /\ (forall i t, at_typed (view s') i j' t = at_typed (view s) i j t).
  Lemma nth_bound : forall {A : Type} (l : list A) j, (j <? length l) = match nth_error l j with Some _ => true | None => false end.
  Proof.
    intros A l j. destruct (nth_error l j) eqn:E.
    - assert (j < length l) by (apply nth_error_Some; congruence). lia.
    - apply nth_error_None in E. lia.
  Qed.
  Lemma same_column_of : forall s j s' j', t_rows s' = t_rows s ->
    nth_error (flatten_fields (t_fields s')) j' = nth_error (flatten_fields (t_fields s)) j ->
    nth_error (map snd (t_batch s')) j' = nth_error (map snd (t_batch s)) j -> same_column s j s' j'.
  Proof.
    intros s j s' j' R F B.
    assert (F1 : nth_error (map fst (flatten_fields (t_fields s'))) j' = nth_error (map fst (flatten_fields (t_fields s))) j) by (rewrite !nth_error_map, F; reflexivity).
    assert (F2 : nth_error (map snd (flatten_fields (t_fields s'))) j' = nth_error (map snd (flatten_fields (t_fields s))) j) by (rewrite !nth_error_map, F; reflexivity).
    unfold same_column, keys, view, at_, at_typed. cbn [as_cols as_arrays as_rows]. split; [exact F1|]. split; [exact F2|].
    split; intros i; [|intros t]; rewrite R, !nth_bound, F2, B; reflexivity.
  Qed.
  Lemma nth_remove : forall {A : Type} (l : list A) k j, nth_error (firstn k l ++ skipn (S k) l) j = nth_error l (if j <? k then j else S j).
  Proof.
    induction l as [|x l IH]; intros k j.
    - rewrite firstn_nil, skipn_nil. destruct (j <? k), j; reflexivity.
    - destruct k as [|k]; [reflexivity|]. destruct j as [|j]; [reflexivity|]. cbn [firstn skipn app nth_error]. rewrite IH.
      change (S j <? S k) with (j <? k). destruct (j <? k); reflexivity.
  Qed.
  Lemma nth_replace : forall {A : Type} (l : list A) k x j, k < length l -> nth_error (firstn k l ++ x :: skipn (S k) l) j = if j =? k then Some x else nth_error l j.
  Proof.
    induction l as [|y l IH]; intros k x j H; [cbn in H; lia|]. destruct k as [|k]; [destruct j; reflexivity|]. destruct j as [|j]; [reflexivity|].
    cbn [firstn skipn app nth_error]. rewrite IH by (cbn in H; lia). reflexivity.
  Qed.
  Lemma remove_insert : forall {A : Type} (l : list A) k (x : A), k < length l ->
    firstn k (firstn k l ++ skipn (S k) l) ++ x :: skipn k (firstn k l ++ skipn (S k) l) = firstn k l ++ x :: skipn (S k) l.
  Proof.
    intros A l k x H. assert (L : length (firstn k l) = k) by (rewrite firstn_length; lia).
    rewrite firstn_app, skipn_app, L, Nat.sub_diag, firstn_O, app_nil_r. rewrite firstn_all2 by lia. rewrite skipn_all2 by lia. reflexivity.
  Qed.

  Lemma fill_spec : forall t x n a, plain t -> shape t a -> cell t x -> exists a', fill t x n a = Some a' /\ shape t a' /\ alen a' = alen a + n /\
    (forall i, i < alen a -> value_at t a' i = value_at t a i) /\ forall i, alen a <= i < alen a + n -> value_at t a' i = Some x.
  Proof.
    intros t x. induction n as [|n IH]; intros a P Sh C; cbn [fill]; [exists a; repeat split; auto; lia|].
    destruct (add_spec t a x P Sh C) as (a1 & E & S1 & L1 & V1 & K1). rewrite E. destruct (IH a1 P S1 C) as (a2 & E2 & S2 & L2 & K2 & V2).
    exists a2. split; [exact E2|]. split; [exact S2|]. split; [lia|]. split.
    - intros i Hi. rewrite K2 by lia. apply K1, Hi.
    - intros i Hi. destruct (Nat.eq_dec i (alen a)) as [->|Ne]; [rewrite K2 by lia; exact V1|]. apply V2. lia.
  Qed.
End WithDigest.
