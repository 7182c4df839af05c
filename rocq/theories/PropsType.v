(** C43 and C44: offsets, keys and columns of record types agree; congruence of
    types is an equivalence that ignores names, attributes and aliases. *)
From Coq Require Import List ZArith NArith Lia Bool Arith.
From Verif Require Import OperatorModel AddressModel DataModel TypeModel TypeProofs.
Import ListNotations.
Open Scope nat_scope.

(** * C43 *)

(** A record {a: int, b: {c: string, d: {e: bool}}, f: count}; single letters as names. *)
Definition sample_fields : list field :=
  [([97%N], TBasic no_meta BInteger);
   ([98%N], TRecord no_meta [([99%N], TBasic no_meta BString); ([100%N], TRecord no_meta [([101%N], TBasic no_meta BBool)])]);
   ([102%N], TBasic no_meta BCount)].

(** Iterating over a record yields every leaf exactly once, in document order: the
    leaf at position [k] is the one whose flat index is [k]. *)
Theorem C43_each : forall fs, forallb (fun f => no_empty (snd f)) fs = true ->
  exists st ls, each_begin fs = Some st /\ each_run (flat_size (TRecord no_meta fs)) st = Some ls /\
    length ls = flat_size (TRecord no_meta fs) /\
    (forall k l, nth_error ls k = Some l ->
       flat_index_at fs (l_offset l) = Some k /\ exists ns, leaf_at fs (l_offset l) ns (l_type l) /\ l_key l = join ns) /\
    (forall o ns t, leaf_at fs o ns t -> exists k, flat_index_at fs o = Some k /\
       nth_error ls k = Some {| l_offset := o; l_key := join ns; l_type := t |}).
Proof.
  intros fs H. destruct (each_leaves fs 0 H) as [st [Hb Hr]]. exists st, (map mk_leaf (leaf_list fs)).
  assert (E : flat_size (TRecord no_meta fs) = length (leaf_list fs)) by (symmetry; exact (leaf_list_length fs 0)).
  rewrite Nat.add_0_r in Hr. rewrite E. split; [exact Hb|]. split; [exact Hr|]. split; [apply map_length|]. split.
  - intros k l Hk. rewrite nth_error_map in Hk. destruct (nth_error (leaf_list fs) k) as [[[o ns] t]|] eqn:En; [|discriminate].
    cbn [option_map mk_leaf] in Hk. injection Hk as <-. cbn [l_offset l_key l_type]. split; [now apply leaves_index with ns t|].
    exists ns. split; [|reflexivity]. apply leaf_list_leaf_at. eapply nth_error_In. exact En.
  - intros o ns t L. destruct (leaf_flat_index _ _ _ _ L) as [k Hk]. exists k. split; [exact Hk|].
    now rewrite nth_error_map, (leaves_nth _ _ _ _ _ L Hk).
Qed.

(** Flat indexes number the leaves without gaps, in document order. *)
Theorem C43_flat_index : forall fs,
  (forall o k, flat_index_at fs o = Some k -> k < flat_size (TRecord no_meta fs) /\ exists ns t, leaf_at fs o ns t) /\
  (forall k, k < flat_size (TRecord no_meta fs) -> exists o, flat_index_at fs o = Some k) /\
  (forall o ns t, leaf_at fs o ns t -> exists k, flat_index_at fs o = Some k) /\
  (forall o k o' k', flat_index_at fs o = Some k -> flat_index_at fs o' = Some k' -> (k < k' <-> before o o') /\ (k = k' <-> o = o')).
Proof.
  intros fs. assert (E : flat_size (TRecord no_meta fs) = length (leaf_list fs)) by (symmetry; exact (leaf_list_length fs 0)).
  rewrite E. repeat split.
  - eapply flat_index_bound; eauto.
  - eapply flat_index_leaf; eauto.
  - intros k Hk. destruct (nth_error (leaf_list fs) k) as [[[o ns] t]|] eqn:En.
    + exists o. now apply leaves_index with ns t.
    + apply nth_error_None in En. lia.
  - intros o ns t. apply leaf_flat_index.
  - apply flat_index_order_iff with fs; assumption.
  - eapply flat_index_order_iff; eauto.
  - intros ->. eapply flat_index_inj; eauto.
  - congruence.
Qed.

(** Converting a flat index to an offset inverts the conversion back. *)
Theorem C43_round_trip : forall fs, forallb (fun f => no_empty (snd f)) fs = true ->
  (forall k o, offset_from_index fs k = Some (Some o) <-> flat_index_at fs o = Some k) /\
  (forall k, offset_from_index fs k = Some None <-> flat_size (TRecord no_meta fs) <= k).
Proof.
  intros fs H. split.
  - intros k o. rewrite (offset_from_index_leaves fs k H). split.
    + destruct (nth_error (leaf_list fs) k) as [[[o' ns] t]|] eqn:En; [|discriminate].
      cbn. intros Q. injection Q as ->. now apply leaves_index with ns t.
    + intros Hk. destruct (flat_index_leaf _ _ _ Hk) as [ns [t L]]. now rewrite (leaves_nth _ _ _ _ _ L Hk).
  - intros k. rewrite (offset_from_index_leaves fs k H).
    assert (E : flat_size (TRecord no_meta fs) = length (leaf_list fs)) by (symmetry; exact (leaf_list_length fs 0)).
    rewrite E, <- nth_error_None. destruct (nth_error (leaf_list fs) k); cbn; split; intros Q; congruence.
Qed.

(** The flattened record has the leaves as its fields, in the order of their flat
    indexes, under their dotted paths, and is flat. *)
Theorem C43_flatten : forall m fs,
  is_flat (flatten (TRecord m fs)) = true /\
  (forall o ns t k, leaf_at fs o ns t -> flat_index_at fs o = Some k ->
     nth_error (flatten_fields fs) k = Some (join ns, t)) /\
  length (flatten_fields fs) = flat_size (TRecord m fs).
Proof.
  intros m fs. split; [|split].
  - cbn [flatten is_flat]. apply forallb_forall. rewrite flatten_leaves. intros f Hf. apply in_map_iff in Hf.
    destruct Hf as [[[o ns] t] [<- Hin]]. apply leaf_list_leaf_at, leaf_at_type in Hin. cbn. destruct t; try reflexivity. discriminate.
  - intros o ns t k L Hk. rewrite flatten_leaves, nth_error_map, (leaves_nth _ _ _ _ _ L Hk). reflexivity.
  - apply flatten_fields_length.
Qed.

(** [at] and [resolve] find the leaf and its key at its offset. *)
Theorem C43_at : forall fs o ns t, leaf_at fs o ns t ->
  at_offset fs o = Some (last ns [], t) /\
  (Forall (fun n => n <> []) ns -> resolve_offset fs o = Some (join ns)) /\
  (forall m, Forall (fun n => n <> []) ns -> clear_path fs o -> resolve_key (TRecord m fs) (join ns) = Some (Some o)).
Proof.
  intros fs o ns t L. split; [now apply at_offset_leaf|]. split.
  - intros Hn. exact (resolve_leaf _ _ _ _ L Hn []).
  - intros m Hn C. now apply resolve_key_leaf with t.
Qed.

(** Removing a leaf removes exactly its column. *)
Theorem C43_remove : forall fs o k, flat_index_at fs o = Some k ->
  exists gs, remove_at fs o = Some gs /\
    flatten_fields gs = firstn k (flatten_fields fs) ++ skipn (S k) (flatten_fields fs).
Proof.
  intros fs o k H. destruct (flat_index_leaf _ _ _ H) as [ns [t L]]. exact (remove_at_leaf _ _ _ _ _ L H).
Qed.

(** Counting the leaves of a record gives the number of columns unless a field is an
    alias of a record. *)
Theorem C43_num_leaves : forall t, no_record_alias t = true -> num_leaves t = flat_size t.
Proof. exact num_leaves_flat. Qed.

Example C43_example :
  forallb (fun f => no_empty (snd f)) sample_fields = true /\ no_record_alias (TRecord no_meta sample_fields) = true /\
  leaf_at sample_fields [1; 1; 0] [[98%N]; [100%N]; [101%N]] (TBasic no_meta BBool) /\
  flat_index_at sample_fields [1; 1; 0] = Some 2 /\ clear_path sample_fields [1; 1; 0] /\
  Forall (fun n : list N => n <> []) [[98%N]; [100%N]; [101%N]].
Proof.
  split; [reflexivity|]. split; [reflexivity|]. split.
  { econstructor 2; [reflexivity|]. econstructor 2; [reflexivity|]. constructor; reflexivity. }
  split; [reflexivity|]. split.
  { assert (P : forall a b : N, a <> b -> ~ prefix [a] [b]) by (intros a b H [c E]; injection E as E _; auto).
    assert (D : forall a : N, a <> dot -> ~ In dot [a]) by (intros a H [E|[] ]; auto).
    econstructor 2; [reflexivity| |].
    - intros [|j] n t Hj E; [|lia]. injection E as <- <-. repeat split; [apply D|apply P|apply P]; discriminate.
    - econstructor 2; [reflexivity| |].
      + intros [|j] n t Hj E; [|lia]. injection E as <- <-. repeat split; [apply D|apply P|apply P]; discriminate.
      + econstructor; [reflexivity|]. intros j n t Hj. lia. }
  repeat constructor; discriminate.
Qed.

(** An empty nested record makes the iteration read past the end of its fields. *)
Theorem C43_empty_refuted : exists fs, flat_size (TRecord no_meta fs) = 1 /\
  each_begin fs <> None /\ (forall fuel st, each_begin fs = Some st -> each_run fuel st = None) /\
  offset_from_index fs 1 = None.
Proof.
  exists [([97%N], TBasic no_meta BInteger); ([98%N], TRecord no_meta [])].
  repeat split; try discriminate. intros [|fuel] st H; injection H as <-; reflexivity.
Qed.
(** [num_leaves] and [flat_size] disagree on an alias of a record, so a slice builder
    and the layout disagree on the number of columns. *)
Theorem C43_alias_refuted : exists t, num_leaves t = 2 /\ flat_size t = 1.
Proof.
  exists (TRecord no_meta [([97%N], TAlias no_meta (TRecord no_meta [([98%N], TBasic no_meta BBool); ([99%N], TBasic no_meta BBool)]))]).
  split; reflexivity.
Qed.
(** A field whose name extends the name of an earlier sibling is not found by its key. *)
Theorem C43_resolve_prefix_refuted : exists fs o ns t m, leaf_at fs o ns t /\ Forall (fun n => n <> []) ns /\
  resolve_key (TRecord m fs) (join ns) = Some None.
Proof.
  exists [([97%N], TBasic no_meta BBool); ([97%N; 98%N], TBasic no_meta BCount)], [1], [[97%N; 98%N]], (TBasic no_meta BCount), no_meta.
  repeat split; [constructor; reflexivity|repeat constructor; discriminate].
Qed.
(** A key that names no field resolves to one: the byte after a record's name is
    skipped without checking that it is a dot. *)
Theorem C43_resolve_separator_refuted : exists fs key o m, resolve_key (TRecord m fs) key = Some (Some o) /\
  forall o ns t, leaf_at fs o ns t -> join ns <> key.
Proof.
  exists [([97%N], TRecord no_meta [([98%N], TBasic no_meta BBool)])], [97%N; 120%N; 98%N], [0; 0], no_meta.
  split; [reflexivity|]. intros o ns t L. inversion L as [? [|i] n t' E R|? [|i] n m gs o' ns' t' E L']; subst; try (destruct i; discriminate).
  - injection E as <- <-. discriminate R.
  - injection E as <- <- <-. inversion L' as [? [|i] n t'' E R|? [|i] n m gs o'' ns'' t'' E L'']; subst; try (destruct i; discriminate).
    + injection E as <- <-. discriminate.
    + injection E as <- Q. discriminate Q.
Qed.
(** The flat field of an offset carries a trailing dot in its name. *)
Theorem C43_flat_field_refuted : exists fs o ns t, leaf_at fs o ns t /\ flat_field_at fs o = Some (Some (join ns ++ [dot], t)).
Proof.
  exists sample_fields, [1; 0], [[98%N]; [99%N]], (TBasic no_meta BString). split; [|reflexivity].
  econstructor 2; [reflexivity|]. constructor; reflexivity.
Qed.
(** Replacing the field at an offset succeeds and leaves the record unchanged. *)
Theorem C43_assign_refuted : exists m fs o f gs, assign m fs o f = Some (Some (TRecord m gs)) /\
  at_offset fs o <> Some f /\ at_offset gs o = at_offset fs o.
Proof. exists no_meta, sample_fields, [1; 0], ([99%N], TBasic no_meta BReal). eexists. split; [reflexivity|]. split; [discriminate|reflexivity]. Qed.
(** Removing a path of names also removes siblings named like its tail. *)
Theorem C43_remove_path_refuted : exists fs gs m, remove_path (TRecord m fs) [[97%N]; [98%N]] = Some (TRecord m gs) /\
  leaf_at fs [1] [[98%N]] (TBasic no_meta BCount) /\
  forall o ns t, leaf_at gs o ns t -> join ns <> [98%N].
Proof.
  exists [([97%N], TRecord no_meta [([98%N], TBasic no_meta BBool); ([99%N], TBasic no_meta BBool)]); ([98%N], TBasic no_meta BCount)].
  eexists. exists no_meta. split; [reflexivity|]. split; [constructor; reflexivity|].
  intros o ns t L. inversion L as [? [|i] n t' E R|? [|i] n m gs o' ns' t' E L']; subst; try (destruct i; discriminate).
  - injection E as <- <-. discriminate R.
  - injection E as <- <- <-. inversion L' as [? [|i] n t'' E R|? [|i] n m gs o'' ns'' t'' E L'']; subst; try (destruct i; discriminate).
    + injection E as <- <-. discriminate.
    + injection E as <- Q. discriminate Q.
Qed.

(** * C44 *)

(** Congruence compares what is left of types without names, attributes and aliases. *)
Theorem C44_congruent : forall x y, congruent x y = true <-> shape_of x = shape_of y.
Proof. exact congruent_shape. Qed.
Theorem C44_equivalence : forall x y z,
  congruent x x = true /\ congruent x y = congruent y x /\
  (congruent x y = true -> congruent y z = true -> congruent x z = true).
Proof.
  intros x y z. split; [now apply congruent_shape|]. split.
  - apply eq_true_iff_eq. rewrite !congruent_shape. split; intros; now symmetry.
  - rewrite !congruent_shape. congruence.
Qed.
(** Equality of types is identity of all parts, and implies congruence. *)
Theorem C44_equality : forall x y, (ty_eqb x y = true <-> x = y) /\ (ty_eqb x y = true -> congruent x y = true).
Proof. intros x y. split; [apply ty_eqb_eq|]. rewrite ty_eqb_eq. intros ->. now apply congruent_shape. Qed.
(** Renaming or aliasing a type keeps it congruent. *)
Theorem C44_alias : forall m t y, congruent (TAlias m t) y = congruent t y /\ congruent y (TAlias m t) = congruent y t.
Proof. intros m t y. split; [reflexivity|]. apply eq_true_iff_eq. rewrite !congruent_shape. reflexivity. Qed.
Example C44_example : congruent (TAlias no_meta (TRecord no_meta sample_fields)) (TRecord {| m_name := [120%N]; m_attrs := [] |} sample_fields) = true /\
  congruent (TRecord no_meta sample_fields) (TRecord no_meta (tl sample_fields)) = false.
Proof. split; reflexivity. Qed.

Definition assumptions_type :=
  (C43_each, C43_flat_index, C43_round_trip, C43_flatten, C43_at, C43_remove, C43_num_leaves, C43_empty_refuted,
   C43_alias_refuted, C43_resolve_prefix_refuted, C43_resolve_separator_refuted, C43_flat_field_refuted,
   C43_assign_refuted, C43_remove_path_refuted, C44_congruent, C44_equivalence, C44_equality, C44_alias).
Print Assumptions assumptions_type.
