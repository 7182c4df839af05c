(** Proofs about resolving extractors against a layout (ExpressionModel.v) and
    evaluating the result on its rows (TableSliceModel.v). *)
From Coq Require Import List ZArith NArith Lia Bool Arith ZifyBool ZifyNat.
From Verif Require Import OperatorModel AddressModel AddressProofs DataModel TypeModel TypeProofs ExpressionModel ExpressionProofs
  TableSliceModel TableSliceProofs.
Import ListNotations.
Open Scope nat_scope.

(** * Predicates of resolved expressions *)

Lemma all_preds_connect : forall (P : predicate -> Prop) op ps, Forall P ps -> all_preds P (connect op ps).
Proof.
  intros P op ps H. unfold connect. destruct ps as [|p [|q ps]]; cbn [map].
  - exact I.
  - now inversion H.
  - assert (G : Forall (all_preds P) (map EPred (p :: q :: ps))) by (apply Forall_map; exact H).
    cbn [map] in G. destruct (conjoined op); cbn [all_preds]; now apply all_preds_Forall.
Qed.
Lemma all_preds_connect_exprs : forall (P : predicate -> Prop) con es, (con = EAnd \/ con = EOr) -> Forall (all_preds P) es ->
  all_preds P (connect_exprs con es).
Proof.
  intros P con es C H. unfold connect_exprs. destruct es as [|p [|q ps]]; [exact I|now inversion H|].
  destruct C as [-> | ->]; cbn [all_preds]; now apply all_preds_Forall.
Qed.

(** A property that every resolved predicate gets holds of all predicates. *)
Lemma resolve_types_preds : forall glob t (P : predicate -> Prop) e r,
  all_preds (fun p => forall x, resolve_pred glob t p = ok x -> all_preds P x) e ->
  resolve_types glob t e = ok r -> all_preds P r.
Proof.
  intros glob t P. induction e as [|es IH|es IH|e IH|p] using expr_rect'; intros r H E; cbn [resolve_types all_preds] in *.
  - injection E as <-. exact I.
  - rewrite all_preds_Forall in H. assert (A : Forall (all_preds P) []) by constructor. revert E A. generalize (@nil expr).
    revert r. induction IH as [|x xs H1 H2 IH2]; intros r acc E A; cbn [resolve_and] in E.
    + injection E as <-. apply all_preds_connect_exprs; auto.
    + inversion H as [|? ? G1 G2]; subst. destruct (resolve_types glob t x) as [y| |] eqn:Ex; try discriminate.
      assert (Py : all_preds P y) by (now apply H1).
      assert (N : y = ENone \/ resolve_and (resolve_types glob t) xs (acc ++ [y]) = ok r /\ y <> ENone).
      { destruct y; [now left|right..]; (split; [exact E|discriminate]). }
      destruct N as [-> | [E' _]]; [injection E as <-; exact I|].
      apply (IH2 G2 r (acc ++ [y])); [exact E'|]. apply Forall_app. split; [exact A|]. now constructor.
  - rewrite all_preds_Forall in H. assert (A : Forall (all_preds P) []) by constructor. revert E A. generalize (@nil expr).
    revert r. induction IH as [|x xs H1 H2 IH2]; intros r acc E A; cbn [resolve_or] in E.
    + injection E as <-. apply all_preds_connect_exprs; auto.
    + inversion H as [|? ? G1 G2]; subst. destruct (resolve_types glob t x) as [y| |] eqn:Ex; try discriminate.
      assert (Py : all_preds P y) by (now apply H1).
      assert (N : y = ENone /\ resolve_or (resolve_types glob t) xs acc = ok r \/ resolve_or (resolve_types glob t) xs (acc ++ [y]) = ok r).
      { destruct y; [left; split; [reflexivity|exact E]|right; exact E..]. }
      destruct N as [[-> E'] | E']; [now apply (IH2 G2 r acc)|].
      apply (IH2 G2 r (acc ++ [y])); [exact E'|]. apply Forall_app. split; [exact A|]. now constructor.
  - destruct (resolve_types glob t e) as [y| |] eqn:Ey; try discriminate.
    assert (Py : all_preds P y) by (now apply IH). destruct y; injection E as <-; exact Py.
  - now apply H.
Qed.

Lemma each_list_leaves : forall fs ls, each_list fs = Some ls -> forallb (fun f => no_empty (snd f)) fs = true -> ls = map mk_leaf (leaf_list fs).
Proof.
  intros fs ls E H. unfold each_list in E. destruct (each_leaves fs 0 H) as (st & B & R). rewrite B in E.
  rewrite Nat.add_0_r in R. change (length (leaf_list fs)) with (length (leaves_fields leaves fs 0)) in R. rewrite leaf_list_length in R.
  cbn [flat_size] in E. congruence.
Qed.
Lemma each_list_defined : forall fs, forallb (fun f => no_empty (snd f)) fs = true -> each_list fs = Some (map mk_leaf (leaf_list fs)).
Proof.
  intros fs H. unfold each_list. destruct (each_leaves fs 0 H) as (st & B & R). rewrite B.
  rewrite Nat.add_0_r in R. change (length (leaf_list fs)) with (length (leaves_fields leaves fs 0)) in R. rewrite leaf_list_length in R. exact R.
Qed.

(** A predicate on a leaf or a meta extractor, with data of some kind on the right. *)
Definition on_leaf (D : data -> Prop) (fs : list field) (p : predicate) : Prop :=
  exists d, p_rhs p = OVal d /\ D d /\
    match p_lhs p with
    | OMeta _ => True
    | OData t o => exists ns, leaf_at fs o ns t
    | _ => False
    end.
(** The data of a predicate does not fit a whole record. *)
Definition leaf_data (p : predicate) : Prop :=
  match p_lhs p, p_rhs p with
  | OField _, OVal d => d <> DNone /\ data_is_container d = false
  | _, _ => True
  end.

Lemma leaf_offset : forall fs l, In l (map mk_leaf (leaf_list fs)) -> exists ns, leaf_at fs (l_offset l) ns (l_type l).
Proof.
  intros fs l H. apply in_map_iff in H as ([[o ns] t] & <- & H). exists ns. apply leaf_list_leaf_at in H. exact H.
Qed.
Lemma resolve_extractor_on_leaf : forall (D : data -> Prop) m fs op f d r, D d -> forallb (fun f => no_empty (snd f)) fs = true ->
  resolve_extractor (TRecord m fs) op f d = ok r -> all_preds (on_leaf D fs) r.
Proof.
  intros D m fs op f d r Hd H E. cbn [resolve_extractor] in E. rewrite (each_list_defined fs H) in E. injection E as <-.
  apply all_preds_connect. apply Forall_map. apply Forall_forall. intros l Hl. apply filter_In in Hl as [Hl _].
  exists d. split; [reflexivity|]. split; [exact Hd|]. cbn [p_lhs]. now apply leaf_offset.
Qed.
Lemma at_offset_leaf_at : forall o fs n u, at_offset fs o = Some (n, u) -> as_record u = None -> exists ns, leaf_at fs o ns u.
Proof.
  induction o as [|i o IH]; intros fs n u E R; [discriminate|].
  destruct o as [|j o].
  - cbn [at_offset] in E. exists [n]. now constructor.
  - change (match nth_error fs i with Some (_, TRecord _ gs) => at_offset gs (j :: o) | _ => None end = Some (n, u)) in E.
    destruct (nth_error fs i) as [[n' t]|] eqn:En; [|discriminate].
    destruct t as [| | | | | |m gs|]; try discriminate. destruct (IH gs n u E R) as [ns L]. exists (n' :: ns). econstructor 2; eauto.
Qed.
Lemma compatible_record : forall m gs op d, d <> DNone -> data_is_container d = false -> compatible (TRecord m gs) op d = false.
Proof.
  intros m gs op d N C. destruct op; cbn [compatible is_string_type is_pattern_type is_address_type is_subnet_type andb orb ty_is_container]; try reflexivity; try exact C.
  all: destruct d; cbn in *; try reflexivity; try contradiction; try discriminate.
Qed.

(** The data of a predicate. *)
Definition operand_is (D : data -> Prop) (p : predicate) : Prop := match p_rhs p with OVal d => D d | _ => True end.
Lemma resolve_pred_on_leaf : forall (D : data -> Prop) glob m fs regex_ok p r, operand_is D p -> forallb (fun f => no_empty (snd f)) fs = true ->
  validate_pred regex_ok p = true -> leaf_data p -> resolve_pred glob (TRecord m fs) p = ok r -> all_preds (on_leaf D fs) r.
Proof.
  intros D glob m fs regex_ok [l op x] r Hd H V L E. unfold operand_is in Hd. unfold validate_pred in V. unfold leaf_data in L. unfold resolve_pred in E.
  cbn [p_lhs p_rhs p_op] in *. apply andb_true_iff in V as [_ V].
  destruct l as [k|name|t|t o|d]; destruct x as [k'|name'|t'|t' o'|d']; try discriminate;
    try (exfalso; destruct t; discriminate V).
  - injection E as <-. cbn [all_preds]. exists d'. auto.
  - cbn [resolve_field] in E. injection E as <-. apply all_preds_connect. apply Forall_forall. intros p Hp.
    apply in_flat_map in Hp as (o & _ & Hp). destruct (at_offset fs o) as [[n u]|] eqn:A; [|contradiction].
    destruct (compatible u op d') eqn:C; [|contradiction]. destruct Hp as [<-|[]]. exists d'. split; [reflexivity|]. split; [exact Hd|]. cbn [p_lhs].
    apply (at_offset_leaf_at o fs n u A). destruct u as [| | | | | |m' gs|]; try reflexivity.
    rewrite compatible_record in C by apply L. discriminate.
  - destruct t as [|m'|m' b|m' en|m' v|m' k v|m' gs|m' v]; cbn [resolve_type] in E;
      try (eapply resolve_extractor_on_leaf; eassumption).
    all: destruct (bytes_eqb _ timestamp_name); [|eapply resolve_extractor_on_leaf; eassumption].
    all: destruct d'; try discriminate; unfold res_bind in E;
      destruct (resolve_extractor (TRecord m fs) op (named _ op (DTime z)) (DTime z)) as [a| |] eqn:Ea; try discriminate;
      destruct (resolve_extractor (TRecord m fs) op has_timestamp (DTime z)) as [b| |] eqn:Eb; try discriminate;
      injection E as <-; cbn [all_preds fold_right]; repeat split; eapply resolve_extractor_on_leaf; eassumption.
Qed.

Lemma validate_preds : forall regex_ok (P : predicate -> Prop) e, validate regex_ok e = true -> all_preds P e ->
  all_preds (fun p => validate_pred regex_ok p = true /\ P p) e.
Proof.
  intros regex_ok P. induction e as [|es IH|es IH|e IH|p] using expr_rect'; intros V H; cbn [validate all_preds] in *; auto.
  1-2: rewrite all_preds_Forall in *; rewrite forallb_forall in V; rewrite Forall_forall in *; intros x Hx; apply IH; auto.
Qed.
Lemma all_preds_impl : forall P Q : predicate -> Prop, (forall p, P p -> Q p) -> forall e, all_preds P e -> all_preds Q e.
Proof.
  intros P Q I. induction e as [|es IH|es IH|e IH|p] using expr_rect'; intros H; cbn [all_preds] in *; auto.
  1-2: rewrite all_preds_Forall in *; rewrite Forall_forall in *; intros x Hx; apply IH; auto.
Qed.

Lemma all_preds_and : forall (P Q : predicate -> Prop) e, all_preds P e -> all_preds Q e -> all_preds (fun p => P p /\ Q p) e.
Proof.
  intros P Q. induction e as [|es IH|es IH|e IH|p] using expr_rect'; intros H G; cbn [all_preds] in *; auto.
  1-2: rewrite all_preds_Forall in *; rewrite Forall_forall in *; intros x Hx; apply IH; auto.
Qed.

(** Tailoring a valid expression yields predicates on leaves of the layout. *)
Lemma tailor_on_leaf : forall (D : data -> Prop) glob m fs regex_ok e r, all_preds (operand_is D) e -> forallb (fun f => no_empty (snd f)) fs = true ->
  validate regex_ok e = true -> all_preds leaf_data e -> tailor glob e (TRecord m fs) = ok r -> all_preds (on_leaf D fs) r.
Proof.
  intros D glob m fs regex_ok e r Hd H V L E. assert (E' : resolve_types glob (TRecord m fs) e = ok r) by (destruct e; [discriminate|exact E..]).
  eapply resolve_types_preds; [|exact E']. eapply all_preds_impl; [|exact (validate_preds _ _ _ V (all_preds_and _ _ _ Hd L))].
  intros p [V' [D' L']] x Ex. eapply resolve_pred_on_leaf; eassumption.
Qed.

(** * Evaluating predicates on leaves *)

(** Addresses have 16 bytes; subnets have a length from 1 to 128 (the length 0 fails an
    assertion, see C38). *)
Definition proper (d : data) : Prop :=
  match d with
  | DAddress a => wf a
  | DSubnet s => sn_wf s /\ (0 < sn_bits s)%N
  | _ => True
  end.
Lemma sn_contains_defined : forall s a, sn_wf s -> (0 < sn_bits s)%N -> wf a -> sn_contains s a <> None.
Proof. intros s a W P A. destruct (sn_contains_spec s a W A P) as (r & -> & _). discriminate. Qed.
Lemma view_in_defined : forall re x y, proper x -> proper y -> view_in re x y <> None.
Proof.
  intros re x y X Y. destruct x, y; cbn [view_in proper] in *; try discriminate.
  - now apply sn_contains_defined.
  - unfold sn_includes. destruct (N.leb _ _); [|discriminate]. apply sn_contains_defined; try apply Y. apply X.
Qed.
Lemma option_map_none : forall A B (f : A -> B) o, o <> None -> option_map f o <> None.
Proof. intros A B f [x|] H; [discriminate|contradiction]. Qed.
Lemma evaluate_view_defined : forall re x op y, proper x -> proper y -> evaluate_view re x op y <> None.
Proof.
  intros re x op y X Y. destruct op; cbn [evaluate_view]; try discriminate; try apply option_map_none; apply view_in_defined; assumption.
Qed.
Lemma evaluate_string_defined : forall re s op y, evaluate re (DString s) op y <> None.
Proof.
  intros re s op y. destruct op; cbn [evaluate]; try discriminate; try apply option_map_none; destruct y; cbn [eval_in]; discriminate.
Qed.
Lemma canonical_proper : forall t x, proper x -> proper (to_canonical t x).
Proof.
  intros t x X. destruct x; try exact X. destruct t; try exact X. cbn [to_canonical]. destruct (nth_error _ _); exact I.
Qed.

(** A row has one proper value per column. *)
Definition proper_row (fs : list field) (row : list data) : Prop :=
  length row = flat_size (TRecord no_meta fs) /\ Forall proper row.

Lemma on_leaf_evaluable : forall re la row p, forallb (fun f => no_empty (snd f)) (la_fields la) = true ->
  proper_row (la_fields la) row -> on_leaf proper (la_fields la) p -> row_pred re la row p <> None.
Proof.
  intros re la row [l op x] H [W R] (d & E & P & L). cbn [p_lhs p_rhs p_op] in *. subst x.
  unfold row_pred. cbn [p_lhs p_rhs p_op]. destruct l as [k|name|t|t o|d']; try contradiction.
  - unfold row_extractor. destruct k.
    + apply evaluate_string_defined.
    + destruct d; try discriminate. rewrite (each_list_defined _ H). discriminate.
  - destruct L as [ns L]. unfold row_extractor. destruct (leaf_flat_index _ _ _ _ L) as [k K]. rewrite K.
    pose proof (flat_index_bound _ _ _ K) as Bk. change (length (leaf_list (la_fields la))) with (length (leaves_fields leaves (la_fields la) 0)) in Bk.
    rewrite leaf_list_length in Bk. cbn [flat_size] in W. rewrite <- W in Bk.
    destruct (nth_error row k) as [c|] eqn:C; [|apply nth_error_None in C; lia].
    apply evaluate_view_defined; [|exact P]. apply canonical_proper. rewrite Forall_forall in R. apply R. eapply nth_error_In. exact C.
Qed.
