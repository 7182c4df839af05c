(** Proofs about the columns extractors stand for (ExpressionModel.v, TableSliceModel.v). *)
From Coq Require Import List ZArith NArith Lia Bool Arith ZifyBool ZifyNat.
From Verif Require Import OperatorModel AddressModel AddressProofs DataModel TypeModel TypeProofs ExpressionModel ExpressionProofs
  EvaluatorProofs TableSliceModel TableSliceProofs TailorProofs.
Import ListNotations.
Open Scope nat_scope.

(** * Specification *)

(** The full name of the field with the path [ns] in a layout. *)
Definition full_name (m : meta) (ns : list (list N)) : list N := m_name m ++ flat_map (cons dot) ns.
(** A column is the position, path of names and type of a leaf, [column k] of the row. *)
Definition columns (fs : list field) : list (nat * (list (list N) * ty)) :=
  combine (seq 0 (length (leaf_list fs))) (map (fun p => (snd (fst p), snd p)) (leaf_list fs)).

Section Spec.
  Variable re : regex.
  Variable glob : list N -> list N -> bool.
  Variable la : layout.
  Variable row : list data.

  (** The columns an extractor stands for: by full name or glob pattern on the end of
      the full name, or by type; the type must fit the operator and the data. *)
  Definition selects (x : operand) (op : relop) (d : data) (c : nat * (list (list N) * ty)) : bool :=
    let '(_, (ns, t)) := c in
    match x with
    | OField name => (bytes_eqb name (full_name (la_meta la) ns) || glob name (full_name (la_meta la) ns)) && compatible t op d
    | OType TNull => named [] op d t
    | OType (TNone m) => named (m_name m) op d t || (bytes_eqb (m_name m) timestamp_name && has_timestamp t)
    | OType u => congruent t u
    | _ => false
    end.
  (** The value in a column satisfies the operator. *)
  Definition cell_satisfies (op : relop) (d : data) (c : nat * (list (list N) * ty)) : bool :=
    match nth_error row (fst c) with
    | Some cell => match evaluate_view re (to_canonical (snd (snd c)) cell) op d with Some b => b | None => false end
    | None => false
    end.
  (** A predicate is true of a row if some selected column satisfies it, and for a
      negated operator if there is a selected column and all of them satisfy it. *)
  Definition some_column (x : operand) (op : relop) (d : data) : bool :=
    let cs := filter (selects x op d) (columns (la_fields la)) in
    if is_negated op then negb (match cs with [] => true | _ => false end) && forallb (cell_satisfies op d) cs
    else existsb (cell_satisfies op d) cs.
  Definition column_truth (p : predicate) : bool :=
    match p_lhs p, p_rhs p with
    | OMeta _, OVal _ => row_truth re la row p
    | x, OVal d => some_column x (p_op p) d
    | _, _ => false
    end.
End Spec.

(** * Paths *)

(** A field of a record, nested or not, by offset and names. *)
Inductive path_at : list field -> list nat -> list (list N) -> ty -> Prop :=
| path_here : forall fs i n t, nth_error fs i = Some (n, t) -> path_at fs [i] [n] t
| path_below : forall fs i n m gs o ns t, nth_error fs i = Some (n, TRecord m gs) -> path_at gs o ns t ->
    path_at fs (i :: o) (n :: ns) t.
Lemma path_leaf : forall fs o ns t, leaf_at fs o ns t <-> path_at fs o ns t /\ as_record t = None.
Proof.
  intros fs o ns t. split.
  - induction 1 as [fs i n t E R|fs i n m gs o ns t E L [IH1 IH2] ]; (split; [|assumption]); [now constructor|econstructor 2; eauto].
  - intros [P R]. induction P as [fs i n t E|fs i n m gs o ns t E L IH]; [now constructor|econstructor 2; eauto].
Qed.
Lemma path_nonempty : forall fs o ns t, path_at fs o ns t -> o <> [].
Proof. destruct 1; discriminate. Qed.
Lemma path_at_offset : forall fs o ns t, path_at fs o ns t -> at_offset fs o = Some (last ns [], t).
Proof.
  induction 1 as [fs i n t E|fs i n m gs o ns t E L IH]; [exact E|].
  destruct o as [|j o]; [now apply path_nonempty in L|]. destruct ns as [|a ns]; [inversion L|].
  change (match nth_error fs i with Some (_, TRecord _ gs) => at_offset gs (j :: o) | _ => None end = Some (last (a :: ns) [], t)).
  rewrite E. exact IH.
Qed.

Lemma offset_map_in : forall t off trace o tr, In (o, tr) (offset_map_from off trace t) <->
  exists m fs q ns u, t = TRecord m fs /\ path_at fs q ns u /\ o = off ++ q /\ tr = trace ++ flat_map (cons dot) ns.
Proof.
  induction t as [| | | | | |m fs IH|] using ty_rect'; intros off trace o tr;
    try (cbn [offset_map_from]; split; [intros []|intros (m' & fs' & q & ns & u & E & _); discriminate]).
  cbn [offset_map_from].
  assert (G : forall gs k, (exists pre, fs = pre ++ gs /\ length pre = k) ->
    (In (o, tr) (map_fields offset_map_from off trace gs k) <->
     exists i n t, k <= i /\ nth_error fs i = Some (n, t) /\
       ((o = off ++ [i] /\ tr = trace ++ dot :: n) \/ In (o, tr) (offset_map_from (off ++ [i]) (trace ++ dot :: n) t)))).
  { induction gs as [|[n t] gs IHg]; intros k (pre & E & L).
    - rewrite app_nil_r in E. subst pre. split; [intros []|]. intros (i & n & t & Hi & Hn & _).
      assert (i < length fs) by (apply nth_error_Some; congruence). lia.
    - cbn [map_fields]. cbv zeta. cbn [In]. rewrite in_app_iff, (IHg (S k)).
      2: { exists (pre ++ [(n, t)]). rewrite <- app_assoc. split; [exact E|]. rewrite app_length. cbn. lia. }
      assert (Hk : nth_error fs k = Some (n, t)) by (rewrite E, nth_error_app2 by lia; rewrite L, Nat.sub_diag; reflexivity).
      split.
      + intros [H|[H|(i & n' & t' & Hi & Hn & H)]].
        * injection H as <- <-. exists k, n, t. auto.
        * exists k, n, t. auto.
        * exists i, n', t'. split; [lia|auto].
      + intros (i & n' & t' & Hi & Hn & H). destruct (Nat.eq_dec i k) as [->|Ne].
        * rewrite Hk in Hn. injection Hn as <- <-. destruct H as [[-> ->]|H]; auto.
        * right. right. exists i, n', t'. split; [lia|auto]. }
  rewrite (G fs 0) by (exists []; auto). split.
  - intros (i & n & t & _ & Hn & [[-> ->]|H]).
    + exists m, fs, [i], [n], t. split; [reflexivity|]. split; [now constructor|]. split; [reflexivity|]. cbn. now rewrite app_nil_r.
    + rewrite Forall_forall in IH. apply nth_error_In in Hn as Hi. apply (IH (n, t) Hi) in H. destruct H as (m' & gs & q & ns & u & Et & P & -> & ->).
      cbn [snd] in Et. subst t. exists m, fs, (i :: q), (n :: ns), u. split; [reflexivity|]. split; [econstructor 2; eauto|].
      split; [now rewrite <- app_assoc|]. cbn [flat_map]. now rewrite <- app_assoc.
  - intros (m' & fs' & q & ns & u & E & P & -> & ->). injection E as <- <-. inversion P as [? i n t En|? i n m2 gs o' ns' t En L]; subst.
    + exists i, n, u. split; [lia|]. split; [exact En|]. left. cbn. now rewrite app_nil_r.
    + exists i, n, (TRecord m2 gs). split; [lia|]. split; [exact En|]. right.
      rewrite Forall_forall in IH. apply (IH (n, TRecord m2 gs) (nth_error_In _ _ En)).
      exists m2, gs, o', ns', u. split; [reflexivity|]. split; [exact L|]. split; [now rewrite <- app_assoc|]. cbn [flat_map]. now rewrite <- app_assoc.
Qed.

(** * Columns *)

Lemma columns_in : forall fs k ns t, In (k, (ns, t)) (columns fs) <-> exists o, leaf_at fs o ns t /\ flat_index_at fs o = Some k.
Proof.
  intros fs k ns t. unfold columns.
  assert (G : forall (l : list path) j, In (k, (ns, t)) (combine (seq j (length l)) (map (fun p => (snd (fst p), snd p)) l)) <->
    j <= k /\ exists o, nth_error l (k - j) = Some (o, ns, t)).
  { induction l as [|[[o' ns'] t'] l IH]; intros j.
    - cbn. split; [intros []|]. intros [_ [o H]]. destruct (k - j); discriminate.
    - cbn [length seq map combine In fst snd]. rewrite IH. split.
      + intros [H|[H [o Ho]]].
        * injection H as <- <- <-. rewrite Nat.sub_diag. split; [lia|]. exists o'. reflexivity.
        * split; [lia|]. exists o. replace (k - j) with (S (k - S j)) by lia. exact Ho.
      + intros [H [o Ho]]. destruct (Nat.eq_dec j k) as [->|N].
        * left. rewrite Nat.sub_diag in Ho. injection Ho as <- <- <-. reflexivity.
        * right. split; [lia|]. exists o. replace (k - j) with (S (k - S j)) in Ho by lia. exact Ho. }
  rewrite (G (leaf_list fs) 0). rewrite Nat.sub_0_r. split.
  - intros [_ [o H]]. exists o. assert (L : leaf_at fs o ns t) by (apply leaf_list_leaf_at; eapply nth_error_In; exact H).
    split; [exact L|]. eapply leaves_index. exact H.
  - intros (o & L & K). split; [lia|]. exists o. now apply leaves_nth.
Qed.

(** * Predicates on columns *)

Lemma corresponding_existsb : forall A C (v : A -> bool) (g : C -> bool) ps cs,
  (forall p, In p ps -> exists c, In c cs /\ v p = g c) -> (forall c, In c cs -> exists p, In p ps /\ v p = g c) ->
  existsb v ps = existsb g cs /\ forallb v ps = forallb g cs /\ (ps = [] <-> cs = []).
Proof.
  intros A C v g ps cs H1 H2. split; [|split].
  - apply eq_true_iff_eq. rewrite !existsb_exists. split.
    + intros (p & Hp & V). destruct (H1 p Hp) as (c & Hc & E). exists c. split; [exact Hc|congruence].
    + intros (c & Hc & V). destruct (H2 c Hc) as (p & Hp & E). exists p. split; [exact Hp|congruence].
  - apply eq_true_iff_eq. rewrite !forallb_forall. split.
    + intros H c Hc. destruct (H2 c Hc) as (p & Hp & E). rewrite <- E. auto.
    + intros H p Hp. destruct (H1 p Hp) as (c & Hc & E). rewrite E. auto.
  - split; intros ->.
    + destruct cs as [|c cs]; [reflexivity|]. destruct (H2 c (or_introl eq_refl)) as (p & [] & _).
    + destruct ps as [|p ps]; [reflexivity|]. destruct (H1 p (or_introl eq_refl)) as (c & [] & _).
Qed.

Lemma conjoined_negated : forall op, conjoined op = is_negated op.
Proof. destruct op; reflexivity. Qed.
Lemma holds_connect : forall v op ps, holds v (connect op ps) =
  if is_negated op then negb (match ps with [] => true | _ => false end) && forallb v ps else existsb v ps.
Proof.
  intros v op ps. unfold connect. rewrite conjoined_negated. destruct ps as [|p [|q ps]]; cbn [map].
  - now destruct (is_negated op).
  - cbn [holds negb andb forallb existsb]. rewrite andb_true_r, orb_false_r. now destruct (is_negated op).
  - destruct (is_negated op); cbn [holds negb andb forallb existsb].
    + rewrite forallb_map'. reflexivity.
    + rewrite existsb_map'. reflexivity.
Qed.

Lemma connect_columns : forall (v : predicate -> bool) (g : nat * (list (list N) * ty) -> bool) op ps cs,
  (forall p, In p ps -> exists c, In c cs /\ v p = g c) -> (forall c, In c cs -> exists p, In p ps /\ v p = g c) ->
  holds v (connect op ps) = if is_negated op then negb (match cs with [] => true | _ => false end) && forallb g cs else existsb g cs.
Proof.
  intros v g op ps cs H1 H2. rewrite holds_connect. destruct (corresponding_existsb _ _ v g ps cs H1 H2) as (-> & -> & E).
  destruct (is_negated op); [|reflexivity]. f_equal. destruct ps, cs; auto; exfalso; destruct E as [E1 E2]; [specialize (E1 eq_refl)|specialize (E2 eq_refl)]; discriminate.
Qed.

Lemma leaf_cell : forall re la row t o ns k op d, flat_index_at (la_fields la) o = Some k ->
  row_truth re la row {| p_lhs := OData t o; p_op := op; p_rhs := OVal d |} = cell_satisfies re row op d (k, (ns, t)).
Proof.
  intros re la row t o ns k op d K. unfold row_truth, row_pred, row_extractor, cell_satisfies. cbn [p_lhs p_op p_rhs fst snd]. rewrite K.
  destruct (nth_error row k); reflexivity.
Qed.

(** Predicates built from the leaves that pass a test on types. *)
Lemma extractor_columns : forall re la row op f d r, forallb (fun f => no_empty (snd f)) (la_fields la) = true ->
  resolve_extractor (TRecord (la_meta la) (la_fields la)) op f d = ok r ->
  holds (row_truth re la row) r =
    (let cs := filter (fun c => f (snd (snd c))) (columns (la_fields la)) in
     if is_negated op then negb (match cs with [] => true | _ => false end) && forallb (cell_satisfies re row op d) cs
     else existsb (cell_satisfies re row op d) cs).
Proof.
  intros re la row op f d r H E. cbn [resolve_extractor] in E. rewrite (each_list_defined _ H) in E. injection E as <-. cbv zeta.
  apply connect_columns.
  - intros p Hp. apply in_map_iff in Hp as (l & <- & Hl). apply filter_In in Hl as [Hl Hf].
    apply in_map_iff in Hl as ([[o ns] t] & <- & Hl). cbn [mk_leaf l_type l_offset] in *.
    pose proof (leaf_list_leaf_at _ _ _ _ Hl) as L. destruct (leaf_flat_index _ _ _ _ L) as [k K].
    exists (k, (ns, t)). split; [|now apply leaf_cell]. apply filter_In. split; [|exact Hf]. apply columns_in. eauto.
  - intros [k [ns t]] Hc. apply filter_In in Hc as [Hc Hf]. cbn [snd] in Hf. apply columns_in in Hc as (o & L & K).
    exists {| p_lhs := OData t o; p_op := op; p_rhs := OVal d |}. split; [|now apply leaf_cell].
    apply in_map_iff. exists (mk_leaf (o, ns, t)). split; [reflexivity|]. apply filter_In. split; [|exact Hf].
    apply in_map. eapply nth_error_In. eapply leaves_nth; eassumption.
Qed.

(** Predicates of a field extractor. *)
Lemma field_columns : forall re glob la row op name d r, d <> DNone -> data_is_container d = false ->
  resolve_field glob (TRecord (la_meta la) (la_fields la)) op name d = ok r ->
  holds (row_truth re la row) r = some_column re glob la row (OField name) op d.
Proof.
  intros re glob la row op name d r N C E. cbn [resolve_field] in E. injection E as <-. unfold some_column. cbv zeta.
  apply connect_columns.
  - intros p Hp. apply in_flat_map in Hp as (o & Ho & Hp). unfold find_suffix in Ho.
    apply in_map_iff in Ho as ([o' tr] & Eo & Ho). cbn [fst] in Eo. subst o'. apply filter_In in Ho as [Ho Hg]. cbn [snd] in Hg.
    unfold offset_map in Ho. apply offset_map_in in Ho as (m & fs & q & ns & u & Et & P & Eq & Etr). injection Et as <- <-.
    cbn [app] in Eq. subst q. rewrite (path_at_offset _ _ _ _ P) in Hp. destruct (compatible u op d) eqn:Cu; [|contradiction].
    destruct Hp as [<-|[]]. assert (L : leaf_at (la_fields la) o ns u).
    { apply path_leaf. split; [exact P|]. destruct u as [| | | | | |m' gs|]; try reflexivity. rewrite compatible_record in Cu by assumption. discriminate. }
    destruct (leaf_flat_index _ _ _ _ L) as [k K]. exists (k, (ns, u)). split; [|now apply leaf_cell].
    apply filter_In. split; [apply columns_in; eauto|]. cbn [selects]. unfold full_name. change (ty_name (TRecord (la_meta la) (la_fields la))) with (m_name (la_meta la)) in Etr. rewrite <- Etr, Hg, Cu. reflexivity.
  - intros [k [ns t]] Hc. apply filter_In in Hc as [Hc Hs]. apply columns_in in Hc as (o & L & K). cbn [selects] in Hs.
    apply andb_true_iff in Hs as [Hs Cu]. exists {| p_lhs := OData t o; p_op := op; p_rhs := OVal d |}. split; [|now apply leaf_cell].
    apply in_flat_map. exists o. pose proof (proj1 (path_leaf _ _ _ _) L) as [P _]. split.
    + unfold find_suffix. apply in_map_iff. exists (o, full_name (la_meta la) ns). split; [reflexivity|]. apply filter_In. split; [|exact Hs].
      unfold offset_map. apply offset_map_in. exists (la_meta la), (la_fields la), o, ns, t. repeat split. exact P.
    + rewrite (path_at_offset _ _ _ _ P), Cu. now left.
Qed.

(** Negated operators are not used with the type [timestamp], which stands for two
    groups of columns. *)
Definition plain (p : predicate) : Prop :=
  match p_lhs p with
  | OType (TNone m) => m_name m = timestamp_name -> is_negated (p_op p) = false
  | _ => True
  end.

Lemma filter_ext_columns : forall (f g : nat * (list (list N) * ty) -> bool) fs, (forall c, f c = g c) -> filter f (columns fs) = filter g (columns fs).
Proof. intros. now apply filter_ext. Qed.
Lemma existsb_filter_or : forall A (g f1 f2 : A -> bool) l, existsb g (filter (fun x => f1 x || f2 x) l) = existsb g (filter f1 l) || existsb g (filter f2 l).
Proof.
  intros A g f1 f2. induction l as [|x l IH]; [reflexivity|]. cbn [filter]. destruct (f1 x), (f2 x); cbn [orb existsb]; rewrite IH;
    destruct (g x), (existsb g (filter f1 l)), (existsb g (filter f2 l)); reflexivity.
Qed.

Lemma resolve_pred_columns : forall re glob la row regex_ok p r, forallb (fun f => no_empty (snd f)) (la_fields la) = true ->
  validate_pred regex_ok p = true -> leaf_data p -> plain p ->
  resolve_pred glob (TRecord (la_meta la) (la_fields la)) p = ok r ->
  holds (row_truth re la row) r = column_truth re glob la row p.
Proof.
  intros re glob la row regex_ok [l op x] r H V L Pl E. unfold validate_pred in V. unfold leaf_data in L. unfold plain in Pl. unfold resolve_pred in E.
  unfold column_truth. cbn [p_lhs p_rhs p_op] in *. apply andb_true_iff in V as [_ V].
  destruct l as [k|name|t|t o|d]; destruct x as [k'|name'|t'|t' o'|d']; try discriminate;
    try (exfalso; destruct t; discriminate V).
  - injection E as <-. reflexivity.
  - apply field_columns; [apply L|apply L|exact E].
  - unfold some_column.
    destruct t as [|m'|m' b|m' en|m' v|m' k v|m' gs|m' v]; cbn [resolve_type] in E.
    + change (ty_name TNull) with (@nil N) in E. cbv zeta in E. change (bytes_eqb [] timestamp_name) with false in E. cbn iota in E.
      rewrite (extractor_columns re la row op _ d' r H E). cbv zeta.
      rewrite (filter_ext_columns (fun c => named [] op d' (snd (snd c))) (selects glob la (OType TNull) op d')); [reflexivity|].
      intros [k [ns t]]. reflexivity.
    + change (ty_name (TNone m')) with (m_name m') in E. cbv zeta in E. destruct (bytes_eqb (m_name m') timestamp_name) eqn:Q.
      * apply bytes_eqb_iff in Q. rewrite (Pl Q). destruct d' as [| | | | | |z| | | | | | | |]; try discriminate. unfold res_bind in E.
        destruct (resolve_extractor (TRecord (la_meta la) (la_fields la)) op (named (m_name m') op (DTime z)) (DTime z)) as [a| |] eqn:Ea; try discriminate.
        destruct (resolve_extractor (TRecord (la_meta la) (la_fields la)) op has_timestamp (DTime z)) as [b| |] eqn:Eb; try discriminate.
        injection E as <-. cbn [holds existsb]. rewrite orb_false_r.
        rewrite (extractor_columns re la row op _ _ a H Ea), (extractor_columns re la row op _ _ b H Eb), (Pl Q). cbv zeta.
        rewrite (filter_ext_columns (selects glob la (OType (TNone m')) op (DTime z))
          (fun c => named (m_name m') op (DTime z) (snd (snd c)) || has_timestamp (snd (snd c)))).
        -- symmetry. apply existsb_filter_or.
        -- intros [k [ns t]]. cbn [selects snd]. assert (bytes_eqb (m_name m') timestamp_name = true) as -> by (now apply bytes_eqb_iff). reflexivity.
      * rewrite (extractor_columns re la row op _ d' r H E). cbv zeta.
        rewrite (filter_ext_columns (fun c => named (m_name m') op d' (snd (snd c))) (selects glob la (OType (TNone m')) op d')); [reflexivity|].
        intros [k [ns t]]. cbn [selects snd]. rewrite Q. cbn [andb]. now rewrite orb_false_r.
    + rewrite (extractor_columns re la row op _ d' r H E). cbv zeta. match goal with |- context [OType ?u] => rewrite (filter_ext_columns (fun c => congruent (snd (snd c)) u) (selects glob la (OType u) op d')) end; [reflexivity|intros [k [ns t]]; reflexivity].
    + rewrite (extractor_columns re la row op _ d' r H E). cbv zeta. match goal with |- context [OType ?u] => rewrite (filter_ext_columns (fun c => congruent (snd (snd c)) u) (selects glob la (OType u) op d')) end; [reflexivity|intros [k [ns t]]; reflexivity].
    + rewrite (extractor_columns re la row op _ d' r H E). cbv zeta. match goal with |- context [OType ?u] => rewrite (filter_ext_columns (fun c => congruent (snd (snd c)) u) (selects glob la (OType u) op d')) end; [reflexivity|intros [k0 [ns t]]; reflexivity].
    + rewrite (extractor_columns re la row op _ d' r H E). cbv zeta. match goal with |- context [OType ?u] => rewrite (filter_ext_columns (fun c => congruent (snd (snd c)) u) (selects glob la (OType u) op d')) end; [reflexivity|intros [k0 [ns t]]; reflexivity].
    + rewrite (extractor_columns re la row op _ d' r H E). cbv zeta. match goal with |- context [OType ?u] => rewrite (filter_ext_columns (fun c => congruent (snd (snd c)) u) (selects glob la (OType u) op d')) end; [reflexivity|intros [k [ns t]]; reflexivity].
    + rewrite (extractor_columns re la row op _ d' r H E). cbv zeta. match goal with |- context [OType ?u] => rewrite (filter_ext_columns (fun c => congruent (snd (snd c)) u) (selects glob la (OType u) op d')) end; [reflexivity|intros [k [ns t]]; reflexivity].
Qed.

(** Resolving a whole expression keeps its truth if predicates keep theirs. *)
Lemma holds_connect_exprs_and : forall v es, es <> [] -> holds v (connect_exprs EAnd es) = forallb (holds v) es.
Proof. intros v [|a [|b es]] H; [contradiction| |reflexivity]. cbn. now rewrite andb_true_r. Qed.
Lemma holds_connect_exprs_or : forall v es, holds v (connect_exprs EOr es) = existsb (holds v) es.
Proof. intros v [|a [|b es]]; [reflexivity| |reflexivity]. cbn. now rewrite orb_false_r. Qed.
Lemma none_or : forall A (a : A) (f : expr -> A) y, y = ENone /\ match y with ENone => a | _ => f y end = a \/ y <> ENone /\ match y with ENone => a | _ => f y end = f y.
Proof. intros A a f y. destruct y; [left; auto|right; split; [discriminate|reflexivity]..]. Qed.
Lemma resolve_types_holds : forall glob t v w e r, positive e = true -> inhabited_expr e = true ->
  all_preds (fun p => forall x, resolve_pred glob t p = ok x -> holds v x = w p) e ->
  resolve_types glob t e = ok r -> holds v r = holds w e.
Proof.
  intros glob t v w. induction e as [|es IH|es IH|e IH|p] using expr_rect'; intros r P I H E; cbn [resolve_types all_preds positive inhabited_expr holds] in *.
  - injection E as <-. reflexivity.
  - rewrite all_preds_Forall in H. apply andb_true_iff in I as [I1 I2].
    enough (G : forall acc, (es <> [] \/ acc <> []) -> resolve_and (resolve_types glob t) es acc = ok r ->
      holds v r = forallb (holds v) acc && forallb (holds w) es).
    { assert (NE : es <> []) by (intros ->; discriminate I1). rewrite (G [] (or_introl NE) E). reflexivity. }
    clear E I1. intros acc NE E. revert r acc NE E. induction IH as [|x xs H1 H2 IH2]; intros r acc NE E; cbn [resolve_and] in E.
    + injection E as <-. rewrite holds_connect_exprs_and by (destruct NE; [contradiction|assumption]). cbn [forallb]. now rewrite andb_true_r.
    + inversion H as [|? ? G1 G2]; subst. cbn [forallb] in P, I2. apply andb_true_iff in P as [P1 P2]. apply andb_true_iff in I2 as [I1 I2].
      destruct (resolve_types glob t x) as [y| |] eqn:Ex; try discriminate.
      pose proof (H1 y P1 I1 G1 eq_refl) as Hy. cbn [forallb].
      destruct (none_or _ (ok ENone) (fun y => resolve_and (resolve_types glob t) xs (acc ++ [y])) y) as [ [-> _] | [Ny Q] ].
      * injection E as <-. rewrite <- Hy. cbn [holds]. now rewrite andb_false_r.
      * rewrite Q in E. rewrite (IH2 P2 I2 G2 r (acc ++ [y])); [|right; now destruct acc|exact E].
        rewrite forallb_app. cbn [forallb]. rewrite Hy, andb_true_r. now rewrite andb_assoc.
  - rewrite all_preds_Forall in H. apply andb_true_iff in I as [I1 I2].
    enough (G : forall acc, resolve_or (resolve_types glob t) es acc = ok r -> holds v r = existsb (holds v) acc || existsb (holds w) es).
    { rewrite (G [] E). reflexivity. }
    clear E I1. intros acc E. revert r acc E. induction IH as [|x xs H1 H2 IH2]; intros r acc E; cbn [resolve_or] in E.
    + injection E as <-. rewrite holds_connect_exprs_or. cbn [existsb]. now rewrite orb_false_r.
    + inversion H as [|? ? G1 G2]; subst. cbn [forallb] in P, I2. apply andb_true_iff in P as [P1 P2]. apply andb_true_iff in I2 as [I1 I2].
      destruct (resolve_types glob t x) as [y| |] eqn:Ex; try discriminate.
      pose proof (H1 y P1 I1 G1 eq_refl) as Hy. cbn [existsb].
      destruct (none_or _ (resolve_or (resolve_types glob t) xs acc) (fun y => resolve_or (resolve_types glob t) xs (acc ++ [y])) y) as [ [-> Q] | [Ny Q] ].
      * rewrite (IH2 P2 I2 G2 r acc E), <- Hy. reflexivity.
      * rewrite Q in E. rewrite (IH2 P2 I2 G2 r (acc ++ [y]) E).
        rewrite existsb_app. cbn [existsb]. rewrite Hy, orb_false_r. now rewrite orb_assoc.
  - discriminate.
  - now apply H.
Qed.
