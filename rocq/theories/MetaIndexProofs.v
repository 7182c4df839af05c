(** Proofs about the meta index (MetaIndexModel.v). *)
From Coq Require Import List ZArith NArith Lia Bool Arith Sorted ZifyBool ZifyNat ZifyN.
From Verif Require Import OperatorModel AddressModel DataModel DataProofs TypeModel TypeProofs ExpressionModel ExpressionProofs EvaluatorProofs
  TableSliceModel TableSliceProofs TailorProofs ExtractorProofs SetOpsModel SetOpsProofs BloomModel BloomProofs SynopsisModel SynopsisProofs
  MetaIndexModel.
Import ListNotations.
Open Scope nat_scope.

(** * Maps *)

Lemma find_put_same : forall K V (eqb : K -> K -> bool), (forall a b, eqb a b = true <-> a = b) ->
  forall k (v : V) m, find_entry eqb k (put_entry eqb k v m) = Some v.
Proof.
  intros K V eqb H k v. induction m as [|[k' v'] m IH]; cbn [put_entry find_entry].
  - now rewrite (proj2 (H k k) eq_refl).
  - destruct (eqb k' k) eqn:E; cbn [find_entry]; rewrite E; [reflexivity|exact IH].
Qed.
Lemma find_put_other : forall K V (eqb : K -> K -> bool), (forall a b, eqb a b = true <-> a = b) ->
  forall k q (v : V) m, q <> k -> find_entry eqb q (put_entry eqb k v m) = find_entry eqb q m.
Proof.
  intros K V eqb H k q v m Ne. induction m as [|[k' v'] m IH]; cbn [put_entry find_entry].
  - destruct (eqb k q) eqn:E; [|reflexivity]. apply H in E. congruence.
  - destruct (eqb k' k) eqn:E; cbn [find_entry]; [|destruct (eqb k' q); [reflexivity|exact IH]].
    destruct (eqb k' q) eqn:E'; [|reflexivity]. apply H in E. apply H in E'. congruence.
Qed.
Lemma find_in : forall K V (eqb : K -> K -> bool), (forall a b, eqb a b = true <-> a = b) ->
  forall k (v : V) m, find_entry eqb k m = Some v -> In (k, v) m.
Proof.
  intros K V eqb H k v. induction m as [|[k' v'] m IH]; cbn [find_entry]; [discriminate|].
  destruct (eqb k' k) eqn:E; intros F; [|right; auto]. injection F as <-. apply H in E as ->. now left.
Qed.
Lemma qfield_eqb_eq : forall a b, qfield_eqb a b = true <-> a = b.
Proof.
  intros [l k t] [l' k' t']. unfold qfield_eqb. cbn [q_layout q_key q_type]. rewrite !andb_true_iff, !bytes_eqb_iff, ty_eqb_eq.
  split; [intros [[-> ->] ->]; reflexivity|intros E; injection E as -> -> ->; auto].
Qed.
Lemma qfield_dec : forall a b : qfield, a = b \/ a <> b.
Proof.
  intros a b. destruct (qfield_eqb a b) eqn:E; [left; now apply qfield_eqb_eq|right].
  intros ->. rewrite (proj2 (qfield_eqb_eq b b) eq_refl) in E. discriminate.
Qed.
Lemma ty_dec : forall a b : ty, a = b \/ a <> b.
Proof.
  intros a b. destruct (ty_eqb a b) eqn:E; [left; now apply ty_eqb_eq|right].
  intros ->. rewrite (proj2 (ty_eqb_eq b b) eq_refl) in E. discriminate.
Qed.
Lemma cleaned_string : forall t, is_string_type (cleaned t) = is_string_type t.
Proof. intros t. destruct t; reflexivity. Qed.

Section Hash.
  Variable hash : N -> data -> N.
  Variable opts : syn_options.

  (** * What a partition synopsis knows *)

  (** A synopsis, if there is one, knows of a value unless it is nil. *)
  Definition knows_value (so : option synopsis) (x : data) : Prop :=
    match so with Some s => covers hash s (present [x]) | None => True end.
  (** The partition synopsis knows of a value of a column. *)
  Definition knows (ps : psyn) (q : qfield) (x : data) : Prop :=
    if is_string_type (q_type q)
    then find_entry qfield_eqb q (field_syns ps) = Some None /\
         exists ts, find_entry ty_eqb (cleaned (q_type q)) (type_syns ps) = Some ts /\ knows_value ts x
    else exists so, find_entry qfield_eqb q (field_syns ps) = Some so /\ knows_value so x.
  (** All synopses are in order, and only those of strings are shared. *)
  Definition in_order (ps : psyn) : Prop :=
    (forall q s, find_entry qfield_eqb q (field_syns ps) = Some (Some s) -> covers hash s []) /\
    (forall t s, find_entry ty_eqb t (type_syns ps) = Some (Some s) -> covers hash s []) /\
    (forall t so, find_entry ty_eqb t (type_syns ps) = Some so -> is_string_type t = true) /\
    (forall q so, find_entry qfield_eqb q (field_syns ps) = Some so -> is_string_type (q_type q) = true -> so = None).

  Lemma new_synopsis_covers : forall t s, new_synopsis opts t = Some (Some s) -> covers hash s [].
  Proof. intros t s E. unfold new_synopsis in E. destruct (has_skip t); [discriminate|]. eapply make_synopsis_covers; eassumption. Qed.

  Lemma with_column_knows : forall found t xs so, with_column hash opts found t xs = Some so ->
    (forall s, found = Some (Some s) -> covers hash s []) ->
    (forall x, In x xs -> knows_value so x) /\ (forall old x, found = Some old -> knows_value old x -> knows_value so x) /\
    (forall s, so = Some s -> covers hash s []).
  Proof.
    intros found t xs so E C. unfold with_column in E.
    assert (G : forall s s', covers hash s [] -> syn_add_all hash s xs = Some s' ->
      (forall x, In x xs -> covers hash s' (present [x])) /\ (forall x, covers hash s (present [x]) -> covers hash s' (present [x])) /\ covers hash s' []).
    { intros s s' Cs A. pose proof (covers_add_all hash xs s [] s' Cs A) as H. rewrite app_nil_r in H. split; [|split].
      - intros x Hx. eapply covers_sub; [exact H|]. intros y Hy. rewrite <- in_rev. unfold present in *.
        apply filter_In in Hy as [ [<-|[] ] Hy]. apply filter_In. auto.
      - intros x Hx. pose proof (covers_add_all hash xs s _ s' Hx A) as H'. eapply covers_sub; [exact H'|]. intros y Hy. apply in_or_app. now right.
      - eapply covers_sub; [exact H|]. intros y []. }
    destruct found as [ [s|]|].
    - destruct (syn_add_all hash s xs) as [s'|] eqn:A; [|discriminate]. injection E as <-. destruct (G s s' (C s eq_refl) A) as (G1 & G2 & G3).
      split; [exact G1|]. split; [|intros ? [= <-]; exact G3]. intros old x [= <-]. apply G2.
    - injection E as <-. split; [intros; exact I|]. split; [intros; exact I|discriminate].
    - destruct (new_synopsis opts t) as [ [s|]|] eqn:N'; try discriminate.
      + destruct (syn_add_all hash s xs) as [s'|] eqn:A; [|discriminate]. injection E as <-.
        destruct (G s s' (new_synopsis_covers t s N') A) as (G1 & G2 & G3). split; [exact G1|]. split; [discriminate|]. intros ? [= <-]. exact G3.
      + injection E as <-. split; [intros; exact I|]. split; [discriminate|discriminate].
  Qed.

  Definition leaf_field (name : list N) (l : leaf) : qfield := {| q_layout := name; q_key := l_key l; q_type := l_type l |}.
  Lemma add_column_knows : forall name ps l xs ps', add_column hash opts name ps l xs = Some ps' -> in_order ps ->
    in_order ps' /\ (forall x, In x xs -> knows ps' (leaf_field name l) x) /\ (forall q x, knows ps q x -> knows ps' q x).
  Proof.
    intros name ps l xs ps' E (O1 & O2 & O3 & O4). unfold add_column in E. destruct name as [|c name']; [discriminate|]. set (name := c :: name') in *.
    destruct (l_key l) as [|kc kr] eqn:Ek; [discriminate|]. rewrite <- Ek in E.
    change {| q_layout := name; q_key := l_key l; q_type := l_type l |} with (leaf_field name l) in E. set (q := leaf_field name l) in *.
    assert (Tq : q_type q = l_type l) by reflexivity. destruct (is_string_type (l_type l)) eqn:St.
    - destruct (with_column _ _ _ _ _) as [ts|] eqn:W; [|discriminate]. injection E as <-.
      destruct (with_column_knows _ _ _ _ W (O2 _)) as (W1 & W2 & W3). split; [|split].
      + unfold in_order. cbn [field_syns type_syns]. split; [|split; [|split] ].
        * intros q2 s F. destruct (qfield_dec q2 q) as [->|Ne]; [rewrite (find_put_same _ _ _ qfield_eqb_eq) in F; discriminate|].
          rewrite (find_put_other _ _ _ qfield_eqb_eq) in F by assumption. eauto.
        * intros t2 s F. destruct (ty_dec t2 (cleaned (l_type l))) as [->|Ne]; [rewrite (find_put_same _ _ _ ty_eqb_eq) in F; injection F as ->; auto|].
          rewrite (find_put_other _ _ _ ty_eqb_eq) in F by assumption. eauto.
        * intros t2 s F. destruct (ty_dec t2 (cleaned (l_type l))) as [->|Ne]; [now rewrite cleaned_string|].
          rewrite (find_put_other _ _ _ ty_eqb_eq) in F by assumption. eauto.
        * intros q2 s F. destruct (qfield_dec q2 q) as [->|Ne]; [rewrite (find_put_same _ _ _ qfield_eqb_eq) in F; congruence|].
          rewrite (find_put_other _ _ _ qfield_eqb_eq) in F by assumption. eauto.
      + intros x Hx. unfold knows. rewrite Tq, St. cbn [field_syns type_syns]. rewrite (find_put_same _ _ _ qfield_eqb_eq). split; [reflexivity|].
        exists ts. rewrite (find_put_same _ _ _ ty_eqb_eq). auto.
      + intros q2 x. unfold knows. destruct (is_string_type (q_type q2)) eqn:S2; cbn [field_syns type_syns].
        * intros [F (ts2 & F2 & K)]. split.
          { destruct (qfield_dec q2 q) as [->|Ne]; [now rewrite (find_put_same _ _ _ qfield_eqb_eq)|now rewrite (find_put_other _ _ _ qfield_eqb_eq) by assumption]. }
          destruct (ty_dec (cleaned (q_type q2)) (cleaned (l_type l))) as [Eq|Ne].
          { exists ts. rewrite Eq, (find_put_same _ _ _ ty_eqb_eq). split; [reflexivity|]. rewrite Eq in F2. eauto. }
          exists ts2. now rewrite (find_put_other _ _ _ ty_eqb_eq) by assumption.
        * intros (so & F & K). exists so. split; [|exact K]. rewrite (find_put_other _ _ _ qfield_eqb_eq); [exact F|]. intros ->. congruence.
    - destruct (with_column _ _ _ _ _) as [so|] eqn:W; [|discriminate]. injection E as <-.
      destruct (with_column_knows _ _ _ _ W (O1 _)) as (W1 & W2 & W3). split; [|split].
      + unfold in_order. cbn [field_syns type_syns]. split; [|split; [|split] ]; [|exact O2|exact O3|].
        * intros q2 s F. destruct (qfield_dec q2 q) as [->|Ne]; [rewrite (find_put_same _ _ _ qfield_eqb_eq) in F; injection F as ->; auto|].
          rewrite (find_put_other _ _ _ qfield_eqb_eq) in F by assumption. eauto.
        * intros q2 s F S2. destruct (qfield_dec q2 q) as [->|Ne]; [congruence|].
          rewrite (find_put_other _ _ _ qfield_eqb_eq) in F by assumption. eauto.
      + intros x Hx. unfold knows. rewrite Tq, St. cbn [field_syns]. exists so. rewrite (find_put_same _ _ _ qfield_eqb_eq). auto.
      + intros q2 x. unfold knows. destruct (is_string_type (q_type q2)) eqn:S2; cbn [field_syns type_syns].
        * intros [F K]. split; [|exact K]. rewrite (find_put_other _ _ _ qfield_eqb_eq); [exact F|]. intros ->. congruence.
        * intros (so2 & F & K). destruct (qfield_dec q2 q) as [->|Ne].
          { exists so. rewrite (find_put_same _ _ _ qfield_eqb_eq). split; [reflexivity|]. eauto. }
          exists so2. now rewrite (find_put_other _ _ _ qfield_eqb_eq) by assumption.
  Qed.

  Lemma column_cell : forall rows col xs row, column rows col = Some xs -> In row rows -> exists x, nth_error row col = Some x /\ In x xs.
  Proof.
    induction rows as [|r rows IH]; intros col xs row E Hr; [destruct Hr|]. cbn [column] in E.
    destruct (nth_error r col) as [x|] eqn:X; [|discriminate]. destruct (column rows col) as [ys|] eqn:Y; [|discriminate]. injection E as <-.
    destruct Hr as [->|Hr]; [exists x; split; [exact X|now left]|]. destruct (IH col ys row Y Hr) as (y & E & Iy). exists y. split; [exact E|now right].
  Qed.
  Lemma add_columns_knows : forall name rows ls ps col ps', add_columns hash opts name rows ps ls col = Some ps' -> in_order ps ->
    in_order ps' /\ (forall q x, knows ps q x -> knows ps' q x) /\
    (forall i l row, nth_error ls i = Some l -> In row rows -> exists x, nth_error row (col + i) = Some x /\ knows ps' (leaf_field name l) x).
  Proof.
    intros name rows. induction ls as [|l ls IH]; intros ps col ps' E O; cbn [add_columns] in E.
    - injection E as <-. split; [exact O|]. split; [auto|]. intros [|i]; discriminate.
    - destruct (column rows col) as [xs|] eqn:X; [|discriminate]. destruct (add_column hash opts name ps l xs) as [ps1|] eqn:A; [|discriminate].
      destruct (add_column_knows _ _ _ _ _ A O) as (O1 & K1 & M1). destruct (IH ps1 (S col) ps' E O1) as (O2 & M2 & K2).
      split; [exact O2|]. split; [auto|]. intros [|i] l' row Hl Hr.
      + injection Hl as <-. destruct (column_cell _ _ _ _ X Hr) as (x & Hx & Ix). exists x. rewrite Nat.add_0_r. auto.
      + destruct (K2 i l' row Hl Hr) as (x & Hx & Kx). exists x. rewrite Nat.add_succ_comm in Hx. auto.
  Qed.

  (** The partition synopsis knows of an event. *)
  Definition knows_row (ps : psyn) (la : layout) (row : list data) : Prop :=
    forall k ns t, In (k, (ns, t)) (columns (la_fields la)) ->
      exists x, nth_error row k = Some x /\ knows ps {| q_layout := m_name (la_meta la); q_key := join ns; q_type := t |} x.

  Lemma columns_leaf : forall fs k ns t, In (k, (ns, t)) (columns fs) <-> exists o, nth_error (leaf_list fs) k = Some (o, ns, t).
  Proof.
    intros fs k ns t. unfold columns. generalize (leaf_list fs) as ls. intros ls.
    assert (G : forall ls b, In (k, (ns, t)) (combine (seq b (length ls)) (map (fun p : path => (snd (fst p), snd p)) ls)) <->
      exists i o, k = b + i /\ nth_error ls i = Some (o, ns, t)).
    { clear. induction ls as [|[ [o n] u] ls IH]; intros b; cbn [length seq map combine In].
      - split; [intros []|]. intros ([|i] & o & _ & H); discriminate.
      - rewrite IH. cbn [fst snd]. split.
        + intros [H|(i & o' & -> & H)]; [injection H as <- <- <-; exists 0, o; split; [lia|reflexivity]|exists (S i), o'; split; [lia|exact H] ].
        + intros ([|i] & o' & -> & H); [left; injection H as -> -> ->; f_equal; lia|right; exists i, o'; split; [lia|exact H] ]. }
    rewrite G. split; [intros (i & o & -> & H); eauto|intros (o & H); exists k, o; auto].
  Qed.

  Lemma psyn_add_knows : forall ps s ps', psyn_add hash opts ps s = Some ps' -> in_order ps ->
    forallb (fun f => no_empty (snd f)) (la_fields (s_layout s)) = true ->
    in_order ps' /\ (forall q x, knows ps q x -> knows ps' q x) /\ forall row, In row (s_rows s) -> knows_row ps' (s_layout s) row.
  Proof.
    intros ps s ps' E O Ne. unfold psyn_add in E. rewrite (each_list_defined _ Ne) in E.
    destruct (add_columns_knows _ _ _ _ _ _ E O) as (O' & M & K). split; [exact O'|]. split; [exact M|].
    intros row Hr k ns t Hc. apply columns_leaf in Hc as (o & Hc).
    destruct (K k (mk_leaf (o, ns, t)) row) as (x & Hx & Kx); [rewrite nth_error_map, Hc; reflexivity|exact Hr|]. exists x. auto.
  Qed.
  Lemma psyn_add_all_knows : forall ss ps ps', psyn_add_all hash opts ps ss = Some ps' -> in_order ps ->
    Forall (fun s => forallb (fun f => no_empty (snd f)) (la_fields (s_layout s)) = true) ss ->
    in_order ps' /\ (forall q x, knows ps q x -> knows ps' q x) /\ forall s row, In s ss -> In row (s_rows s) -> knows_row ps' (s_layout s) row.
  Proof.
    induction ss as [|s ss IH]; intros ps ps' E O F; cbn [psyn_add_all] in E.
    - injection E as <-. split; [exact O|]. split; [auto|]. intros s row [].
    - inversion F; subst. destruct (psyn_add hash opts ps s) as [ps1|] eqn:A; [|discriminate].
      destruct (psyn_add_knows _ _ _ A O) as (O1 & M1 & K1); [assumption|]. destruct (IH ps1 ps' E O1) as (O2 & M2 & K2); [assumption|].
      split; [exact O2|]. split; [auto|]. intros s' row [<-|Hs] Hr; [|eauto].
      intros k ns t Hc. destruct (K1 row Hr k ns t Hc) as (x & Hx & Kx). eauto.
  Qed.
  Lemma empty_in_order : in_order empty_psyn.
  Proof. unfold in_order. repeat split; intros *; discriminate. Qed.

  (** ** Shrinking *)
  Lemma shrink_entry_knows : forall so so', shrink_entry hash opts so = Some so' ->
    (forall s, so = Some s -> covers hash s []) ->
    (forall x, knows_value so x -> knows_value so' x) /\ (forall s, so' = Some s -> covers hash s []) /\ (so = None <-> so' = None).
  Proof.
    intros [s|] so' E C; cbn [shrink_entry] in E.
    - destruct (shrink hash opts s) as [ [s'|]|] eqn:S; [injection E as <-|injection E as <-|discriminate].
      + assert (G : forall xs, covers hash s xs -> covers hash s' xs).
        { intros xs Cx. destruct (shrink_covers hash opts s xs Cx) as (r & Er & H). rewrite S in Er. injection Er as <-. apply H. }
        split; [intros x; apply G|]. split; [intros ? [= <-]; auto|split; discriminate].
      + split; [auto|]. split; [auto|reflexivity].
    - injection E as <-. split; [auto|]. split; [discriminate|tauto].
  Qed.
  Lemma shrink_entries_find : forall K (eqb : K -> K -> bool) m m', shrink_entries hash opts m = Some m' ->
    forall k, match find_entry eqb k m with
              | None => find_entry eqb k m' = None
              | Some so => exists so', shrink_entry hash opts so = Some so' /\ find_entry eqb k m' = Some so'
              end.
  Proof.
    intros K eqb. induction m as [|[k' so] m IH]; intros m' E k; cbn [shrink_entries] in E; [injection E as <-; reflexivity|].
    destruct (shrink_entry hash opts so) as [so'|] eqn:S; [|discriminate]. destruct (shrink_entries hash opts m) as [m2|] eqn:M; [|discriminate].
    injection E as <-. cbn [find_entry]. destruct (eqb k' k); [eauto|]. now apply IH.
  Qed.
  Lemma psyn_shrink_knows : forall ps ps', psyn_shrink hash opts ps = Some ps' -> in_order ps ->
    in_order ps' /\ forall q x, knows ps q x -> knows ps' q x.
  Proof.
    intros ps ps' E (O1 & O2 & O3 & O4). unfold psyn_shrink in E.
    destruct (shrink_entries hash opts (field_syns ps)) as [f|] eqn:F; [|discriminate].
    destruct (shrink_entries hash opts (type_syns ps)) as [t|] eqn:T; [|discriminate]. injection E as <-.
    pose proof (shrink_entries_find _ qfield_eqb _ _ F) as Hf. pose proof (shrink_entries_find _ ty_eqb _ _ T) as Ht.
    assert (Bf : forall q so', find_entry qfield_eqb q f = Some so' -> exists so, find_entry qfield_eqb q (field_syns ps) = Some so /\ shrink_entry hash opts so = Some so').
    { intros q so' Q. specialize (Hf q). destruct (find_entry qfield_eqb q (field_syns ps)) as [so|]; [|congruence].
      destruct Hf as (so2 & S2 & F2). exists so. split; [reflexivity|congruence]. }
    assert (Bt : forall q so', find_entry ty_eqb q t = Some so' -> exists so, find_entry ty_eqb q (type_syns ps) = Some so /\ shrink_entry hash opts so = Some so').
    { intros q so' Q. specialize (Ht q). destruct (find_entry ty_eqb q (type_syns ps)) as [so|]; [|congruence].
      destruct Ht as (so2 & S2 & F2). exists so. split; [reflexivity|congruence]. }
    split.
    - unfold in_order. cbn [field_syns type_syns]. split; [|split; [|split] ].
      + intros q s Q. destruct (Bf _ _ Q) as (so & Fo & So). destruct (shrink_entry_knows _ _ So) as (_ & H & _); [intros s2 ->; eauto|auto].
      + intros q s Q. destruct (Bt _ _ Q) as (so & Fo & So). destruct (shrink_entry_knows _ _ So) as (_ & H & _); [intros s2 ->; eauto|auto].
      + intros q so' Q. destruct (Bt _ _ Q) as (so & Fo & So). eauto.
      + intros q so' Q S. destruct (Bf _ _ Q) as (so & Fo & So). destruct (shrink_entry_knows _ _ So) as (_ & _ & H); [intros s2 ->; eauto|].
        apply H. eauto.
    - intros q x. unfold knows. cbn [field_syns type_syns]. destruct (is_string_type (q_type q)) eqn:S.
      + intros [Q (ts & Q2 & K)]. specialize (Hf q). rewrite Q in Hf. destruct Hf as (so' & [= <-] & ->). split; [reflexivity|].
        specialize (Ht (cleaned (q_type q))). rewrite Q2 in Ht. destruct Ht as (ts' & So & ->). exists ts'. split; [reflexivity|].
        destruct (shrink_entry_knows _ _ So) as (H & _ & _); [intros s2 ->; eauto|auto].
      + intros (so & Q & K). specialize (Hf q). rewrite Q in Hf. destruct Hf as (so' & So & ->). exists so'. split; [reflexivity|].
        destruct (shrink_entry_knows _ _ So) as (H & _ & _); [intros s2 ->; eauto|auto].
  Qed.

  (** * One predicate *)

  Variable re : regex.

  Lemma column_check_sound : forall ps q so x op d, in_order ps -> In (q, so) (field_syns ps) ->
    find_entry qfield_eqb q (field_syns ps) = Some so -> knows ps q x ->
    evaluate_view re (to_canonical (q_type q) x) op d = Some true ->
    (x = DNone -> evaluate_view re DNone op d <> Some true) -> (forall z, x = DTime z -> op <> op_ne /\ op <> op_not_in) ->
    column_check hash ps op d (q, so) <> Some false.
  Proof.
    intros ps q so x op d (O1 & O2 & O3 & O4) Hin F K E Nn Nt. unfold column_check. cbn [snd fst].
    assert (G : forall s, covers hash s (present [x]) -> syn_lookup hash s op d <> Some (Some false)).
    { intros s C. destruct x as [|b|n|z|r|z|z|str|pat|a|sn|n|xs|m|fs]; cbn [present filter] in C;
        try (exfalso; destruct s as [t f|mn mx|k f|k p vs]; cbn [covers] in C;
             [destruct (C _ (or_introl eq_refl)) as (b' & B & _); discriminate B|destruct (C _ (or_introl eq_refl)) as (z' & B & _); discriminate B
             |destruct C as [_ C]; destruct (C _ (or_introl eq_refl)) as [B _]; destruct k; discriminate B
             |destruct C as [_ C]; destruct (C _ (or_introl eq_refl)) as [B _]; destruct k; discriminate B]; fail).
      - exfalso. apply Nn; [reflexivity|]. destruct (q_type q); exact E.
      - apply (lookup_sound hash re s [DBool b] (DBool b)); [exact C|now left| |destruct (q_type q); exact E].
        destruct s; try exact I. destruct (C _ (or_introl eq_refl)) as (b' & B & _); discriminate B.
      - apply (lookup_sound hash re s [DTime z] (DTime z)); [exact C|now left| |destruct (q_type q); exact E].
        destruct s; try exact I. cbn [sound_op]. eapply Nt; reflexivity.
      - apply (lookup_sound hash re s [DString str] (DString str)); [exact C|now left| |destruct (q_type q); exact E].
        destruct s; try exact I. destruct (C _ (or_introl eq_refl)) as (b' & B & _); discriminate B.
      - apply (lookup_sound hash re s [DAddress a] (DAddress a)); [exact C|now left| |destruct (q_type q); exact E].
        destruct s; try exact I. destruct (C _ (or_introl eq_refl)) as (b' & B & _); discriminate B. }
    assert (M : forall s, covers hash s (present [x]) -> option_map (fun r => match r with Some b => b | None => true end) (syn_lookup hash s op d) <> Some false).
    { intros s C. specialize (G s C). destruct (syn_lookup hash s op d) as [ [ [|]|]|]; cbn; congruence. }
    unfold knows in K. destruct (is_string_type (q_type q)) eqn:S.
    - destruct K as [F' (ts & Ft & Kt)]. assert (so = None) as -> by congruence. rewrite Ft. destruct ts as [s|]; [now apply M|discriminate].
    - destruct K as (so2 & F' & K). assert (so2 = so) as -> by congruence. destruct so as [s|]; [now apply M|].
      destruct (find_entry ty_eqb (cleaned (q_type q)) (type_syns ps)) as [ts|] eqn:Ft; [|discriminate].
      apply O3 in Ft. rewrite cleaned_string in Ft. congruence.
  Qed.

  Lemma search_fields_sound : forall matches ps op d es e, In e es -> matches (fst e) = true ->
    column_check hash ps op d e <> Some false -> search_fields hash matches ps op d es <> Some false.
  Proof.
    intros matches ps op d es e. induction es as [|e' es IH]; intros Hin M C; [destruct Hin|]. cbn [search_fields].
    destruct Hin as [->|Hin].
    - rewrite M. destruct (column_check hash ps op d e) as [ [|]|]; congruence.
    - destruct (matches (fst e')); [|now apply IH]. destruct (column_check hash ps op d e') as [ [|]|]; try discriminate. now apply IH.
  Qed.

  Variable glob : list N -> list N -> bool.

  (** The conditions under which synopses may be consulted for a predicate: field names
      without wildcards; no nil and no excluded lookup of a time among the values of the
      columns it is about; [#field] with an operator that is not negated, [#type] and
      [#field] on layouts with columns. *)
  Definition prunable (la : layout) (row : list data) (p : predicate) : Prop :=
    match p_lhs p with
    | OField name => forall n, glob name n = true -> ends_with n name = true
    | OMeta MField => is_negated (p_op p) = false
    | _ => True
    end /\
    columns (la_fields la) <> [] /\
    forall d c x, p_rhs p = OVal d -> In c (columns (la_fields la)) -> selects glob la (p_lhs p) (p_op p) d c = true ->
      nth_error row (fst c) = Some x ->
      (x = DNone -> evaluate_view re DNone (p_op p) d <> Some true) /\ (forall z, x = DTime z -> p_op p <> op_ne /\ p_op p <> op_not_in).

  (** Whether a predicate keeps a partition; a violated assertion counts as keeping. *)
  Definition passes (ps : psyn) (p : predicate) : bool :=
    match keeps hash re p ps with Some b => b | None => true end ||
    (is_timestamp p && match keeps_timestamp hash p ps with Some b => b | None => true end).

  Lemma ends_with_refl : forall s, ends_with s s = true.
  Proof. intros s. unfold ends_with. rewrite Nat.leb_refl, Nat.sub_diag. cbn [skipn andb]. now apply bytes_eqb_iff. Qed.
  Lemma full_name_fqn : forall m ns t, ns <> [] -> full_name m ns = fqn {| q_layout := m_name m; q_key := join ns; q_type := t |}.
  Proof.
    intros m ns t H. unfold full_name, fqn. cbn [q_layout q_key]. f_equal. induction ns as [|a ns IH]; [contradiction|].
    destruct ns as [|b ns]; [cbn; now rewrite app_nil_r|]. change (join (a :: b :: ns)) with (a ++ dot :: join (b :: ns)).
    rewrite <- IH by discriminate. reflexivity.
  Qed.
  Lemma column_named : forall fs k ns t, In (k, (ns, t)) (columns fs) -> ns <> [].
  Proof.
    intros fs k ns t H. apply columns_leaf in H as (o & H). apply nth_error_In in H. apply leaf_list_leaf_at in H. destruct H; discriminate.
  Qed.

  (** The columns that are meant are looked at. *)
  Lemma selected_search : forall la row ps op d matches f, knows_row ps la row -> in_order ps ->
    (forall c x, In c (columns (la_fields la)) -> f c = true -> nth_error row (fst c) = Some x ->
      (x = DNone -> evaluate_view re DNone op d <> Some true) /\ (forall z, x = DTime z -> op <> op_ne /\ op <> op_not_in)) ->
    (forall k ns t, In (k, (ns, t)) (columns (la_fields la)) -> f (k, (ns, t)) = true ->
      matches {| q_layout := m_name (la_meta la); q_key := join ns; q_type := t |} = true) ->
    (exists c, In c (columns (la_fields la)) /\ f c = true /\ cell_satisfies re row op d c = true) ->
    search_fields hash matches ps op d (field_syns ps) <> Some false.
  Proof.
    intros la row ps op d matches f K O S M ([k [ns t] ] & Hc & Hf & Sat). destruct (K k ns t Hc) as (x & Hx & Kx).
    set (q := {| q_layout := m_name (la_meta la); q_key := join ns; q_type := t |}) in *.
    unfold cell_satisfies in Sat. cbn [fst snd] in Sat. rewrite Hx in Sat.
    destruct (evaluate_view re (to_canonical t x) op d) as [b|] eqn:E; [|discriminate]. subst b. destruct (S _ x Hc Hf Hx) as [S1 S2].
    assert (F : exists so, find_entry qfield_eqb q (field_syns ps) = Some so).
    { unfold knows in Kx. destruct (is_string_type (q_type q)); [destruct Kx as [Kx _]; eauto|destruct Kx as (so & Kx & _); eauto]. }
    destruct F as [so F]. pose proof (find_in _ _ _ qfield_eqb_eq _ _ _ F) as Hin.
    apply (search_fields_sound matches ps op d (field_syns ps) (q, so) Hin); [cbn [fst]; now apply M with k|].
    apply (column_check_sound ps q so x op d O Hin F Kx E S1 S2).
  Qed.
  Lemma some_column_exists : forall la row x op d, some_column re glob la row x op d = true ->
    exists c, In c (columns (la_fields la)) /\ selects glob la x op d c = true /\ cell_satisfies re row op d c = true.
  Proof.
    intros la row x op d H. unfold some_column in H. cbv zeta in H.
    destruct (is_negated op).
    - destruct (filter (selects glob la x op d) (columns (la_fields la))) as [|c cs] eqn:F; [discriminate|]. cbn [negb andb forallb] in H.
      apply andb_true_iff in H as [H _]. exists c. assert (Hc : In c (filter (selects glob la x op d) (columns (la_fields la)))) by (rewrite F; now left).
      apply filter_In in Hc as [H1 H2]. auto.
    - apply existsb_exists in H as (c & Hc & H). apply filter_In in Hc as [H1 H2]. eauto.
  Qed.

  Lemma row_field : forall la row ps k ns t, knows_row ps la row -> In (k, (ns, t)) (columns (la_fields la)) ->
    exists so, In ({| q_layout := m_name (la_meta la); q_key := join ns; q_type := t |}, so) (field_syns ps).
  Proof.
    intros la row ps k ns t K Hc. destruct (K k ns t Hc) as (x & _ & Kx). unfold knows in Kx.
    destruct (is_string_type (q_type _)); [destruct Kx as [Kx _]|destruct Kx as (so & Kx & _)]; apply (find_in _ _ _ qfield_eqb_eq) in Kx; eauto.
  Qed.

  Lemma passes_sound : forall la row ps p, forallb (fun f => no_empty (snd f)) (la_fields la) = true ->
    in_order ps -> knows_row ps la row -> prunable la row p ->
    column_truth re glob la row p = true -> passes ps p = true.
  Proof.
    intros la row ps [l op r] Ne O K (P1 & P2 & P3) T. unfold passes, keeps, is_timestamp, keeps_timestamp, column_truth in *. cbn [p_lhs p_op p_rhs] in *.
    assert (G : forall matches, search_fields hash matches ps op match r with OVal d => d | _ => DNone end (field_syns ps) <> Some false ->
      match search_fields hash matches ps op match r with OVal d => d | _ => DNone end (field_syns ps) with Some b => b | None => true end = true).
    { intros matches H. destruct (search_fields _ _ _ _ _ _) as [ [|]|]; congruence. }
    destruct r as [| | | |d]; try (destruct l as [ [|]| | | |]; discriminate T).
    destruct l as [k|name|u|u o|d'].
    - destruct (columns (la_fields la)) as [|[k0 [ns0 t0] ] cs] eqn:Ecs; [contradiction|].
      assert (Hin : In (k0, (ns0, t0)) (columns (la_fields la))) by (rewrite Ecs; now left).
      unfold row_truth, row_pred, row_extractor in T. cbn [p_lhs p_op p_rhs] in T. destruct k.
      + destruct (row_field la row ps k0 ns0 t0 K Hin) as (so & Hf).
        apply orb_true_iff. left. enough (search_layouts re op d (field_syns ps) <> Some false) by (destruct (search_layouts re op d (field_syns ps)) as [ [|]|]; congruence).
        revert Hf. generalize (field_syns ps). intros es. induction es as [|e es IH]; intros Hf; [destruct Hf|]. cbn [search_layouts]. destruct Hf as [->|Hf].
        * cbn [fst q_layout]. destruct (evaluate re (DString (m_name (la_meta la))) op d) as [ [|]|]; congruence.
        * destruct (evaluate re (DString (q_layout (fst e))) op d) as [ [|]|]; try discriminate. now apply IH.
      + destruct d; try discriminate. rewrite (each_list_defined _ Ne) in T. rewrite P1 in *. cbn [negb] in *.
        apply existsb_exists in T as (l & Hl & T). apply in_map_iff in Hl as ([ [o ns] t] & <- & Hl). cbn [mk_leaf l_key] in T.
        apply In_nth_error in Hl as (k & Hl). assert (Hc : In (k, (ns, t)) (columns (la_fields la))) by (apply columns_leaf; eauto).
        destruct (row_field la row ps k ns t K Hc) as (so & Hf). apply orb_true_iff. left. cbv zeta.
        assert (X : existsb (fun e => ends_with (fqn (fst e)) s) (field_syns ps) = true) by (apply existsb_exists; eauto). rewrite X. reflexivity.
    - apply some_column_exists in T as (c & Hc & Sc & Tc). apply orb_true_iff. left. apply (G (fun q => ends_with (fqn q) name)).
      eapply (selected_search la row ps op d _ (selects glob la (OField name) op d)); eauto.
      intros k ns t Hin Hs. unfold selects in Hs. apply andb_true_iff in Hs as [Hs _].
      rewrite <- full_name_fqn by (eapply column_named; exact Hin). apply orb_true_iff in Hs as [Hs|Hs]; [|auto].
      apply bytes_eqb_iff in Hs as ->. apply ends_with_refl.
    - apply some_column_exists in T as (c & Hc & Sc & Tc).
      assert (X : forall f, (forall k ns t, f (k, (ns, t)) = true -> selects glob la (OType u) op d (k, (ns, t)) = true) -> f c = true ->
        forall matches, (forall k ns t, f (k, (ns, t)) = true -> matches {| q_layout := m_name (la_meta la); q_key := join ns; q_type := t |} = true) ->
        search_fields hash matches ps op d (field_syns ps) <> Some false).
      { intros f Hf Fc matches Hm. eapply (selected_search la row ps op d _ f); eauto.
        intros [k [ns t] ] x Hin Hfc Hx. apply (P3 d (k, (ns, t)) x eq_refl Hin); auto. }
      destruct u as [|m|m b|m fs|m v|m a b|m fs|m v]; try reflexivity;
        try (apply orb_true_iff; left; apply (G (type_matches _ op d)); apply (X _ (fun k ns t H => H) Sc); intros k ns t H; exact H).
      destruct c as [k [ns t] ]. cbn [selects] in Sc. destruct (m_name m) as [|a b] eqn:Em; [reflexivity|]. rewrite <- Em in *.
      apply orb_true_iff in Sc as [Sc|Sc].
      + apply orb_true_iff. left. apply (G (type_matches (TNone m) op d)). apply (X (fun c => named (m_name m) op d (snd (snd c)))); cbn [snd]; auto.
        intros k' ns' t' H. cbn [selects]. now rewrite H.
      + apply andb_true_iff in Sc as [Sn St]. change (ty_name (TNone m)) with (m_name m). rewrite Sn. apply orb_true_iff. right. cbn [andb].
        apply (G (fun q => has_timestamp (q_type q))). apply (X (fun c => has_timestamp (snd (snd c)))); cbn [snd]; auto.
        intros k' ns' t' H. cbn [selects]. rewrite H, Sn. apply orb_true_r.
    - apply some_column_exists in T as (c & Hc & Sc & Tc). destruct c as [k [ns t] ]. discriminate Sc.
    - apply some_column_exists in T as (c & Hc & Sc & Tc). destruct c as [k [ns t] ]. discriminate Sc.
  Qed.
End Hash.
