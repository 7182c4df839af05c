(** C46, C47 and C48: editing and merging record types, checking values against types,
    and validating expressions. *)
From Coq Require Import List ZArith NArith Lia Bool Arith.
From Verif Require Import OperatorModel AddressModel DataModel TypeModel TypeProofs RecordProofs ExpressionModel ExpressionProofs PropsType.
Import ListNotations.
Open Scope nat_scope.

(** * C46 *)

(** Merging two records succeeds exactly if no name leads to two different types one of
    which is no record; then the leaves are those of both records. *)
Theorem C46_merge : forall m fs m' gs, distinct (TRecord m fs) -> distinct (TRecord m' gs) ->
  let lhs := TRecord m fs in let rhs := TRecord m' gs in
  (merge lhs rhs = None <-> exists ns u t, get lhs ns = Some u /\ get rhs ns = Some t /\ u <> t /\ (is_record u = false \/ is_record t = false)) /\
  (forall r, merge lhs rhs = Some r -> forall ns u, leaf_of r ns u <-> leaf_of lhs ns u \/ leaf_of rhs ns u).
Proof.
  intros m fs m' gs D1 D2 lhs rhs. assert (S := merge_spec rhs lhs eq_refl eq_refl D1 D2).
  destruct (merge lhs rhs) as [r|]; (split; [split|]).
  - discriminate.
  - intros (ns & u & t & A & B & C). destruct S as (_ & _ & S). elim (S ns). exists ns, [], u, t. rewrite app_nil_r. auto.
  - intros r' E. injection E as <-. apply S.
  - intros _. destruct S as (ns & b & a & u & t & _ & A & B & C). exists b, u, t. auto.
  - reflexivity.
  - discriminate.
Qed.
(** Merging with a preference always succeeds. The preferred record keeps all its
    leaves, the other one loses only those in the way of the preferred record, and
    nothing else appears. *)
Theorem C46_priority : forall m fs m' gs p, distinct (TRecord m fs) -> distinct (TRecord m' gs) ->
  let lhs := TRecord m fs in let rhs := TRecord m' gs in
  exists r, priority_merge lhs rhs p = Some r /\
    (forall ns u, leaf_of (match p with prefer_left => lhs | prefer_right => rhs end) ns u -> leaf_of r ns u) /\
    (forall ns u, leaf_of (match p with prefer_left => rhs | prefer_right => lhs end) ns u -> leaf_of r ns u \/
       exists before after v t, ns = before ++ after /\ get lhs before = Some v /\ get rhs before = Some t /\
         v <> t /\ (is_record v = false \/ is_record t = false)) /\
    (forall ns u, leaf_of r ns u -> leaf_of lhs ns u \/ leaf_of rhs ns u).
Proof.
  intros m fs m' gs p D1 D2 lhs rhs. destruct (priority_merge_spec p rhs lhs eq_refl eq_refl D1 D2) as (r & E & _ & A & B & C).
  exists r. split; [exact E|]. split; [exact A|]. split; [exact B|exact C].
Qed.
(** The fields of the left record come first, in their order, then the new ones of the
    right record in theirs; the result has no name. *)
Theorem C46_order : forall m fs m' gs r, distinct (TRecord m' gs) ->
  merge (TRecord m fs) (TRecord m' gs) = Some r \/ (exists p, priority_merge (TRecord m fs) (TRecord m' gs) p = Some r) ->
  exists m'' rs, r = TRecord m'' rs /\ m_name m'' = [] /\
    map fst rs = map fst fs ++ filter (fun n => if in_dec (list_eq_dec N.eq_dec) n (map fst fs) then false else true) (map fst gs).
Proof. intros m fs m' gs r D. apply merge_names. exact (proj1 (proj1 (distinct_record _ _) D)). Qed.
(** Every attribute is taken from the preferred record if it has it, else from the other. *)
Theorem C46_attributes : forall m fs m' gs p r, NoDup (map fst (m_attrs m)) -> NoDup (map fst (m_attrs m')) ->
  priority_merge (TRecord m fs) (TRecord m' gs) p = Some r ->
  let '(a, b) := match p with prefer_left => (m_attrs m, m_attrs m') | prefer_right => (m_attrs m', m_attrs m) end in
  forall key, attr_of key (m_attrs (ty_meta r)) = match attr_of key a with Some v => Some v | None => attr_of key b end.
Proof.
  intros m fs m' gs p r D1 D2 H. unfold priority_merge in H. cbn [priority_merge_into] in H.
  destruct (merge_loop _ _ gs fs []) as [rs|]; [|discriminate]. cbn [option_map] in H. injection H as <-.
  destruct p; intros key; cbn [ty_meta m_attrs]; now apply update_attrs_spec.
Qed.
(** A record is a subset of another exactly if every path of names in it leads to a
    record, or to a congruent type, in the other. *)
Theorem C46_subset : forall x y, distinct x -> unaliased y = true ->
  (is_subset x y = true <->
   forall ns u, get x ns = Some u -> exists t, get y ns = Some t /\ (is_record u = true /\ is_record t = true \/ congruent u t = true)).
Proof. exact is_subset_spec. Qed.
(** Subsets of a merged record are found: both sides of a successful merge are subsets of it
    as far as their leaves go. *)
Theorem C46_merge_subset : forall m fs m' gs r, distinct (TRecord m fs) -> distinct (TRecord m' gs) ->
  merge (TRecord m fs) (TRecord m' gs) = Some r ->
  forall ns u, leaf_of (TRecord m fs) ns u \/ leaf_of (TRecord m' gs) ns u -> exists t, get r ns = Some t /\ congruent u t = true.
Proof.
  intros m fs m' gs r D1 D2 E ns u L. apply (proj2 (C46_merge m fs m' gs D1 D2) r E) in L. exists u. split; [apply L|].
  now apply congruent_shape.
Qed.
(** Removing a column leaves no empty record behind. *)
Theorem C46_remove : forall fs o gs, forallb (fun f => no_empty (snd f)) fs = true -> remove_at fs o = Some gs ->
  forallb (fun f => no_empty (snd f)) gs = true.
Proof.
  intros fs o. revert fs. induction o as [|i o IH]; intros fs gs H E; [discriminate|]. cbn [remove_at] in E.
  destruct (nth_error fs i) as [[n t]|] eqn:N; [|discriminate].
  assert (F : forallb (fun f => no_empty (snd f)) (firstn i fs) = true /\ forallb (fun f => no_empty (snd f)) (skipn (S i) fs) = true).
  { rewrite forallb_forall in H. split; apply forallb_forall; intros f Hf; apply H.
    - rewrite <- (firstn_skipn i fs). apply in_or_app. now left.
    - rewrite <- (firstn_skipn (S i) fs). apply in_or_app. now right. }
  destruct o as [|j o].
  - injection E as <-. rewrite forallb_app. apply andb_true_iff. exact F.
  - destruct t as [| | | | | |m hs|]; try discriminate. destruct (remove_at hs (j :: o)) as [hs'|] eqn:R; [|discriminate].
    assert (T : no_empty (TRecord m hs) = true).
    { rewrite forallb_forall in H. exact (H _ (nth_error_In _ _ N)). }
    cbn [no_empty] in T. apply andb_true_iff in T. destruct T as [_ T]. specialize (IH hs hs' T R).
    destruct hs' as [|h hs']; injection E as <-; rewrite forallb_app.
    + apply andb_true_iff. exact F.
    + apply andb_true_iff. split; [apply F|]. cbn [forallb]. apply andb_true_iff. split; [|apply F]. cbn [snd no_empty negb andb]. exact IH.
Qed.
(** Removing from a record without empty records gives the columns but the removed one;
    the last column of a nested record takes the record with it. *)
Example C46_remove_example : remove_at sample_fields [1; 1; 0] =
  Some [([97%N], TBasic no_meta BInteger); ([98%N], TRecord no_meta [([99%N], TBasic no_meta BString)]); ([102%N], TBasic no_meta BCount)].
Proof. reflexivity. Qed.

(** {a: int, b: {d: bool, x: real}, g: time}. *)
Definition other_fields (x : basic) : list field :=
  [([103%N], TBasic no_meta BTime); ([97%N], TBasic no_meta x);
   ([98%N], TRecord no_meta [([120%N], TBasic no_meta BReal); ([99%N], TBasic no_meta BString)])].
Ltac distinct_names := apply distinct_record; split; [repeat constructor; cbn; intuition discriminate|
  repeat (apply Forall_cons || apply Forall_nil); cbn [snd]; try exact I; try distinct_names].
Example C46_example :
  distinct (TRecord no_meta sample_fields) /\ (forall x, distinct (TRecord no_meta (other_fields x))) /\
  merge (TRecord no_meta sample_fields) (TRecord no_meta (other_fields BReal)) = None /\
  option_map (fun r => match r with TRecord _ fs => map fst (flatten_fields fs) | _ => [] end)
    (merge (TRecord no_meta sample_fields) (TRecord no_meta (other_fields BInteger))) =
  Some [[97%N]; [98; 46; 99]%N; [98; 46; 100; 46; 101]%N; [98; 46; 120]%N; [102%N]; [103%N]] /\
  option_map (fun r => get r [[97%N]]) (priority_merge (TRecord no_meta sample_fields) (TRecord no_meta (other_fields BReal)) prefer_left)
    = Some (Some (TBasic no_meta BInteger)) /\
  is_subset (TRecord no_meta (skipn 1 sample_fields)) (TRecord no_meta sample_fields) = true.
Proof. split; [distinct_names|]. split; [intros x; distinct_names|]. repeat split. Qed.
(** An alias of a record may be called a subset although its fields have other names. *)
Theorem C46_subset_alias_refuted : exists x y, distinct x /\ distinct y /\ is_subset x y = true /\
  exists ns u, get x ns = Some u /\ forall m v, y = TAlias m v -> get v ns = None.
Proof.
  exists (TRecord no_meta [([97%N], TBasic no_meta BBool)]), (TAlias no_meta (TRecord no_meta [([98%N], TBasic no_meta BBool)])).
  split; [distinct_names|]. split; [exact I|]. split; [reflexivity|]. exists [[97%N]]. eexists. split; [reflexivity|].
  intros m v E. injection E as _ <-. reflexivity.
Qed.

(** * C47 *)

(** A check accepts every value that conforms to the type. *)
Theorem C47_complete : forall t d, conforms t d -> type_check t d = true.
Proof.
  intros t d H. apply type_check_spec. revert d H.
  induction t as [|m|m b|m es|m t IH|m k v IH1 IH2|m fs IH|m t IH] using ty_rect'; intros d H.
  - apply conforms_any. now left.
  - apply conforms_any. right. eauto.
  - inversion H as [|? ? Q| | | | | | | | | | | | | | |]; subst; cbn [heads]; try exact H. destruct Q as [Q|[? Q] ]; discriminate Q.
  - inversion H as [|? ? Q| | | | | | | | | | | | | | |]; subst; cbn [heads]; try exact H. destruct Q as [Q|[? Q] ]; discriminate Q.
  - inversion H as [|? ? Q| | | | | | | | | | | |? ? xs A| | |]; subst; cbn [heads]; try exact H.
    + destruct Q as [Q|[? Q] ]; discriminate Q.
    + destruct xs as [|x xs]; [exact H|]. apply conforms_list. intros y [<-|[] ]. apply IH, A. now left.
  - inversion H as [|? ? Q| | | | | | | | | | | | |? ? ? xs A| |]; subst; cbn [heads]; try exact H.
    + destruct Q as [Q|[? Q] ]; discriminate Q.
    + destruct xs as [|[a b] xs]; [exact H|]. apply conforms_map. intros a' b' [E|[] ]. injection E as <- <-.
      destruct (A a b (or_introl eq_refl)). split; [now apply IH1|now apply IH2].
  - inversion H as [|? ? Q| | | | | | | | | | | | | |? ? xs A|]; subst; cbn [heads]; try exact H.
    + destruct Q as [Q|[? Q] ]; discriminate Q.
    + apply conforms_record. clear H. revert xs A. induction IH as [|f fs P _ IHf]; intros xs A; inversion A as [|? x ? xs' [A1 A2] A3]; subst; cbn [map]; constructor.
      * cbn [fst snd]. auto.
      * auto.
  - inversion H as [|? ? Q| | | | | | | | | | | | | | |? ? ? A]; subst; cbn [heads]; try exact H.
    + destruct Q as [Q|[? Q] ]; discriminate Q.
    + apply conforms_alias. auto.
Qed.
(** It accepts exactly the values that conform once lists and maps are cut down to their
    first elements. *)
Theorem C47_exact : forall t d, type_check t d = true <-> conforms t (heads d).
Proof. exact type_check_spec. Qed.
(** Without lists and maps of several elements a check is exact. *)
Inductive singles : data -> Prop :=
| singles_list : forall xs, length xs <= 1 -> Forall singles xs -> singles (DList xs)
| singles_map : forall xs, length xs <= 1 -> Forall (fun p => singles (fst p) /\ singles (snd p)) xs -> singles (DMap xs)
| singles_record : forall xs, Forall (fun p => singles (snd p)) xs -> singles (DRecord xs)
| singles_other : forall d, data_is_container d = false -> singles d.
Fixpoint heads_singles (d : data) (H : singles d) {struct H} : heads d = d.
Proof.
  destruct H as [xs L H|xs L H|xs H|d H].
  - destruct xs as [|x [|y xs] ]; cbn [length] in L; try lia; cbn [heads]; [reflexivity|].
    inversion H as [|? ? A _]; subst. now rewrite (heads_singles x A).
  - destruct xs as [|[a b] [|y xs] ]; cbn [length] in L; try lia; cbn [heads]; [reflexivity|].
    inversion H as [|? ? A _]; subst. destruct A as [A B]. cbn [fst snd] in *. now rewrite (heads_singles a A), (heads_singles b B).
  - cbn [heads]. f_equal. induction H as [|[n x] xs A _ IH]; [reflexivity|]. cbn [map fst snd] in *. now rewrite (heads_singles x A), IH.
  - destruct d; try reflexivity; discriminate H.
Qed.
Theorem C47_singles : forall t d, singles d -> (type_check t d = true <-> conforms t d).
Proof. intros t d H. rewrite C47_exact, heads_singles by exact H. reflexivity. Qed.
Definition sample_value : data :=
  DRecord [([97%N], DInt 5); ([98%N], DRecord [([99%N], DString [120%N]); ([100%N], DRecord [([101%N], DNone)])]); ([102%N], DCount 7)].
Example C47_example : singles sample_value /\ type_check (TRecord no_meta sample_fields) sample_value = true /\
  type_check (TList no_meta (TEnum no_meta [[97%N]; [98%N]])) (DList [DEnum 2]) = false /\
  type_check (TList no_meta (TEnum no_meta [[97%N]; [98%N]])) (DList [DEnum 1]) = true.
Proof.
  split; [|repeat split]. repeat (first [apply singles_other; reflexivity|apply singles_record|apply Forall_nil|apply Forall_cons; cbn [snd] ]).
Qed.
(** A list whose second element has the wrong type is accepted. *)
Theorem C47_list_refuted : exists t d, type_check t d = true /\ ~ conforms t d.
Proof.
  exists (TList no_meta (TBasic no_meta BCount)), (DList [DCount 1; DString [97%N] ]). split; [reflexivity|]. intros H.
  inversion H as [|? ? Q| | | | | | | | | | | |? ? xs A| | |]; subst; [destruct Q as [Q|[? Q] ]; discriminate Q|].
  assert (B := A (DString [97%N]) (or_intror (or_introl eq_refl))).
  inversion B as [|? ? Q| | | | | | | | | | | | | | |]; subst. destruct Q as [Q|[? Q] ]; discriminate Q.
Qed.

(** * C48 *)

(** A value that can be ordered against values of a type. Enumerations are written as
    the names of their members, records as lists. *)
Inductive value_of : ty -> data -> Prop :=
| value_none : forall t, t = TNull \/ (exists m, t = TNone m) -> value_of t DNone
| value_bool : forall m b, value_of (TBasic m BBool) (DBool b)
| value_int : forall m z, value_of (TBasic m BInteger) (DInt z)
| value_count : forall m n, value_of (TBasic m BCount) (DCount n)
| value_real : forall m n, value_of (TBasic m BReal) (DReal n)
| value_duration : forall m z, value_of (TBasic m BDuration) (DDuration z)
| value_time : forall m z, value_of (TBasic m BTime) (DTime z)
| value_string : forall m s, value_of (TBasic m BString) (DString s)
| value_pattern : forall m s, value_of (TBasic m BPattern) (DPattern s)
| value_address : forall m a, value_of (TBasic m BAddress) (DAddress a)
| value_subnet : forall m s, value_of (TBasic m BSubnet) (DSubnet s)
| value_enum : forall m fs s, In s fs -> value_of (TEnum m fs) (DString s)
| value_list : forall m t xs, value_of (TList m t) (DList xs)
| value_map : forall m k v xs, value_of (TMap m k v) (DMap xs)
| value_record : forall m fs xs, Forall2 (fun f x => value_of (snd f) x) fs xs -> value_of (TRecord m fs) (DList xs)
| value_alias : forall m t d, value_of t d -> value_of (TAlias m t) d.
Lemma congruent_data_spec : forall t d, congruent_data t d = true <-> value_of t d.
Proof.
  induction t as [|m|m b|m es|m t IH|m k v IH1 IH2|m fs IH|m t IH] using ty_rect'; intros d.
  - split; [destruct d; try discriminate; intros _; apply value_none; now left|]. intros H. inversion H; reflexivity.
  - split; [destruct d; try discriminate; intros _; apply value_none; right; eauto|]. intros H. inversion H; reflexivity.
  - split.
    + destruct b, d; try discriminate; intros _; constructor.
    + intros H. inversion H as [? Q| | | | | | | | | | | | | | |]; subst; try reflexivity. destruct Q as [Q|[? Q] ]; discriminate Q.
  - split.
    + destruct d; try discriminate. cbn [congruent_data]. rewrite existsb_exists. intros (x & A & B). apply bytes_eqb_iff in B. subst. now apply value_enum.
    + intros H. inversion H as [? Q| | | | | | | | | | |? ? s A| | | |]; subst; [destruct Q as [Q|[? Q] ]; discriminate Q|].
      cbn [congruent_data]. apply existsb_exists. exists s. split; [exact A|]. now apply bytes_eqb_iff.
  - split; [destruct d; try discriminate; constructor|]. intros H. inversion H as [? Q| | | | | | | | | | | | | | |]; subst; try reflexivity. destruct Q as [Q|[? Q] ]; discriminate Q.
  - split; [destruct d; try discriminate; constructor|]. intros H. inversion H as [? Q| | | | | | | | | | | | | | |]; subst; try reflexivity. destruct Q as [Q|[? Q] ]; discriminate Q.
  - assert (G : forall xs, congruent_data (TRecord m fs) (DList xs) = true <-> Forall2 (fun f x => value_of (snd f) x) fs xs).
    { cbn [congruent_data]. induction IH as [|[n t] fs A _ IHf]; intros [|x xs].
      - split; [constructor|reflexivity].
      - split; [discriminate|intros Q; inversion Q].
      - split; [discriminate|intros Q; inversion Q].
      - rewrite andb_true_iff, IHf, (A x). cbn [snd]. split; [intros [? ?]; constructor; assumption|]. intros Q. inversion Q; subst. auto. }
    split.
    + destruct d; try discriminate. intros H. apply value_record. now apply G.
    + intros H. inversion H as [? Q| | | | | | | | | | | | | |? ? xs A|]; subst; [destruct Q as [Q|[? Q] ]; discriminate Q|]. now apply G.
  - split; [intros H; apply value_alias; now apply IH|]. intros H. inversion H as [? Q| | | | | | | | | | | | | | |? ? ? A]; subst; [destruct Q as [Q|[? Q] ]; discriminate Q|].
    now apply IH.
Qed.

(** Which operand fits a type extractor of a given type. *)
Definition collection (d : data) : Prop := (exists xs, d = DList xs) \/ (exists xs, d = DMap xs) \/ (exists xs, d = DRecord xs).
Definition a_string (t : ty) : Prop := exists m, t = TBasic m BString.
Definition a_pattern (t : ty) : Prop := exists m, t = TBasic m BPattern.
Definition an_address (t : ty) : Prop := exists m, t = TBasic m BAddress.
Definition a_subnet (t : ty) : Prop := exists m, t = TBasic m BSubnet.
Definition container (t : ty) : Prop := (exists m v, t = TList m v) \/ (exists m k v, t = TMap m k v).
Definition text_and_pattern (t : ty) (d : data) : Prop :=
  (a_string t /\ exists s, d = DPattern s) \/ (a_pattern t /\ exists s, d = DString s).
Definition fits (t : ty) (op : relop) (d : data) : Prop :=
  match op with
  | op_match | op_not_match => text_and_pattern t d
  | op_eq | op_ne => d = DNone \/ text_and_pattern t d \/ value_of t d
  | op_lt | op_le | op_gt | op_ge => value_of t d
  | op_in | op_not_in => collection d \/ (a_string t /\ exists s, d = DString s) \/ ((an_address t \/ a_subnet t) /\ exists s, d = DSubnet s)
  | op_ni | op_not_ni => container t \/ (a_string t /\ exists s, d = DString s) \/
      (a_subnet t /\ ((exists a, d = DAddress a) \/ exists s, d = DSubnet s))
  end.
(** A predicate that may be asked. *)
Definition askable (regex_ok : list N -> bool) (p : predicate) : Prop :=
  exists d, p_rhs p = OVal d /\ (forall s, d = DPattern s -> regex_ok s = true) /\
  match p_lhs p with
  | OMeta _ => (exists s, d = DString s) \/ (exists s, d = DPattern s)
  | OType (TNull | TNone _) => True
  | OType t => fits t (p_op p) d
  | OField _ => True
  | _ => False
  end.
Lemma compatible_spec : forall t op d, t <> TNull -> (compatible t op d = true <-> fits t op d).
Proof.
  intros t op d NN.
  assert (S1 : is_string_type t = true <-> a_string t).
  { unfold a_string. destruct t as [| |m []| | | | |]; cbn; split; try discriminate; try (intros [? ?]; discriminate); eauto. }
  assert (S2 : is_pattern_type t = true <-> a_pattern t).
  { unfold a_pattern. destruct t as [| |m []| | | | |]; cbn; split; try discriminate; try (intros [? ?]; discriminate); eauto. }
  assert (S3 : is_address_type t = true <-> an_address t).
  { unfold an_address. destruct t as [| |m []| | | | |]; cbn; split; try discriminate; try (intros [? ?]; discriminate); eauto. }
  assert (S4 : is_subnet_type t = true <-> a_subnet t).
  { unfold a_subnet. destruct t as [| |m []| | | | |]; cbn; split; try discriminate; try (intros [? ?]; discriminate); eauto. }
  assert (S5 : ty_is_container t = true <-> container t).
  { unfold container. destruct t; cbn; split; try discriminate; try (intros [ [? [? ?] ] | [? [? [? ?] ] ] ]; discriminate); eauto 6. }
  assert (S6 : data_is_container d = true <-> collection d).
  { unfold collection. destruct d; cbn; split; try discriminate; try (intros [ [? ?] | [ [? ?] | [? ?] ] ]; discriminate); eauto. }
  assert (T : (is_string_type t && match d with DPattern _ => true | _ => false end)
    || (is_pattern_type t && match d with DString _ => true | _ => false end) = true <-> text_and_pattern t d).
  { unfold text_and_pattern. rewrite orb_true_iff, !andb_true_iff, S1, S2.
    assert (P1 : match d with DPattern _ => true | _ => false end = true <-> exists s, d = DPattern s)
      by (destruct d; split; try discriminate; try (intros [? ?]; discriminate); eauto).
    assert (P2 : match d with DString _ => true | _ => false end = true <-> exists s, d = DString s)
      by (destruct d; split; try discriminate; try (intros [? ?]; discriminate); eauto).
    rewrite P1, P2. reflexivity. }
  assert (NN' : match t with TNull => true | _ => false end = false) by (destruct t; congruence).
  assert (E : match d with DNone => true | _ => false end = true <-> d = DNone) by (destruct d; split; congruence).
  assert (IN : (if is_string_type t then match d with DString _ => true | _ => data_is_container d end
      else if is_address_type t || is_subnet_type t then match d with DSubnet _ => true | _ => data_is_container d end else data_is_container d) = true <->
    collection d \/ (a_string t /\ exists s, d = DString s) \/ ((an_address t \/ a_subnet t) /\ exists s, d = DSubnet s)).
  { assert (X1 : is_string_type t = true -> is_address_type t || is_subnet_type t = true -> False) by (destruct t as [| |m []| | | | |]; discriminate).
    rewrite <- S6, <- S1, <- S3, <- S4, <- orb_true_iff. destruct (is_string_type t).
    - destruct (is_address_type t || is_subnet_type t); [now elim X1|].
      destruct d; cbn; intuition (try discriminate; eauto); repeat match goal with H : exists _, _ |- _ => destruct H; discriminate end; try discriminate.
    - destruct (is_address_type t || is_subnet_type t);
      destruct d; cbn; intuition (try discriminate; eauto); repeat match goal with H : exists _, _ |- _ => destruct H; discriminate end; try discriminate. }
  assert (NI : match d with
      | DString _ => is_string_type t || ty_is_container t
      | DAddress _ | DSubnet _ => is_subnet_type t || ty_is_container t
      | _ => ty_is_container t
      end = true <-> container t \/ (a_string t /\ exists s, d = DString s) \/
      (a_subnet t /\ ((exists a, d = DAddress a) \/ exists s, d = DSubnet s))).
  { rewrite <- S5, <- S1, <- S4. destruct d; rewrite ?orb_true_iff; intuition (try discriminate; eauto);
      repeat match goal with H : exists _, _ |- _ => destruct H; discriminate end. }
  destruct op; cbn [compatible fits]; try exact T; try exact IN; try exact NI; try apply congruent_data_spec;
    rewrite NN', !orb_true_iff, congruent_data_spec, E, <- T, !orb_true_iff; intuition discriminate.
Qed.
(** Validation accepts an expression exactly if it is complete and every predicate
    compares an extractor with a value that fits it. *)
Theorem C48_validate : forall regex_ok e,
  validate regex_ok e = true <-> complete e = true /\ all_preds (askable regex_ok) e.
Proof.
  intros regex_ok. induction e as [|es IH|es IH|e IH|p] using expr_rect'; cbn [validate complete all_preds].
  - split; [discriminate|intros [Q _]; discriminate Q].
  - rewrite !forallb_forall, all_preds_Forall, !Forall_forall in *. firstorder.
  - rewrite !forallb_forall, all_preds_Forall, !Forall_forall in *. firstorder.
  - exact IH.
  - destruct p as [l op r]. unfold validate_pred, askable. cbn [p_lhs p_op p_rhs]. rewrite andb_true_iff. split.
    + intros [A B]. split; [reflexivity|]. destruct r as [| | | |d]; try (destruct l as [| |[]| |]; discriminate B).
      exists d. split; [reflexivity|]. split; [intros s ->; exact A|].
      destruct l as [k|x|t|t o|x]; try exact I; try discriminate B.
      * destruct d; try discriminate B; eauto.
      * destruct t; try exact I; apply compatible_spec; (discriminate || exact B).
    + intros [_ (d & -> & A & B)]. split; [destruct d; try reflexivity; now apply A|].
      destruct l as [k|x|t|t o|x]; try reflexivity; try contradiction.
      * destruct B as [ [s ->] | [s ->] ]; reflexivity.
      * destruct t; try reflexivity; apply compatible_spec; (discriminate || exact B).
Qed.
(** A query that is accepted is normalised and contains only predicates that can be asked. *)
Theorem C48_accepted : forall regex_ok e r, normalize_and_validate regex_ok e = Some r ->
  r = normalize e /\ complete r = true /\ all_preds (askable regex_ok) r.
Proof.
  intros regex_ok e r H. unfold normalize_and_validate in H. destruct (validate regex_ok (normalize e)) eqn:V; [|discriminate].
  injection H as <-. split; [reflexivity|]. now apply C48_validate.
Qed.
Example C48_example : let e := EAnd [EPred {| p_lhs := OVal (DCount 3); p_op := op_lt; p_rhs := OType (TBasic no_meta BCount) |};
    ENot (EPred {| p_lhs := OField [97%N]; p_op := op_eq; p_rhs := OVal DNone |})] in
  (exists r, normalize_and_validate (fun _ => true) e = Some r) /\
  normalize_and_validate (fun _ => true) (EPred {| p_lhs := OVal (DString []); p_op := op_lt; p_rhs := OType (TBasic no_meta BCount) |}) = None.
Proof. split; [eexists|]; vm_compute; reflexivity. Qed.

Definition assumptions_record :=
  (C46_merge, C46_priority, C46_order, C46_attributes, C46_subset, C46_merge_subset, C46_remove, C46_subset_alias_refuted,
   C47_complete, C47_exact, C47_singles, C47_list_refuted, C48_validate, C48_accepted).
Print Assumptions assumptions_record.
