(** C40: concepts and models. *)
From Coq Require Import List NArith Bool Arith Lia.
From Verif Require Import OperatorModel AddressModel DataModel TypeModel TypeProofs ExpressionModel ExpressionProofs TaxonomyModel TaxonomyProofs.
Import ListNotations.
Open Scope nat_scope.

(** The specification: [field_of cs n f] (the concept [n] has the field [f], itself or through
    the concepts it refers to, at any depth) and [stands_for] (the same, for names that need not
    be concepts) are in TaxonomyProofs.v, next to [has_field] and [has_concept]. *)

(** * Definitions *)

(** The concept that results from any list of definitions, of which many can have the same name,
    has exactly the fields of its definitions. *)
Theorem C40_definitions : forall ds m n f, extract_concepts (DList ds) = Some m ->
  (has_field m n f <-> exists d fs ns, In d ds /\ definition d n fs ns /\ In f fs).
Proof.
  intros ds m n f H. destruct (extract_items_spec ds [] m H) as (H1 & _). rewrite H1. split; [|auto].
  intros [(c & E & _)|H']; [discriminate|assumption].
Qed.
(** It refers only to concepts of its definitions, and to all of them that do not have the name
    of one of its fields. *)
Theorem C40_references : forall ds m n k, extract_concepts (DList ds) = Some m ->
  (has_concept m n k -> exists d fs ns, In d ds /\ definition d n fs ns /\ In k ns) /\
  ((exists d fs ns, In d ds /\ definition d n fs ns /\ In k ns) -> has_field m n k \/ has_concept m n k).
Proof.
  intros ds m n k H. destruct (extract_items_spec ds [] m H) as (_ & H2 & H3). split.
  - intros H'. apply H2 in H' as [(c & E & _)|H']; [discriminate|assumption].
  - intros H'. apply H3. right. assumption.
Qed.

(** * [resolve_concepts] *)

(** What is returned for a list of names are fields that one of them stands for. *)
Theorem C40_resolve_concepts_sound : forall cs ns f, In f (resolve_concepts cs ns) -> exists n, In n ns /\ stands_for cs n f.
Proof.
  intros cs ns f H. unfold resolve_concepts in H. apply fold_sound in H; [|apply try_sound]. destruct H as [[]|H]. assumption.
Qed.
(** With fewer than 100 concepts all of them are returned, cyclic references or not. *)
Theorem C40_resolve_concepts : forall cs ns f, length cs < 100 -> (In f (resolve_concepts cs ns) <-> exists n, In n ns /\ stands_for cs n f).
Proof.
  intros cs ns f L. split; [apply C40_resolve_concepts_sound|]. intros (n & Hn & Hs). unfold resolve_concepts.
  destruct (resolve_complete cs ns ([], []) L) as (F & H & _); [intros k []|]. eapply closed_stands; [exact F|exact Hs|].
  rewrite Forall_forall in H. apply H. assumption.
Qed.
(** With 100 concepts it is false: each refers to the next one, the last one to a field. *)
Definition chain (n : nat) : concepts_map := map (fun i => ([N.of_nat i], {| c_fields := []; c_concepts := [[N.of_nat (S i)]] |})) (seq 0 n).
Theorem C40_resolve_concepts_refuted : exists cs ns f, length cs = 100 /\ (exists n, In n ns /\ stands_for cs n f) /\ ~ In f (resolve_concepts cs ns).
Proof.
  exists (chain 100), [[0%N]], [100%N]. split; [reflexivity|]. split.
  - exists [0%N]. split; [left; reflexivity|].
    assert (forall k, k <= 100 -> stands_for (chain 100) [N.of_nat (100 - k)] [100%N]) as H.
    { intros k. induction k as [|k IH]; intros Hk.
      - apply sf_self. vm_compute. reflexivity.
      - eapply sf_nested with (c := {| c_fields := []; c_concepts := [[N.of_nat (S (100 - S k))]] |}).
        + assert (forall j, j < 100 -> find_key [N.of_nat j] (chain 100) = Some {| c_fields := []; c_concepts := [[N.of_nat (S j)]] |}) as F.
          { intros j Hj. assert (forallb (fun j => match find_key [N.of_nat j] (chain 100) with
              | Some {| c_fields := []; c_concepts := [ [m] ] |} => N.eqb m (N.of_nat (S j)) | _ => false end) (seq 0 100) = true) as A by (vm_compute; reflexivity).
            rewrite forallb_forall in A. specialize (A j). rewrite in_seq in A. specialize (A ltac:(lia)).
            destruct (find_key [N.of_nat j] (chain 100)) as [ [ [|? ?] [|[|m [|? ?] ] [|? ?] ] ]|]; try discriminate. apply N.eqb_eq in A. subst. reflexivity. }
          apply F. lia.
        + left. reflexivity.
        + replace (S (100 - S k)) with (100 - k) by lia. apply IH. lia. }
    specialize (H 100 ltac:(lia)). exact H.
  - vm_compute. tauto.
Qed.

(** * Concepts in queries *)

(** A concept in a query is replaced by its fields and those of the concepts it refers to itself,
    each once; for all maps. *)
Theorem C40_fields : forall cs c, NoDup (target_fields cs c) /\
  forall f, In f (target_fields cs c) <-> In f (c_fields c) \/ exists n, In n (c_concepts c) /\ has_field cs n f.
Proof. intros. split; [apply target_nodup|]. intros. apply target_in. Qed.
(** These are all fields of the concept if the search adds nothing to its list of concepts. *)
Theorem C40_complete : forall cs n c f, find_key n cs = Some c -> appends cs c = false -> (In f (target_fields cs c) <-> field_of cs n f).
Proof. intros. apply target_complete; assumption. Qed.
(** Otherwise the claim is false: a field two references away is not found. *)
Definition b (x : N) : list N := [x].
Definition deep : concepts_map :=
  [(b 1, {| c_fields := [b 11]; c_concepts := [b 2] |}); (b 2, {| c_fields := [b 12]; c_concepts := [b 3] |}); (b 3, {| c_fields := [b 13]; c_concepts := [] |})]%N.
Theorem C40_nested_refuted : exists cs n c f, find_key n cs = Some c /\ field_of cs n f /\ ~ In f (target_fields cs c).
Proof.
  exists deep, (b 1), {| c_fields := [b 11]; c_concepts := [b 2] |}, (b 13). split; [reflexivity|]. split.
  - apply fo_nested with (k := b 2); [eexists; split; [reflexivity|left; reflexivity]|].
    apply fo_nested with (k := b 3); [eexists; split; [reflexivity|left; reflexivity]|].
    apply fo_field. eexists. split; [reflexivity|left; reflexivity].
  - vm_compute. intuition discriminate.
Qed.
(** And two concepts that refer to each other already make the loop use invalid iterators. *)
Theorem C40_cycle_refuted : exists cs n c k c', find_key n cs = Some c /\ find_key k cs = Some c' /\ In k (c_concepts c) /\ In n (c_concepts c') /\ appends cs c = true.
Proof.
  exists [(b 1, {| c_fields := [b 11]; c_concepts := [b 2] |}); (b 2, {| c_fields := [b 12]; c_concepts := [b 1] |})]%N, (b 1), {| c_fields := [b 11]; c_concepts := [b 2] |},
    (b 2), {| c_fields := [b 12]; c_concepts := [b 1] |}. vm_compute. auto 8.
Qed.
(** The two ways to resolve a concept do not agree about a reference to something that is not a
    concept. *)
Theorem C40_agree_refuted : exists cs n c f, find_key n cs = Some c /\ appends cs c = false /\ In f (resolve_concepts cs [n]) /\ ~ In f (target_fields cs c).
Proof.
  exists [(b 1, {| c_fields := [b 11]; c_concepts := [b 9] |})]%N, (b 1), {| c_fields := [b 11]; c_concepts := [b 9] |}, (b 9).
  split; [reflexivity|]. split; [reflexivity|]. split; [vm_compute; auto|]. vm_compute. intuition discriminate.
Qed.

(** The field and the value that a predicate compares, and the same predicate about another field. *)
Definition field_and_value (p : predicate) : option (list N * data) :=
  match p_lhs p, p_rhs p with
  | OField n, OVal d | OVal d, OField n => Some (n, d)
  | _, _ => None
  end.
Definition about (p : predicate) (f : list N) : predicate :=
  match p_lhs p with
  | OField _ => {| p_lhs := OField f; p_op := p_op p; p_rhs := p_rhs p |}
  | _ => {| p_lhs := p_lhs p; p_op := p_op p; p_rhs := OField f |}
  end.
(** [w] gives concepts their meaning on top of [v]: a predicate about a concept is true if it is
    true of one of the fields of the concept. Other predicates mean what they meant. A comparison
    with an empty record is never true. *)
Record reads (cs : concepts_map) (v w : predicate -> bool) : Prop := {
  r_empty : forall p n, field_and_value p = Some (n, DRecord []) -> w p = false;
  r_concept : forall p n d, field_and_value p = Some (n, d) -> d <> DRecord [] -> (exists f, field_of cs n f) ->
    (w p = true <-> exists f, field_of cs n f /\ v (about p f) = true);
  r_field : forall p n d, field_and_value p = Some (n, d) -> d <> DRecord [] -> ~ (exists f, field_of cs n f) -> w p = v p;
  r_other : forall p, field_and_value p = None -> w p = v p }.
Definition closed (cs : concepts_map) : Prop := forall n c, find_key n cs = Some c -> appends cs c = false.

Lemma candidates_all : forall ts n op d f, closed (t_concepts ts) -> (In f (candidates ts None n op d) <-> field_of (t_concepts ts) n f).
Proof.
  intros ts n op d f C. unfold candidates. destruct (find_key n (t_concepts ts)) as [c|] eqn:E.
  - change (filter (keeps None op d) (target_fields (t_concepts ts) c)) with (filter (fun _ : list N => true) (target_fields (t_concepts ts) c)).
    rewrite filter_true. apply target_complete; [assumption|]. eapply C. eassumption.
  - split; [intros []|]. intros H. inversion H as [? ? (c & E' & _)|? ? ? (c & E' & _) _]; congruence.
Qed.
Lemma resolve_pred_eq : forall ts seen fuel p n d, t_models ts = [] -> field_and_value p = Some (n, d) ->
  resolve_pred ts seen fuel p = match d with DRecord [] => Resolved ENone | _ => Resolved (substitute ts seen p n (p_op p) d (fun _ _ f => about p f)) end.
Proof.
  intros ts seen fuel [l op r] n d M F. unfold field_and_value in F. cbn [p_lhs p_rhs] in F. unfold resolve_pred, about. cbn [p_lhs p_rhs p_op].
  assert (forall make, (forall f, make op d f = (fun _ _ f => about {| p_lhs := l; p_op := op; p_rhs := r |} f) op d f) ->
    substitute ts seen {| p_lhs := l; p_op := op; p_rhs := r |} n op d make = substitute ts seen {| p_lhs := l; p_op := op; p_rhs := r |} n op d (fun _ _ f => about {| p_lhs := l; p_op := op; p_rhs := r |} f)) as H.
  { intros make H. unfold substitute. destruct (find_key n (t_concepts ts)); [|reflexivity].
    rewrite (map_ext _ (fun x => EPred (about {| p_lhs := l; p_op := op; p_rhs := r |} x))); [reflexivity|]. intros x. rewrite H. reflexivity. }
  destruct l; destruct r; try discriminate; inversion F; subst; unfold resolve_models; rewrite M; cbn [find_key];
    (destruct d as [| | | | | | | | | | | | | |xs]; try (rewrite H; [reflexivity|intros f; reflexivity]); destruct xs as [|[k' d'] xs]; [reflexivity|rewrite H; [reflexivity|intros f; reflexivity]]).
Qed.
(** The resolved query is true exactly when the original one is, with this meaning; for all
    expressions and all truth assignments. *)
Theorem C40_query : forall ts fuel e v w, t_models ts = [] -> closed (t_concepts ts) -> reads (t_concepts ts) v w ->
  exists e', resolve ts None fuel e = Resolved e' /\ holds v e' = holds w e.
Proof.
  intros ts fuel e v w M C R. destruct (resolve_total ts None fuel e M) as (e' & E). exists e'. split; [assumption|].
  eapply resolve_holds; [|eassumption]. intros p q Hq. destruct (field_and_value p) as [ [n d]|] eqn:F.
  - rewrite (resolve_pred_eq _ _ _ _ _ _ M F) in Hq.
    assert (d = DRecord [] \/ d <> DRecord []) as [->|Hd] by (destruct d as [| | | | | | | | | | | | | |[|? ?] ]; auto; right; discriminate).
    + inversion Hq. symmetry. eapply (r_empty _ _ _ R). eassumption.
    + assert (Resolved (substitute ts None p n (p_op p) d (fun _ _ f => about p f)) = Resolved q) as Hq' by (destruct d as [| | | | | | | | | | | | | |[|? ?] ]; congruence).
      inversion Hq'; subst q. clear Hq Hq'. pose proof (candidates_all ts n (p_op p) d) as HC.
      destruct (candidates ts None n (p_op p) d) as [|f0 l] eqn:Ec.
      * rewrite substitute_none by assumption. symmetry. eapply (r_field _ _ _ R); [eassumption|assumption|]. intros (f & Hf). apply (HC f C) in Hf. destruct Hf.
      * rewrite substitute_holds by (rewrite Ec; discriminate). rewrite Ec. apply eq_true_iff_eq. rewrite (r_concept _ _ _ R p n d F Hd).
        -- rewrite existsb_exists. split; intros (f & H1 & H2); exists f; (split; [apply (HC f C); assumption|assumption]).
        -- exists f0. apply (HC f0 C). left. reflexivity.
  - unfold resolve_pred in Hq. unfold field_and_value in F. symmetry. rewrite (r_other _ _ _ R).
    + destruct (p_lhs p); destruct (p_rhs p); try discriminate; inversion Hq; reflexivity.
    + unfold field_and_value. assumption.
Qed.

(** * Leaving out fields that no layout has *)

(** A known layout has the field, with a type that can be compared with the value. *)
Definition has (seen : list (list N * list ty)) (layout field : list N) (op : relop) (d : data) : Prop :=
  exists ts m fs t, find_key layout seen = Some ts /\ In (TRecord m fs) ts /\ find_field field (flatten_fields fs) = Some t /\ compatible t op d = true.
Lemma contains_from_sound : forall seen x pre op d, contains_from seen pre x op d = true -> exists l f, pre ++ x = l ++ dot :: f /\ has seen l f op d.
Proof.
  induction x as [|c x IH]; intros pre op d H; cbn [contains_from] in H; [discriminate|].
  assert (contains_from seen (pre ++ [c]) x op d = true -> exists l f, pre ++ c :: x = l ++ dot :: f /\ has seen l f op d) as Next.
  { intros H'. destruct (IH _ _ _ H') as (l & f & E & Hh). exists l, f. split; [|assumption]. rewrite <- app_assoc in E. exact E. }
  destruct (N.eqb c dot) eqn:Ec; [|auto]. destruct (find_key pre seen) as [ts|] eqn:Ef; [|auto].
  apply N.eqb_eq in Ec. subst c. exists pre, x. split; [reflexivity|]. apply existsb_exists in H as (t & Ht & Hc).
  destruct t as [|m|m b0|m es|m t|m k t|m fs|m t]; try discriminate. destruct (find_field x (flatten_fields fs)) as [ft|] eqn:Eft; [|discriminate].
  exists ts, m, fs, ft. auto.
Qed.
(** Only fields of a known layout are kept. *)
Theorem C40_contains_sound : forall seen x op d, contains seen x op d = true -> exists l f, x = l ++ dot :: f /\ has seen l f op d.
Proof. intros. apply (contains_from_sound seen x []). assumption. Qed.
(** A field of a known layout is kept, if there is no layout with a shorter name in front of a dot
    in the name of the field. *)
Theorem C40_contains_complete : forall seen l f op d, has seen l f op d ->
  (forall l' r, l = l' ++ dot :: r -> find_key l' seen = None) -> contains seen (l ++ dot :: f) op d = true.
Proof.
  intros seen l f op d H Hs. unfold contains.
  assert (forall rest pre, pre ++ rest = l -> contains_from seen pre (rest ++ dot :: f) op d = true) as G.
  { induction rest as [|c rest IH]; intros pre E.
    - rewrite app_nil_r in E. subst pre. cbn [app contains_from]. rewrite N.eqb_refl. destruct H as (ts & m & fs & t & H1 & H2 & H3 & H4). rewrite H1.
      apply existsb_exists. exists (TRecord m fs). split; [assumption|]. rewrite H3. assumption.
    - cbn [app contains_from].
      assert (contains_from seen (pre ++ [c]) (rest ++ dot :: f) op d = true) as Hn by (apply IH; rewrite <- app_assoc; exact E).
      destruct (N.eqb c dot) eqn:Ec; [|assumption]. apply N.eqb_eq in Ec. subst c. rewrite (Hs pre rest) by (symmetry; assumption). assumption. }
  apply (G l []). reflexivity.
Qed.
(** If there is, it is false: with the layouts "a" and "a.b", the field "c" of "a.b" is left out. *)
Definition record_of (f : list N) : ty := TRecord no_meta [(f, TBasic no_meta BCount)].
Theorem C40_contains_refuted : exists seen l f op d, has seen l f op d /\ contains seen (l ++ dot :: f) op d = false.
Proof.
  exists [([97%N], [record_of [120%N] ]); ([97%N; dot; 98%N], [record_of [99%N] ])], [97%N; dot; 98%N], [99%N], op_eq, (DCount 1). split.
  - exists [record_of [99%N] ], no_meta, [([99%N], TBasic no_meta BCount)], (TBasic no_meta BCount). repeat split; try reflexivity. left. reflexivity.
  - vm_compute. reflexivity.
Qed.
(** Where fields that are left out could not have made a difference, the result means the same as
    without leaving anything out. *)
Theorem C40_pruned : forall ts seen fuel e v, t_models ts = [] ->
  (forall p n d f, field_and_value p = Some (n, d) -> field_of (t_concepts ts) n f -> contains seen f (p_op p) d = false -> v (about p f) = false) ->
  (forall p n d, field_and_value p = Some (n, d) -> (exists f, field_of (t_concepts ts) n f) -> v p = false) ->
  exists e1 e2, resolve ts None fuel e = Resolved e1 /\ resolve ts (Some seen) fuel e = Resolved e2 /\ holds v e1 = holds v e2.
Proof.
  intros ts seen fuel e v M H1 H2. destruct (resolve_total ts None fuel e M) as (e1 & E1). destruct (resolve_total ts (Some seen) fuel e M) as (e2 & E2).
  exists e1, e2. split; [assumption|]. split; [assumption|].
  set (w := fun p => match resolve_pred ts None fuel p with Resolved q => holds v q | _ => false end).
  rewrite (resolve_holds ts None v fuel w e e1); [|intros p q Hq; unfold w; rewrite Hq; reflexivity|assumption].
  rewrite (resolve_holds ts (Some seen) v fuel w e e2); [reflexivity| |assumption]. intros p q Hq. unfold w.
  destruct (field_and_value p) as [ [n d]|] eqn:F.
  - rewrite (resolve_pred_eq ts None fuel p n d M F). rewrite (resolve_pred_eq ts (Some seen) fuel p n d M F) in Hq.
    assert (d = DRecord [] \/ d <> DRecord []) as [->|Hd] by (destruct d as [| | | | | | | | | | | | | |[|? ?] ]; auto; right; discriminate).
    + inversion Hq. reflexivity.
    + set (make := fun (_ : relop) (_ : data) f => about p f) in *.
      assert (Resolved (substitute ts (Some seen) p n (p_op p) d make) = Resolved q) as Hq' by (destruct d as [| | | | | | | | | | | | | |[|? ?] ]; congruence).
      assert (match d with DRecord [] => Resolved ENone | _ => Resolved (substitute ts None p n (p_op p) d make) end = Resolved (substitute ts None p n (p_op p) d make)) as ->
        by (destruct d as [| | | | | | | | | | | | | |[|? ?] ]; congruence).
      inversion Hq'; subst q. clear Hq Hq'.
      unfold substitute. destruct (find_key n (t_concepts ts)) as [c|] eqn:Ec; [|reflexivity].
      assert (forall f, In f (target_fields (t_concepts ts) c) -> field_of (t_concepts ts) n f) as Hfo.
      { intros f Hf. apply target_in in Hf as [Hf|(k & Hk & Hf)]; [apply fo_field; exists c; auto|]. eapply fo_nested; [exists c; split; eassumption|]. apply fo_field. assumption. }
      assert (forall s, holds v match map (fun x => EPred (make (p_op p) d x)) (filter (keeps s (p_op p) d) (target_fields (t_concepts ts) c)) with
          | [] => EPred p | [e0] => e0 | es => EOr es end =
        match filter (keeps s (p_op p) d) (target_fields (t_concepts ts) c) with [] => v p | l => existsb (fun f => v (about p f)) l end) as Hs.
      { intros s. destruct (filter (keeps s (p_op p) d) (target_fields (t_concepts ts) c)) as [|x [|y l] ]; [reflexivity|cbn; rewrite orb_false_r; reflexivity|].
        cbn [map holds]. change (existsb (holds v) (map (fun x => EPred (make (p_op p) d x)) (x :: y :: l)) = existsb (fun f => v (about p f)) (x :: y :: l)).
        rewrite existsb_map'. reflexivity. }
      rewrite !Hs. clear Hs. change (filter (keeps None (p_op p) d) (target_fields (t_concepts ts) c)) with (filter (fun _ : list N => true) (target_fields (t_concepts ts) c)).
      rewrite filter_true. set (all := target_fields (t_concepts ts) c) in *. set (some := filter (keeps (Some seen) (p_op p) d) all).
      assert (existsb (fun f => v (about p f)) some = existsb (fun f => v (about p f)) all) as Hex.
      { apply eq_true_iff_eq. rewrite !existsb_exists. split; intros (f & Hf & Hv); exists f; (split; [|assumption]).
        - apply filter_In in Hf as [Hf _]. assumption.
        - apply filter_In. split; [assumption|]. unfold keeps. destruct (contains seen f (p_op p) d) eqn:Ek; [reflexivity|].
          rewrite (H1 p n d f F (Hfo f Hf) Ek) in Hv. discriminate. }
      destruct all as [|f0 all'] eqn:Ea; [reflexivity|]. clearbody some.
      assert (v p = false) as Hv by (eapply H2; [eassumption|]; exists f0; apply Hfo; left; reflexivity).
      destruct some as [|f1 some]; [rewrite Hv, <- Hex; reflexivity|assumption].
  - unfold resolve_pred, field_and_value in *. destruct (p_lhs p); destruct (p_rhs p); try discriminate; inversion Hq; reflexivity.
Qed.

(** * Negation *)

(** For fields, "f != x" is the negation of "f == x". For concepts with several fields it is not:
    both can be true of one event. *)
Theorem C40_negation_refuted : exists ts n d e1 e2 v, (forall p, v (with_op p (negate_op (p_op p))) = negb (v p)) /\
  resolve ts None 0 (EPred {| p_lhs := OField n; p_op := op_eq; p_rhs := OVal d |}) = Resolved e1 /\
  resolve ts None 0 (EPred {| p_lhs := OField n; p_op := op_ne; p_rhs := OVal d |}) = Resolved e2 /\
  holds v e1 = true /\ holds v e2 = true.
Proof.
  exists {| t_concepts := [(b 1, {| c_fields := [b 11; b 12]; c_concepts := [] |})]%N; t_models := [] |}, (b 1), (DCount 1).
  eexists _, _, (fun p => xorb (is_negated (p_op p)) (match p_op p with op_lt | op_le => true | _ => match p_lhs p with OField f => bytes_eqb f (b 11) | _ => false end end &&
    match p_op p with op_gt | op_ge => false | _ => true end)).
  split; [|split; [reflexivity|split; [reflexivity|split; reflexivity] ] ].
  intros [l [] r]; cbn; try reflexivity; destruct l; cbn; try reflexivity; destruct (bytes_eqb _ _); reflexivity.
Qed.

(** * Models *)

(** [leaves_of] (TaxonomyProofs.v) replaces the models in a definition by their definitions, all
    the way down, from left to right. *)
(** A predicate about another field, with another operator and value, on the same sides. *)
Definition comparing (p : predicate) (op : relop) (d : data) (f : list N) : predicate :=
  match p_lhs p with
  | OField _ => {| p_lhs := OField f; p_op := op; p_rhs := OVal d |}
  | _ => {| p_lhs := OVal d; p_op := op; p_rhs := OField f |}
  end.
Definition field_exists (f : list N) : predicate := {| p_lhs := OMeta MField; p_op := op_eq; p_rhs := OVal (DString f) |}.
Definition positive_op (op : relop) : relop := if is_negated op then negate_op op else op.
Definition negated_if (c : bool) (P : Prop) : Prop := if c then ~ P else P.

Section Models.
  Variable ts : taxonomies.
  Variable n : list N.
  Variable def ls : list (list N).
  Hypothesis M : find_key n (t_models ts) = Some def.
  Hypothesis Hne : def <> [].
  Hypothesis L : leaves_of (t_models ts) def ls.
  (** Every leaf is a concept with a field, and the search for its fields is complete. *)
  Hypothesis G : Forall (good_leaf ts) ls.

  Lemma model_eq : forall p k d r, field_and_value p = Some (n, DRecord ((k, d) :: r)) -> exists K, forall fuel, K <= fuel ->
    resolve ts None fuel (EPred p) = match k with
      | _ :: _ => Resolved (assemble (p_op p) (named_parts ts None p (positive_op (p_op p)) (comparing p) ((k, d) :: r) ls))
      | [] => match unnamed_parts ts None p (positive_op (p_op p)) (comparing p) ((k, d) :: r) ls with
              | None => Refused | Some parts => Resolved (assemble (p_op p) parts) end
      end.
  Proof.
    intros p k d r F. destruct (leaves_ok ts def ls L Hne) as (K & HK). exists K. intros fuel Hf. cbn [resolve]. unfold resolve_pred, field_and_value in *.
    destruct p as [pl op pr]. cbn [p_lhs p_rhs p_op] in *. unfold comparing. cbn [p_lhs].
    destruct pl; destruct pr; try discriminate; inversion F; subst; unfold resolve_models; rewrite M, HK by assumption; reflexivity.
  Qed.
  (** A model compared with a record that names some of its concepts: the resolved query is true
      when, for each concept that is not named, some field of it exists, and when, for each concept that is
      named, some field of it compares with the value; or, for a negated operator, when the latter
      is not the case. *)
  Theorem C40_model_named : forall p k d r, field_and_value p = Some (n, DRecord ((k, d) :: r)) -> k <> [] ->
    (exists x, In x ls /\ find_key x ((k, d) :: r) <> None) ->
    exists K, forall fuel, K <= fuel -> exists e, resolve ts None fuel (EPred p) = Resolved e /\ forall v, holds v e = true <->
      (forall x, In x ls -> find_key x ((k, d) :: r) = None -> exists f, field_of (t_concepts ts) x f /\ v (field_exists f) = true) /\
      negated_if (is_negated (p_op p)) (forall x y, In x ls -> find_key x ((k, d) :: r) = Some y ->
        exists f, field_of (t_concepts ts) x f /\ v (comparing p (positive_op (p_op p)) y f) = true).
  Proof.
    intros p k d r F Hk (x0 & X1 & X2). destruct (model_eq p k d r F) as (K & HK). exists K. intros fuel Hf. rewrite HK by assumption. clear HK.
    destruct k as [|k0 k]; [congruence|]. eexists. split; [reflexivity|]. intros v.
    destruct (named_spec ts v p (positive_op (p_op p)) (comparing p) ((k0 :: k, d) :: r) ls G) as (S1 & S2 & S3).
    set (parts := named_parts ts None p (positive_op (p_op p)) (comparing p) ((k0 :: k, d) :: r) ls) in *.
    rewrite assemble_holds. 2:{ intros H. apply X2. apply S3; assumption. }
    rewrite S2. unfold some_field in *. change (fun f : list N => v (meta_predicate op_eq DNone f)) with (fun f : list N => v (field_exists f)).
    unfold negated_if. destruct (is_negated (p_op p)).
    - rewrite negb_true_iff. rewrite <- S1. destruct (forallb (holds v) (fst parts)); intuition congruence.
    - rewrite S1. tauto.
  Qed.
  (** A model compared with a record without names: the values belong to the concepts from left to
      right, and a missing value leaves a concept open. *)
  Theorem C40_model_unnamed : forall p d r, field_and_value p = Some (n, DRecord (([], d) :: r)) -> S (length r) = length ls ->
    (exists y, In y (map snd (([] : list N, d) :: r)) /\ y <> DNone) ->
    exists K, forall fuel, K <= fuel -> exists e, resolve ts None fuel (EPred p) = Resolved e /\ forall v, holds v e = true <->
      (forall x, In (x, DNone) (combine ls (d :: map snd r)) -> exists f, field_of (t_concepts ts) x f /\ v (field_exists f) = true) /\
      negated_if (is_negated (p_op p)) (forall x y, In (x, y) (combine ls (d :: map snd r)) -> y <> DNone ->
        exists f, field_of (t_concepts ts) x f /\ v (comparing p (positive_op (p_op p)) y f) = true).
  Proof.
    intros p d r F Hl (y0 & Y1 & Y2). destruct (model_eq p [] d r F) as (K & HK). exists K. intros fuel Hf. rewrite HK by assumption. clear HK.
    destruct (unnamed_parts ts None p (positive_op (p_op p)) (comparing p) (([], d) :: r) ls) as [parts|] eqn:E.
    2:{ exfalso. destruct (unnamed_spec ts (fun _ => false) p (positive_op (p_op p)) (comparing p) ls (([], d) :: r) G) as (parts & E' & _); [cbn; lia|congruence]. }
    eexists. split; [reflexivity|]. intros v.
    destruct (unnamed_spec ts v p (positive_op (p_op p)) (comparing p) ls (([], d) :: r) G) as (parts' & E' & S1 & S2 & S3); [cbn; lia|].
    rewrite E in E'. inversion E'; subst parts'. clear E E'. cbn [map snd] in *.
    rewrite assemble_holds.
    2:{ intros H. apply Y2. rewrite S3 in H. destruct (In_nth _ _ DNone Y1) as (i & Hi & Ei). apply (H (nth i ls [])). rewrite <- Ei.
        assert (nth i (combine ls (d :: map snd r)) ([], DNone) = (nth i ls [], nth i (d :: map snd r) DNone)) as En.
        { apply combine_nth. cbn. rewrite map_length. lia. }
        rewrite <- En. apply nth_In. rewrite combine_length. cbn in Hi |- *. rewrite map_length in *. lia. }
    rewrite S2. unfold some_field in *. change (fun f : list N => v (meta_predicate op_eq DNone f)) with (fun f : list N => v (field_exists f)).
    unfold negated_if. destruct (is_negated (p_op p)).
    - rewrite negb_true_iff. rewrite <- S1. destruct (forallb (holds v) (fst parts)); intuition congruence.
    - rewrite S1. tauto.
  Qed.
  (** A record of another length is refused. *)
  Theorem C40_model_length : forall p d r, field_and_value p = Some (n, DRecord (([], d) :: r)) -> S (length r) <> length ls ->
    exists K, forall fuel, K <= fuel -> resolve ts None fuel (EPred p) = Refused.
  Proof.
    intros p d r F Hl. destruct (model_eq p [] d r F) as (K & HK). exists K. intros fuel Hf. rewrite HK by assumption.
    rewrite (unnamed_refused ts (fun _ => false)) by exact Hl. reflexivity.
  Qed.
End Models.

(** A model that contains itself makes [resolve] run forever; one that is empty makes it read
    behind the end of a vector. Both are accepted in schema files. *)
Definition model_query (r : list (list N * data)) : predicate := {| p_lhs := OField (b 7); p_op := op_eq; p_rhs := OVal (DRecord r) |}.
Theorem C40_model_cycle_refuted : exists ts e, forall fuel, resolve ts None fuel e = Undefined.
Proof.
  exists {| t_concepts := []; t_models := [(b 7, [b 7])]%N |}, (EPred (model_query [(b 1, DCount 1)])). intros fuel. cbn.
  assert (forall fuel up, descend {| t_concepts := []; t_models := [(b 7, [b 7])]%N |} fuel ([b 7] :: up) = None) as H.
  { induction fuel0 as [|f IH]; intros up; [reflexivity|]. cbn. apply IH. }
  unfold leaves. rewrite H. reflexivity.
Qed.
Theorem C40_model_empty_refuted : exists ts e, forall fuel, resolve ts None fuel e = Undefined.
Proof.
  exists {| t_concepts := []; t_models := [(b 7, [])]%N |}, (EPred (model_query [(b 1, DCount 1)])). intros [|fuel]; reflexivity.
Qed.
(** A component that is neither a model nor a concept, but a field, is not compared: the whole
    original predicate stands in its place. *)
Theorem C40_model_field_refuted : exists ts f d, leaves_of (t_models ts) [f] [f] /\
  resolve ts None 9 (EPred (model_query [(f, d)])) = Resolved (EPred (model_query [(f, d)])) /\ f <> b 7.
Proof.
  exists {| t_concepts := []; t_models := [(b 7, [b 11])]%N |}, (b 11), (DCount 1).
  split; [apply lo_leaf; [reflexivity|apply lo_nil]|]. split; [reflexivity|discriminate].
Qed.
(** A negation uses the result for its operand without asking whether there is one. *)
Theorem C40_negated_error_refuted : exists ts e, (forall fuel, 9 <= fuel -> resolve ts None fuel e = Refused) /\ (forall fuel, 9 <= fuel -> resolve ts None fuel (ENot e) = Undefined).
Proof.
  exists {| t_concepts := []; t_models := [(b 7, [b 1; b 2])]%N |}, (EPred (model_query [([], DCount 1)])).
  split; intros fuel Hf; (do 9 (destruct fuel as [|fuel]; [lia|])); reflexivity.
Qed.

(** * The hypotheses are met *)

(** Two definitions of one concept. *)
Definition item (n : list N) (fs ns : list (list N)) : data :=
  DRecord [(k_concept, DRecord [(k_name, DString n); (k_fields, DList (map DString fs)); (k_concepts, DList (map DString ns))])].
Example C40_definitions_example : exists m, extract_concepts (DList [item (b 1) [b 11; b 12] [b 2]; DNone; item (b 1) [b 12; b 13] [b 3; b 13]]) = Some m /\
  find_key (b 1) m = Some {| c_fields := [b 11; b 12; b 13]; c_concepts := [b 2; b 3] |}.
Proof. eexists. split; reflexivity. Qed.
(** A reference with the name of a field is dropped. *)
Theorem C40_references_refuted : exists ds m n k, extract_concepts (DList ds) = Some m /\ (exists d fs ns, In d ds /\ definition d n fs ns /\ In k ns) /\ ~ has_concept m n k.
Proof.
  exists [item (b 1) [b 11] [b 11]], [(b 1, {| c_fields := [b 11]; c_concepts := [] |})]%N, (b 1), (b 11). split; [reflexivity|]. split.
  - exists (item (b 1) [b 11] [b 11]), [b 11], [b 11]. split; [left; reflexivity|]. split; [|left; reflexivity].
    eexists _, _. split; [reflexivity|]. repeat split; reflexivity.
  - intros (c & E & H). inversion E; subst. destruct H.
Qed.
(** Three concepts, two of which refer to each other, and one that refers to both. *)
Definition sample : concepts_map :=
  [(b 1, {| c_fields := [b 11; b 12]; c_concepts := [b 2; b 3] |}); (b 2, {| c_fields := [b 12; b 13]; c_concepts := [b 3] |});
   (b 3, {| c_fields := [b 14]; c_concepts := [] |})]%N.
Example C40_resolve_concepts_example : length sample < 100 /\ resolve_concepts sample [b 1; b 9] = [b 11; b 12; b 12; b 13; b 14; b 9] /\
  resolve_concepts [(b 1, {| c_fields := [b 11]; c_concepts := [b 2] |}); (b 2, {| c_fields := [b 12]; c_concepts := [b 1] |})]%N [b 2] = [b 12; b 11].
Proof. vm_compute. repeat split; try reflexivity. lia. Qed.
Lemma sample_closed : closed sample.
Proof.
  intros n c H. unfold sample in H. cbn [find_key] in H. destruct (bytes_eqb (b 1) n); [inversion H; reflexivity|]. destruct (bytes_eqb (b 2) n); [inversion H; reflexivity|].
  destruct (bytes_eqb (b 3) n); [inversion H; reflexivity|discriminate].
Qed.
Example C40_fields_example : find_key (b 1) sample = Some {| c_fields := [b 11; b 12]; c_concepts := [b 2; b 3] |} /\
  appends sample {| c_fields := [b 11; b 12]; c_concepts := [b 2; b 3] |} = false /\
  target_fields sample {| c_fields := [b 11; b 12]; c_concepts := [b 2; b 3] |} = [b 11; b 12; b 13; b 14].
Proof. vm_compute. auto. Qed.
(** The first concept compared with a value, or not the second one. *)
Definition sample_query : expr :=
  EOr [EPred {| p_lhs := OField (b 1); p_op := op_gt; p_rhs := OVal (DCount 5) |}; ENot (EPred {| p_lhs := OVal (DCount 5); p_op := op_eq; p_rhs := OField (b 2) |})].
(** A meaning for [sample], for any [v]: decidable, since [target_fields] is. *)
Definition meaning (v : predicate -> bool) (p : predicate) : bool :=
  match field_and_value p with
  | None => v p
  | Some (_, DRecord []) => false
  | Some (n, d) => match find_key n sample with
                   | None => v p
                   | Some c => match target_fields sample c with [] => v p | l => existsb (fun f => v (about p f)) l end
                   end
  end.
Lemma meaning_reads : forall v, reads sample v (meaning v).
Proof.
  intros v. assert (forall p n d, field_and_value p = Some (n, d) -> d <> DRecord [] -> meaning v p = match find_key n sample with
    | None => v p | Some c => match target_fields sample c with [] => v p | l => existsb (fun f => v (about p f)) l end end) as H.
  { intros p n d F Hd. unfold meaning. rewrite F. destruct d as [| | | | | | | | | | | | | |[|? ?] ]; congruence. }
  constructor.
  - intros p n F. unfold meaning. rewrite F. reflexivity.
  - intros p n d F Hd (f & Hf). rewrite (H p n d F Hd). destruct (find_key n sample) as [c|] eqn:E.
    + pose proof (target_complete sample n c E (sample_closed n c E)) as T. destruct (target_fields sample c) as [|f0 l]; [apply T in Hf; destruct Hf|].
      rewrite existsb_exists. split; intros (x & H1 & H2); exists x; (split; [apply T; assumption|assumption]).
    + exfalso. inversion Hf as [? ? (c & E' & _)|? ? ? (c & E' & _) _]; congruence.
  - intros p n d F Hd Hn. rewrite (H p n d F Hd). destruct (find_key n sample) as [c|] eqn:E; [|reflexivity].
    pose proof (target_complete sample n c E (sample_closed n c E)) as T. destruct (target_fields sample c) as [|f0 l]; [reflexivity|].
    exfalso. apply Hn. exists f0. apply T. left. reflexivity.
  - intros p F. unfold meaning. rewrite F. reflexivity.
Qed.
Example C40_query_example : closed sample /\ (forall v, reads sample v (meaning v)) /\
  resolve {| t_concepts := sample; t_models := [] |} None 0 sample_query = Resolved
    (EOr [EOr (map (fun f => EPred {| p_lhs := OField f; p_op := op_gt; p_rhs := OVal (DCount 5) |}) [b 11; b 12; b 13; b 14]);
          ENot (EOr (map (fun f => EPred {| p_lhs := OVal (DCount 5); p_op := op_eq; p_rhs := OField f |}) [b 12; b 13; b 14]))]).
Proof. split; [apply sample_closed|]. split; [apply meaning_reads|]. vm_compute. reflexivity. Qed.
(** The layout "a" with the field "x"; of the fields "a.x", "a.y" and "z.x" the first is kept. *)
Definition ax : list N := [97; 46; 120]%N.
Example C40_contains_example : has [([97%N], [record_of [120%N] ])] [97%N] [120%N] op_eq (DCount 1) /\
  filter (fun x => contains [([97%N], [record_of [120%N] ])] x op_eq (DCount 1)) [ax; [97; 46; 121]; [122; 46; 120]]%N = [ax].
Proof.
  split; [|vm_compute; reflexivity].
  exists [record_of [120%N] ], no_meta, [([120%N], TBasic no_meta BCount)], (TBasic no_meta BCount). repeat split; try reflexivity. left. reflexivity.
Qed.
(** A truth assignment in which only the kept field has the value. *)
Example C40_pruned_example :
  let ts := {| t_concepts := [(b 1, {| c_fields := [ax; [122; 46; 120]%N]; c_concepts := [] |})]; t_models := [] |} in
  let seen := [([97%N], [record_of [120%N] ])] in
  let v := fun p => match field_and_value p, p_op p with Some (n, DCount 1), op_eq => bytes_eqb n ax | _, _ => false end in
  (forall p n d f, field_and_value p = Some (n, d) -> field_of (t_concepts ts) n f -> contains seen f (p_op p) d = false -> v (about p f) = false) /\
  (forall p n d, field_and_value p = Some (n, d) -> (exists f, field_of (t_concepts ts) n f) -> v p = false) /\
  resolve ts (Some seen) 0 (EPred {| p_lhs := OField (b 1); p_op := op_eq; p_rhs := OVal (DCount 1) |}) = Resolved (EPred {| p_lhs := OField ax; p_op := op_eq; p_rhs := OVal (DCount 1) |}).
Proof.
  intros ts seen v. split; [|split; [|vm_compute; reflexivity] ].
  - intros p n d f F Hf Hc. destruct (v (about p f)) eqn:V; [|reflexivity]. exfalso. unfold v in V. destruct p as [l op r].
    unfold field_and_value, about in *. cbn [p_lhs p_rhs p_op] in *.
    assert (d = DCount 1 /\ op = op_eq /\ f = ax) as (-> & -> & ->).
    { destruct l; destruct r; try discriminate; inversion F; subst; cbn [p_lhs p_rhs p_op] in V; destruct d; try discriminate;
        (destruct n0 as [|[| |] ]; try discriminate); destruct op; try discriminate; apply bytes_eqb_iff in V; auto. }
    vm_compute in Hc. discriminate.
  - intros p n d F (f & Hf). assert (n = b 1) as ->.
    { inversion Hf as [? ? (c & E & _)|? ? ? (c & E & _) _]; subst; unfold ts in E; cbn [t_concepts find_key] in E;
        (destruct (bytes_eqb (b 1) n) eqn:Eb; [apply bytes_eqb_iff in Eb; auto|discriminate]). }
    unfold v. rewrite F. destruct d; try reflexivity. destruct n as [|[| |] ]; try reflexivity. destruct (p_op p); reflexivity.
Qed.
(** A model with a model in it, compared with a record that names two of its three concepts. *)
Definition sample_models : models_map := [(b 7, [b 8; b 3]); (b 8, [b 1; b 2])]%N.
Definition sample_ts : taxonomies := {| t_concepts := sample; t_models := sample_models |}.
Example C40_model_example : find_key (b 7) sample_models = Some [b 8; b 3] /\ leaves_of sample_models [b 8; b 3] [b 1; b 2; b 3] /\
  Forall (good_leaf sample_ts) [b 1; b 2; b 3] /\
  resolve sample_ts None 9 (EPred {| p_lhs := OField (b 7); p_op := op_ne; p_rhs := OVal (DRecord [(b 3, DCount 4); (b 2, DCount 5)]) |}) = Resolved
    (EAnd [EOr (map (fun f => EPred (field_exists f)) [b 11; b 12; b 13; b 14]);
           ENot (EAnd [EOr (map (fun f => EPred {| p_lhs := OField f; p_op := op_eq; p_rhs := OVal (DCount 5) |}) [b 12; b 13; b 14]);
                       EPred {| p_lhs := OField (b 14); p_op := op_eq; p_rhs := OVal (DCount 4) |}])]) /\
  resolve sample_ts None 9 (EPred {| p_lhs := OField (b 7); p_op := op_ne; p_rhs := OVal (DRecord [([], DNone); ([], DCount 5); ([], DCount 4)]) |}) =
    resolve sample_ts None 9 (EPred {| p_lhs := OField (b 7); p_op := op_ne; p_rhs := OVal (DRecord [(b 3, DCount 4); (b 2, DCount 5)]) |}).
Proof.
  split; [reflexivity|]. split.
  - change [b 1; b 2; b 3] with ([b 1; b 2] ++ [b 3]). apply lo_model with (def := [b 1; b 2]); [reflexivity|discriminate| |];
      repeat (apply lo_leaf; [reflexivity|]); apply lo_nil.
  - split; [|split; vm_compute; reflexivity].
    repeat apply Forall_cons; try apply Forall_nil; eexists; (split; [reflexivity|]); (split; [reflexivity|]); vm_compute; discriminate.
Qed.

Definition assumptions_taxonomy := (C40_definitions, C40_references, C40_resolve_concepts_sound, C40_resolve_concepts, C40_resolve_concepts_refuted,
  C40_fields, C40_complete, C40_nested_refuted, C40_cycle_refuted, C40_agree_refuted, C40_query, C40_contains_sound, C40_contains_complete,
  C40_contains_refuted, C40_pruned, C40_negation_refuted, C40_model_named, C40_model_unnamed, C40_model_length, C40_model_cycle_refuted,
  C40_model_empty_refuted, C40_model_field_refuted, C40_negated_error_refuted, C40_references_refuted).
Print Assumptions assumptions_taxonomy.
