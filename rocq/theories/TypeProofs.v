(** Proofs about record types (TypeModel.v). *)
From Coq Require Import List ZArith NArith Lia Bool Arith ZifyBool ZifyNat ZifyN.
From Verif Require Import OperatorModel AddressModel DataModel DataProofs TypeModel.
Import ListNotations.
Open Scope nat_scope.

(** * Induction over types *)

Section Induction.
  Variable P : ty -> Prop.
  Hypothesis Hnull : P TNull.
  Hypothesis Hnone : forall m, P (TNone m).
  Hypothesis Hbasic : forall m b, P (TBasic m b).
  Hypothesis Henum : forall m fs, P (TEnum m fs).
  Hypothesis Hlist : forall m t, P t -> P (TList m t).
  Hypothesis Hmap : forall m k v, P k -> P v -> P (TMap m k v).
  Hypothesis Hrec : forall m fs, Forall (fun f : field => P (snd f)) fs -> P (TRecord m fs).
  Hypothesis Halias : forall m t, P t -> P (TAlias m t).
  Fixpoint ty_rect' (t : ty) : P t.
  Proof.
    destruct t as [|m|m b|m fs|m t|m k v|m fs|m t].
    - apply Hnull.
    - apply Hnone.
    - apply Hbasic.
    - apply Henum.
    - apply Hlist, ty_rect'.
    - apply Hmap; apply ty_rect'.
    - apply Hrec. induction fs as [|[n t] fs IH]; constructor; [apply ty_rect'|exact IH].
    - apply Halias, ty_rect'.
  Defined.
End Induction.

(** * The leaves of a record *)

(** Offset, names on the path and type. *)
Notation path := (list nat * list (list N) * ty)%type.
Definition under (i : nat) (n : list N) (p : path) : path := let '(o, ns, t) := p in (i :: o, n :: ns, t).

Section Leaves.
  Variable rec : ty -> list path.
  Fixpoint leaves_fields (fs : list field) (i : nat) : list path :=
    match fs with
    | [] => []
    | (n, t) :: fs' => map (under i n) (rec t) ++ leaves_fields fs' (S i)
    end.
End Leaves.
(** The leaves below a field; a field that is no record is its own leaf. *)
Fixpoint leaves (t : ty) : list path :=
  match t with
  | TRecord _ fs => leaves_fields leaves fs 0
  | _ => [([], [], t)]
  end.
Notation leaf_list fs := (leaves_fields leaves fs 0).

(** No record below (and including) the type is empty. *)
Fixpoint no_empty (t : ty) : bool :=
  match t with
  | TRecord _ fs => negb (match fs with [] => true | _ => false end) && forallb (fun f => no_empty (snd f)) fs
  | _ => true
  end.

(** ** flat_size *)

Lemma leaves_fields_length : forall fs i, Forall (fun f : field => length (leaves (snd f)) = flat_size (snd f)) fs ->
  length (leaves_fields leaves fs i) = list_sum (map (fun f => flat_size (snd f)) fs).
Proof.
  induction fs as [|[n t] fs IH]; intros i H; [reflexivity|].
  inversion H as [|? ? H1 H2]; subst. cbn [leaves_fields map list_sum fold_right snd] in *.
  rewrite app_length, map_length, H1, (IH (S i) H2). reflexivity.
Qed.
Lemma leaves_length : forall t, length (leaves t) = flat_size t.
Proof.
  induction t as [| | | | | |m fs IH|] using ty_rect'; try reflexivity.
  cbn [leaves flat_size]. now apply leaves_fields_length.
Qed.
Lemma leaf_list_length : forall fs i, length (leaves_fields leaves fs i) = list_sum (map (fun f => flat_size (snd f)) fs).
Proof. intros fs i. apply leaves_fields_length. apply Forall_forall. intros f _. apply leaves_length. Qed.

(** ** flatten *)

Definition flat_name (p : path) : field := let '(o, ns, t) := p in (join ns, t).

Lemma leaves_fields_shift : forall fs i, map (fun p : path => (snd (fst p), snd p)) (leaves_fields leaves fs i)
  = flat_map (fun f => map (fun p : path => (fst f :: snd (fst p), snd p)) (leaves (snd f))) fs.
Proof.
  induction fs as [|[n t] fs IH]; intros i; [reflexivity|].
  cbn [leaves_fields flat_map fst snd]. rewrite map_app, map_map, IH. f_equal.
  apply map_ext. intros [[o ns] u]. reflexivity.
Qed.

Lemma map_flat_map' : forall A B C (f : B -> C) (g : A -> list B) xs, map f (flat_map g xs) = flat_map (fun x => map f (g x)) xs.
Proof. intros A B C f g. induction xs as [|x xs IH]; [reflexivity|]. cbn. now rewrite map_app, IH. Qed.
Lemma flat_map_ext' : forall A B (f g : A -> list B) xs, Forall (fun x => f x = g x) xs -> flat_map f xs = flat_map g xs.
Proof. intros A B f g. induction 1 as [|x xs H1 H2 IH]; [reflexivity|]. cbn. now rewrite H1, IH. Qed.

Lemma leaves_names : forall t, Forall (fun p : path => snd (fst p) = [] -> match t with TRecord _ _ => False | _ => True end) (leaves t).
Proof.
  destruct t as [| | | | | |m fs|]; cbn [leaves]; try (constructor; [auto|constructor]).
  generalize 0. induction fs as [|[n t] fs IH]; intros i; cbn [leaves_fields]; [constructor|].
  apply Forall_app. split; [|apply IH]. apply Forall_forall. intros p Hp. apply in_map_iff in Hp.
  destruct Hp as [[[o ns] u] [<- _]]. cbn. discriminate.
Qed.

Lemma flatten_field_leaves : forall t f, flatten_field f t = map (fun p : path => (join (f :: snd (fst p)), snd p)) (leaves t).
Proof.
  induction t as [| | | | | |m fs IH|] using ty_rect'; intros f; try reflexivity.
  cbn [flatten_field leaves].
  assert (E : map (fun p : path => (join (f :: snd (fst p)), snd p)) (leaves_fields leaves fs 0)
    = map (fun g : list (list N) * ty => (join (f :: fst g), snd g)) (map (fun p : path => (snd (fst p), snd p)) (leaves_fields leaves fs 0)))
    by (rewrite map_map; reflexivity).
  rewrite E, leaves_fields_shift, !map_flat_map'. apply flat_map_ext'.
  eapply Forall_impl; [|exact IH]. intros [n t] H. cbn [fst snd] in *. rewrite H, !map_map.
  apply map_ext. intros [[o ns] u]. reflexivity.
Qed.

Lemma flatten_leaves : forall fs, flatten_fields fs = map flat_name (leaf_list fs).
Proof.
  intros fs. unfold flatten_fields.
  assert (E : map flat_name (leaf_list fs)
    = map (fun g : list (list N) * ty => (join (fst g), snd g)) (map (fun p : path => (snd (fst p), snd p)) (leaf_list fs)))
    by (rewrite map_map; apply map_ext; intros [[o ns] u]; reflexivity).
  rewrite E, leaves_fields_shift, map_flat_map'. apply flat_map_ext'. apply Forall_forall. intros [n t] _.
  cbn [fst snd]. rewrite flatten_field_leaves, map_map. apply map_ext. intros [[o ns] u]. reflexivity.
Qed.

(** ** each *)

Definition mk_leaf (p : path) : leaf := let '(o, ns, t) := p in {| l_offset := o; l_key := join ns; l_type := t |}.
(** A leaf seen from the levels above it (innermost first). *)
Definition above (st : list frame) (p : path) : path :=
  let '(o, ns, t) := p in (map snd (rev st) ++ o, map (fun f => fst (frame_field f)) (rev st) ++ ns, t).

Lemma above_under : forall fs i n t rest p, nth_error fs i = Some (n, t) ->
  above ((fs, i) :: rest) p = above rest (under i n p).
Proof.
  intros fs i n t rest [[o ns] u] H. unfold above, under. cbn [rev].
  rewrite !map_app, <- !app_assoc. cbn [map app snd].
  unfold frame_field at 2. cbn [fst snd]. rewrite (nth_error_nth fs i _ H). reflexivity.
Qed.

(** Continue after the leaves below the innermost levels. *)
Definition after (fuel : nat) (rest : list frame) : option (list leaf) :=
  match rest with [] => Some [] | _ => match each_next rest with None => None | Some st => each_run fuel st end end.

Lemma run_below : forall t, no_empty t = true -> (match t with TRecord _ _ => True | _ => False end) ->
  forall rest fuel frames, descend t = Some frames ->
  each_run (length (leaves t) + fuel) (rev frames ++ rest)
  = option_map (app (map (fun p => mk_leaf (above rest p)) (leaves t))) (after fuel rest).
Proof.
  induction t as [| | | | | |m fs IH|] using ty_rect'; intros Hne Hr; try contradiction. clear Hr.
  cbn [no_empty] in Hne. apply andb_true_iff in Hne. destruct Hne as [Hne Hall].
  (* position i of this record, any suffix *)
  assert (Main : forall gs i pre, fs = pre ++ gs -> length pre = i -> gs <> [] ->
    forall rest fuel n t frames, nth_error fs i = Some (n, t) -> descend t = Some frames ->
    each_run (length (leaves_fields leaves gs i) + fuel) (rev frames ++ (fs, i) :: rest)
    = option_map (app (map (fun p => mk_leaf (above rest p)) (leaves_fields leaves gs i))) (after fuel rest)).
  { induction gs as [|[n t] gs IHg]; intros i pre E Hi Hg rest fuel n' t' frames Hn Hd; [congruence|]. clear Hg.
    assert (En : nth_error fs i = Some (n, t)).
    { subst fs. rewrite nth_error_app2 by lia. replace (i - length pre) with 0 by lia. reflexivity. }
    assert (Q : n' = n /\ t' = t) by (rewrite En in Hn; injection Hn; auto). destruct Q; subst n' t'. clear Hn.
    assert (Ht : no_empty t = true).
    { rewrite forallb_forall in Hall. apply (Hall (n, t)). eapply nth_error_In. exact En. }
    assert (HIH := proj1 (Forall_forall _ _) IH (n, t) (nth_error_In _ _ En) Ht). cbn [snd] in HIH.
    cbn [leaves_fields]. rewrite app_length, map_length, map_app, map_map.
    (* what comes after the leaves below field i *)
    assert (Next : after (length (leaves_fields leaves gs (S i)) + fuel) ((fs, i) :: rest)
      = option_map (app (map (fun p => mk_leaf (above rest p)) (leaves_fields leaves gs (S i)))) (after fuel rest)).
    { unfold after at 1. cbn [each_next].
      destruct gs as [|[n2 t2] gs].
      - cbn [leaves_fields length map app]. rewrite Nat.add_0_l.
        assert (En2 : nth_error fs (S i) = None).
        { apply nth_error_None. subst fs. rewrite app_length. cbn. lia. }
        rewrite En2. unfold after. destruct rest as [|fr rest].
        + destruct fuel; reflexivity.
        + destruct (each_next (fr :: rest)) as [st|]; [|reflexivity].
          destruct (each_run fuel st); reflexivity.
      - assert (En2 : nth_error fs (S i) = Some (n2, t2)).
        { subst fs. rewrite nth_error_app2 by lia. replace (S i - length pre) with 1 by lia. reflexivity. }
        rewrite En2.
        assert (Hd2 : exists l, descend t2 = Some l).
        { assert (Ht2 : no_empty t2 = true)
            by (rewrite forallb_forall in Hall; apply (Hall (n2, t2)); eapply nth_error_In; exact En2).
          clear - Ht2. induction t2 as [| | | | | |m2 fs2 IH2|] using ty_rect'; try (now exists []).
          cbn [descend no_empty] in *. destruct fs2 as [|[a b] fs2]; [discriminate|].
          inversion IH2 as [|? ? I1 I2]; subst. cbn [forallb snd] in *.
          assert (Hb : no_empty b = true) by (destruct (no_empty b); [reflexivity|discriminate Ht2]).
          destruct (I1 Hb) as [l ->]. eauto. }
        destruct Hd2 as [l Hd2]. rewrite Hd2.
        apply (IHg (S i) (pre ++ [(n, t)])) with (n := n2) (t := t2); try assumption.
        + subst fs. now rewrite <- app_assoc.
        + rewrite app_length. cbn. lia.
        + discriminate. }
    assert (Ab : forall p, mk_leaf (above ((fs, i) :: rest) p) = mk_leaf (above rest (under i n p)))
      by (intros p; now rewrite (above_under fs i n t rest p En)).
    destruct t as [|tm|tm tb|tm tf|tm tv|tm tk tv|tm tf|tm tv].
    7:{ rewrite <- Nat.add_assoc, (HIH Logic.I ((fs, i) :: rest) _ frames Hd), Next.
        rewrite (map_ext _ _ Ab).
        destruct (after fuel rest); cbn [option_map]; [now rewrite <- app_assoc|reflexivity]. }
    all: cbn [descend] in Hd; assert (frames = []) as -> by congruence;
      cbn [rev app leaves length map]; rewrite ?Nat.add_assoc, !Nat.add_1_l; cbn [Nat.add each_run];
      unfold after at 1 in Next;
      destruct (each_next ((fs, i) :: rest)) as [st|] eqn:En1;
      [rewrite Next|destruct (after fuel rest) in *; [discriminate Next|reflexivity]];
      destruct (after fuel rest); cbn [option_map]; [|reflexivity]; cbn [app]; f_equal; f_equal;
      rewrite <- Ab; unfold each_get, above, mk_leaf; rewrite !app_nil_r; unfold frame_field at 2; cbn [fst snd];
      now rewrite (nth_error_nth fs i _ En). }
  intros rest fuel frames Hd. cbn [descend] in Hd. destruct fs as [|[n t] fs']; [discriminate|].
  destruct (descend t) as [l|] eqn:El; [|discriminate].
  assert (frames = ((n, t) :: fs', 0) :: l) as -> by congruence.
  cbn [rev leaves]. rewrite <- app_assoc. cbn [app].
  apply (Main ((n, t) :: fs') 0 []) with (n := n) (t := t); auto. discriminate.
Qed.

Lemma descend_some : forall t, no_empty t = true -> exists l, descend t = Some l.
Proof.
  induction t as [| | | | | |m2 fs2 IH2|] using ty_rect'; intros Ht2; try (now exists []).
  cbn [descend no_empty] in *. destruct fs2 as [|[a b] fs2]; [discriminate|].
  inversion IH2 as [|? ? I1 I2]; subst. cbn [forallb snd] in *.
  assert (Hb : no_empty b = true) by (destruct (no_empty b); [reflexivity|discriminate Ht2]).
  destruct (I1 Hb) as [l ->]. eauto.
Qed.

Lemma each_leaves : forall fs fuel, forallb (fun f => no_empty (snd f)) fs = true ->
  exists st, each_begin fs = Some st /\
    each_run (length (leaf_list fs) + fuel) st = Some (map mk_leaf (leaf_list fs)).
Proof.
  intros fs fuel H. destruct fs as [|f fs'] eqn:E.
  - exists []. split; [reflexivity|]. destruct fuel; reflexivity.
  - rewrite <- E in *. assert (Hne : no_empty (TRecord no_meta fs) = true) by (cbn [no_empty]; rewrite H; subst; reflexivity).
    destruct (descend_some _ Hne) as [l Hl]. exists (rev l). split.
    + unfold each_begin. rewrite Hl. now subst.
    + pose proof (run_below (TRecord no_meta fs) Hne Logic.I [] fuel l Hl) as R. rewrite app_nil_r in R.
      cbn [leaves] in R. rewrite R. cbn [after option_map]. rewrite app_nil_r. f_equal.
      apply map_ext. intros [[o ns] t]. reflexivity.
Qed.

(** * Offsets *)

(** The field at the end of an offset is a leaf: a path of positions through records. *)
Inductive leaf_at : list field -> list nat -> list (list N) -> ty -> Prop :=
| leaf_here : forall fs i n t, nth_error fs i = Some (n, t) -> as_record t = None -> leaf_at fs [i] [n] t
| leaf_below : forall fs i n m gs o ns t, nth_error fs i = Some (n, TRecord m gs) -> leaf_at gs o ns t ->
    leaf_at fs (i :: o) (n :: ns) t.

Lemma leaf_at_nonempty : forall fs o ns t, leaf_at fs o ns t -> o <> [] /\ ns <> [].
Proof. intros fs o ns t []; split; discriminate. Qed.
Lemma leaf_at_type : forall fs o ns t, leaf_at fs o ns t -> as_record t = None.
Proof. induction 1; auto. Qed.

Lemma leaf_at_functional : forall fs o ns t, leaf_at fs o ns t -> forall ns' t', leaf_at fs o ns' t' -> ns' = ns /\ t' = t.
Proof.
  induction 1 as [fs i n t E R|fs i n m gs o ns t E L IH]; intros ns' t' H'.
  - inversion H' as [? ? ? ? E' R'|? ? ? ? ? ? ? ? E' L']; subst.
    + rewrite E in E'. injection E' as -> ->. auto.
    + apply leaf_at_nonempty in L'. now destruct L'.
  - inversion H' as [? ? ? ? E' R'|? ? ? ? ? ? ? ? E' L']; subst.
    + apply leaf_at_nonempty in L. now destruct L.
    + rewrite E in E'. injection E' as -> -> ->. destruct (IH _ _ L') as [-> ->]. auto.
Qed.

Lemma flat_index_leaf : forall o fs k, flat_index_at fs o = Some k -> exists ns t, leaf_at fs o ns t.
Proof.
  induction o as [|i o IH]; intros fs k H; [discriminate|]. cbn [flat_index_at] in H.
  destruct (nth_error fs i) as [[n t]|] eqn:E; [|discriminate].
  destruct o as [|j o].
  - exists [n], t. constructor; [exact E|]. destruct t; try reflexivity; discriminate.
  - destruct t as [| | | | | |m gs|]; try discriminate.
    destruct (flat_index_at gs (j :: o)) as [k'|] eqn:Ek; [|discriminate].
    destruct (IH gs k' Ek) as [ns [t L]]. exists (n :: ns), t. econstructor; eauto.
Qed.
Lemma leaf_flat_index : forall fs o ns t, leaf_at fs o ns t -> exists k, flat_index_at fs o = Some k.
Proof.
  induction 1 as [fs i n t E R|fs i n m gs o ns t E L [k IH]]; cbn [flat_index_at]; rewrite E.
  - destruct t; try discriminate; eauto.
  - destruct (leaf_at_nonempty _ _ _ _ L) as [Ho _]. destruct o as [|j o]; [congruence|].
    rewrite IH. cbn. eauto.
Qed.

Lemma firstn_sum : forall (fs : list field) i, length (leaf_list (firstn i fs)) = list_sum (map (fun f => flat_size (snd f)) (firstn i fs)).
Proof. intros. apply leaf_list_length. Qed.

Lemma leaves_fields_app : forall xs ys i, leaves_fields leaves (xs ++ ys) i = leaves_fields leaves xs i ++ leaves_fields leaves ys (i + length xs).
Proof.
  induction xs as [|[n t] xs IH]; intros ys i; cbn [app leaves_fields length].
  - now rewrite Nat.add_0_r.
  - rewrite IH, <- app_assoc. now replace (S i + length xs) with (i + S (length xs)) by lia.
Qed.

Lemma nth_error_split' : forall A (l : list A) i x, nth_error l i = Some x -> l = firstn i l ++ x :: skipn (S i) l /\ length (firstn i l) = i.
Proof.
  intros A. induction l as [|a l IH]; intros [|i] x H; cbn in *; try discriminate.
  - injection H as ->. auto.
  - destruct (IH i x H) as [E1 E2]. split; [now f_equal|now rewrite E2].
Qed.

Lemma leaves_nth : forall fs o ns t k, leaf_at fs o ns t -> flat_index_at fs o = Some k ->
  nth_error (leaf_list fs) k = Some (o, ns, t).
Proof.
  intros fs o ns t k L. revert k.
  induction L as [fs i n t E R|fs i n m gs o ns t E L IH]; intros k Hk; cbn [flat_index_at] in Hk; rewrite E in Hk;
    destruct (nth_error_split' _ _ _ _ E) as [Es El].
  - assert (Hk' : list_sum (map (fun f => flat_size (snd f)) (firstn i fs)) = k) by (destruct t; congruence || discriminate R).
    rewrite Es at 1. rewrite leaves_fields_app. rewrite nth_error_app2 by (rewrite leaf_list_length; lia).
    rewrite leaf_list_length, Hk', Nat.sub_diag, El, Nat.add_0_l. cbn [leaves_fields].
    destruct t; try discriminate R; reflexivity.
  - destruct (leaf_at_nonempty _ _ _ _ L) as [Ho _]. destruct o as [|j o]; [congruence|].
    destruct (flat_index_at gs (j :: o)) as [k'|] eqn:Ek; [|discriminate]. cbn [option_map] in Hk. injection Hk as Hk.
    specialize (IH k' eq_refl).
    rewrite Es at 1. rewrite leaves_fields_app. rewrite nth_error_app2 by (rewrite leaf_list_length; lia).
    rewrite leaf_list_length, El, Nat.add_0_l. cbn [leaves_fields leaves].
    replace (k - list_sum (map (fun f => flat_size (snd f)) (firstn i fs))) with k' by lia.
    rewrite nth_error_app1.
    + rewrite nth_error_map, IH. reflexivity.
    + rewrite map_length. apply nth_error_Some. congruence.
Qed.

Lemma leaves_fields_in : forall fs i p, In p (leaves_fields leaves fs i) ->
  exists j n t q, nth_error fs j = Some (n, t) /\ In q (leaves t) /\ p = under (i + j) n q.
Proof.
  induction fs as [|[n t] fs IH]; intros i p H; [destruct H|]. cbn [leaves_fields] in H.
  apply in_app_or in H. destruct H as [H|H].
  - apply in_map_iff in H. destruct H as [q [<- Hq]]. exists 0, n, t, q. now rewrite Nat.add_0_r.
  - destruct (IH (S i) p H) as [j [n' [t' [q [E [Hq ->]]]]]]. exists (S j), n', t', q.
    now replace (i + S j) with (S i + j) by lia.
Qed.

Lemma leaves_leaf_at : forall t o ns u, In (o, ns, u) (leaves t) ->
  match t with TRecord _ fs => leaf_at fs o ns u | _ => o = [] /\ ns = [] /\ u = t end.
Proof.
  induction t as [| | | | | |m fs IH|] using ty_rect'; intros o ns u H;
    try (destruct H as [H|[]]; injection H as <- <- <-; auto).
  cbn [leaves] in H. destruct (leaves_fields_in _ _ _ H) as [j [n [t [[[o' ns'] u'] [E [Hq Hp]]]]]].
  cbn [under Nat.add] in Hp. injection Hp as -> -> ->.
  pose proof (proj1 (Forall_forall _ _) IH (n, t) (nth_error_In _ _ E) _ _ _ Hq) as L. cbn [snd] in L.
  destruct t as [|tm|tm tb|tm tf|tm tv|tm tk tv|tm tf|tm tv];
    try (destruct L as [-> [-> ->]]; constructor; [exact E|reflexivity]).
  econstructor; eauto.
Qed.
Lemma leaf_list_leaf_at : forall fs o ns t, In (o, ns, t) (leaf_list fs) -> leaf_at fs o ns t.
Proof. intros fs o ns t H. exact (leaves_leaf_at (TRecord no_meta fs) o ns t H). Qed.

(** Two leaves have different flat indexes. *)
Lemma flat_index_inj : forall fs o o' k, flat_index_at fs o = Some k -> flat_index_at fs o' = Some k -> o = o'.
Proof.
  intros fs o o' k H H'.
  destruct (flat_index_leaf _ _ _ H) as [ns [t L]]. destruct (flat_index_leaf _ _ _ H') as [ns' [t' L']].
  pose proof (leaves_nth _ _ _ _ _ L H) as E. pose proof (leaves_nth _ _ _ _ _ L' H') as E'. congruence.
Qed.

Lemma flat_index_bound : forall fs o k, flat_index_at fs o = Some k -> k < length (leaf_list fs).
Proof.
  intros fs o k H. destruct (flat_index_leaf _ _ _ H) as [ns [t L]].
  pose proof (leaves_nth _ _ _ _ _ L H) as E. apply nth_error_Some. congruence.
Qed.

Lemma leaves_index : forall fs k o ns t, nth_error (leaf_list fs) k = Some (o, ns, t) -> flat_index_at fs o = Some k.
Proof.
  (* counting: the positions below [k] are taken by other leaves *)
  enough (G : forall t k o ns u, nth_error (leaves t) k = Some (o, ns, u) ->
    match t with TRecord _ fs => flat_index_at fs o = Some k | _ => True end).
  { intros fs k o ns t H. exact (G (TRecord no_meta fs) k o ns t H). }
  induction t as [| | | | | |m fs IH|] using ty_rect'; intros k o ns u H; try exact Logic.I.
  cbn [leaves] in H.
  assert (Q : forall gs pre k, fs = pre ++ gs -> nth_error (leaves_fields leaves gs (length pre)) k = Some (o, ns, u) ->
    flat_index_at fs o = Some (list_sum (map (fun f => flat_size (snd f)) pre) + k)).
  { induction gs as [|[n t] gs IHg]; intros pre k' E Hk; [destruct k'; discriminate|].
    assert (En : nth_error fs (length pre) = Some (n, t))
      by (rewrite E, nth_error_app2, Nat.sub_diag by lia; reflexivity).
    assert (Ef : firstn (length pre) fs = pre) by (rewrite E, firstn_app, firstn_all, Nat.sub_diag, app_nil_r; reflexivity).
    cbn [leaves_fields] in Hk. destruct (Nat.lt_ge_cases k' (length (leaves t))) as [Hlt|Hge].
    - rewrite nth_error_app1 in Hk by (now rewrite map_length).
      rewrite nth_error_map in Hk. destruct (nth_error (leaves t) k') as [[[o' ns'] u']|] eqn:Ek; [|discriminate].
      cbn [option_map under] in Hk. injection Hk as <- <- <-.
      cbn [flat_index_at]. rewrite En, Ef.
      pose proof (proj1 (Forall_forall _ _) IH (n, t) (nth_error_In _ _ En) _ _ _ _ Ek) as IH1. cbn [snd] in IH1.
      destruct t as [|tm|tm tb|tm tf|tm tv|tm tk tv|tm tf|tm tv];
        try (destruct k' as [|k']; [injection Ek as <- <- <-; now rewrite Nat.add_0_r|destruct k'; discriminate]).
      rewrite IH1. destruct o' as [|j o'']; [discriminate IH1|reflexivity].
    - rewrite nth_error_app2 in Hk by (now rewrite map_length). rewrite map_length in Hk.
      replace (S (length pre)) with (length (pre ++ [(n, t)])) in Hk by (rewrite app_length; cbn; lia).
      rewrite (IHg (pre ++ [(n, t)]) _ (eq_trans E (app_assoc pre [(n, t)] gs)) Hk).
      rewrite map_app, list_sum_app. cbn [map list_sum fold_right snd]. rewrite leaves_length in *. f_equal. lia. }
  pose proof (Q fs [] k eq_refl H) as R. exact R.
Qed.

Lemma at_offset_leaf : forall fs o ns t, leaf_at fs o ns t -> at_offset fs o = Some (last ns [], t).
Proof.
  induction 1 as [fs i n t E R|fs i n m gs o ns t E L IH]; cbn [at_offset].
  - now rewrite E.
  - destruct (leaf_at_nonempty _ _ _ _ L) as [Ho Hn]. destruct o as [|j o]; [congruence|]. rewrite E, IH.
    destruct ns; [congruence|reflexivity].
Qed.

(** [at] finds a leaf at exactly the offsets that have a flat index. *)
Lemma at_offset_record : forall o fs n t, at_offset fs o = Some (n, t) -> as_record t = None -> exists ns, leaf_at fs o ns t /\ last ns [] = n.
Proof.
  induction o as [|i o IH]; intros fs n t H R; [discriminate|]. cbn [at_offset] in H. destruct o as [|j o].
  - exists [n]. split; [now constructor|reflexivity].
  - destruct (nth_error fs i) as [[n' t']|] eqn:E; [|discriminate]. destruct t' as [| | | | | |m gs|]; try discriminate.
    destruct (IH gs n t H R) as [ns [L Hl]]. exists (n' :: ns). split; [econstructor; eauto|].
    destruct ns; [apply leaf_at_nonempty in L; now destruct L|exact Hl].
Qed.

Lemma resolve_leaf : forall fs o ns t, leaf_at fs o ns t -> Forall (fun n => n <> []) ns -> forall acc,
  resolve_from acc fs o = Some (match acc with [] => join ns | _ => acc ++ dot :: join ns end).
Proof.
  induction 1 as [fs i n t E R|fs i n m gs o ns t E L IH]; intros Hn acc; cbn [resolve_from]; rewrite E.
  - destruct acc; reflexivity.
  - destruct (leaf_at_nonempty _ _ _ _ L) as [Ho Hns]. destruct o as [|j o]; [congruence|].
    inversion Hn as [|? ? H1 H2]; subst. rewrite IH by exact H2.
    destruct ns as [|n2 ns]; [congruence|].
    destruct acc as [|c acc]; [destruct n; [congruence|reflexivity]|].
    cbn [app]. f_equal. f_equal. cbn [join]. now rewrite <- app_assoc.
Qed.

(** ** offset_from_index *)

Lemma advance_run : forall i fuel st ls, each_run fuel st = Some ls ->
  exists st', advance i st = Some st' /\
    match nth_error ls i with
    | Some l => st' <> [] /\ each_get st' = l
    | None => st' = []
    end.
Proof.
  induction i as [|i IH]; intros fuel st ls H.
  - exists st. split; [destruct st; reflexivity|]. destruct st as [|fr st]; destruct fuel as [|fuel]; cbn [each_run] in H;
      try (injection H as <-; reflexivity); try discriminate.
    destruct (each_next (fr :: st)) as [st'|]; [|discriminate].
    destruct (each_run fuel st') as [ls'|]; [|discriminate]. injection H as <-. cbn. split; [discriminate|reflexivity].
  - destruct st as [|fr st].
    + exists []. split; [reflexivity|]. assert (ls = []) as -> by (destruct fuel; injection H as <-; reflexivity). reflexivity.
    + destruct fuel as [|fuel]; [discriminate|]. cbn [each_run] in H. cbn [advance].
      destruct (each_next (fr :: st)) as [st'|]; [|discriminate].
      destruct (each_run fuel st') as [ls'|] eqn:E; [|discriminate]. injection H as <-. cbn [nth_error].
      exact (IH fuel st' ls' E).
Qed.

Lemma offset_from_index_leaves : forall fs i, forallb (fun f => no_empty (snd f)) fs = true ->
  offset_from_index fs i = Some (option_map (fun p : path => fst (fst p)) (nth_error (leaf_list fs) i)).
Proof.
  intros fs i H. destruct (each_leaves fs 0 H) as [st [Hb Hr]]. unfold offset_from_index. rewrite Hb.
  destruct (advance_run i _ _ _ Hr) as [st' [-> Hn]]. rewrite nth_error_map in Hn.
  destruct (nth_error (leaf_list fs) i) as [[[o ns] t]|]; cbn [option_map] in *.
  - destruct Hn as [Hn Hg]. destruct st' as [|fr st']; [congruence|]. rewrite Hg. reflexivity.
  - now rewrite Hn.
Qed.

(** ** Removing a field *)

Definition without {A} (k : nat) (l : list A) : list A := firstn k l ++ skipn (S k) l.

Lemma flatten_fields_app : forall xs ys, flatten_fields (xs ++ ys) = flatten_fields xs ++ flatten_fields ys.
Proof. intros. unfold flatten_fields. now rewrite flat_map_app. Qed.
Lemma flatten_fields_length : forall xs, length (flatten_fields xs) = list_sum (map (fun f => flat_size (snd f)) xs).
Proof. intros xs. rewrite flatten_leaves, map_length. apply leaf_list_length. Qed.
Lemma without_app : forall A (xs ys zs : list A) k, k < length ys ->
  without (length xs + k) (xs ++ ys ++ zs) = xs ++ without k ys ++ zs.
Proof.
  intros A xs ys zs k Hk. unfold without.
  rewrite firstn_app_2. rewrite <- (app_assoc xs). f_equal.
  rewrite firstn_app. replace (k - length ys) with 0 by lia. cbn [firstn]. rewrite app_nil_r.
  rewrite <- app_assoc. f_equal.
  rewrite skipn_app. rewrite skipn_all2 by lia. replace (S (length xs + k) - length xs) with (S k) by lia. cbn [app].
  rewrite skipn_app. now replace (S k - length ys) with 0 by lia.
Qed.
Lemma without_map : forall A B (f : A -> B) k l, without k (map f l) = map f (without k l).
Proof. intros. unfold without. now rewrite map_app, firstn_map, skipn_map. Qed.

Lemma remove_at_leaf : forall fs o ns t k, leaf_at fs o ns t -> flat_index_at fs o = Some k ->
  exists gs, remove_at fs o = Some gs /\ flatten_fields gs = without k (flatten_fields fs).
Proof.
  intros fs o ns t k L. revert k. induction L as [fs i n t E R|fs i n m gs o ns t E L IH]; intros k Hk;
    cbn [flat_index_at] in Hk; cbn [remove_at]; rewrite E in Hk; rewrite E;
    destruct (nth_error_split' _ _ _ _ E) as [Es El].
  - assert (Hk' : length (flatten_fields (firstn i fs)) + 0 = k)
      by (rewrite flatten_fields_length; destruct t; (injection Hk as Hk; lia) || discriminate R).
    assert (F : flatten_fields fs = flatten_fields (firstn i fs) ++ flatten_fields [(n, t)] ++ flatten_fields (skipn (S i) fs)).
    { rewrite Es at 1. change ((n, t) :: skipn (S i) fs) with ([(n, t)] ++ skipn (S i) fs). now rewrite !flatten_fields_app. }
    eexists. split; [reflexivity|]. rewrite <- Hk', F, flatten_fields_app.
    rewrite without_app.
    + f_equal. destruct t; try discriminate R; reflexivity.
    + destruct t; try discriminate R; cbn; lia.
  - destruct (leaf_at_nonempty _ _ _ _ L) as [Ho _]. destruct o as [|j o]; [congruence|].
    destruct (flat_index_at gs (j :: o)) as [k'|] eqn:Ek; [|discriminate]. cbn [option_map] in Hk. injection Hk as Hk.
    destruct (IH k' eq_refl) as [hs [Hr Hf]]. rewrite Hr.
    assert (Hlen : k' < length (flatten_fields gs)).
    { rewrite flatten_leaves, map_length. apply (flat_index_bound _ _ _ Ek). }
    assert (W : without k (flatten_fields fs) = flatten_fields (firstn i fs)
        ++ map (fun g => (n ++ dot :: fst g, snd g)) (flatten_fields hs) ++ flatten_fields (skipn (S i) fs)).
    { assert (F : flatten_fields fs = flatten_fields (firstn i fs) ++ flatten_fields [(n, TRecord m gs)] ++ flatten_fields (skipn (S i) fs)).
      { rewrite Es at 1. change ((n, TRecord m gs) :: skipn (S i) fs) with ([(n, TRecord m gs)] ++ skipn (S i) fs). now rewrite !flatten_fields_app. }
      rewrite <- Hk, <- flatten_fields_length, F. rewrite without_app.
      - f_equal. f_equal. unfold flatten_fields at 1. cbn [flat_map flatten_field fst snd]. rewrite app_nil_r.
        change (flat_map (fun g => flatten_field (fst g) (snd g)) gs) with (flatten_fields gs).
        now rewrite without_map, Hf.
      - unfold flatten_fields at 1. cbn [flat_map flatten_field fst snd]. rewrite app_nil_r, map_length. exact Hlen. }
    destruct hs as [|h hs].
    + eexists. split; [reflexivity|]. rewrite W, flatten_fields_app. reflexivity.
    + eexists. split; [reflexivity|]. rewrite W, flatten_fields_app. f_equal.
Qed.

(** ** num_leaves *)

(** No alias of a record. *)
Fixpoint no_record_alias (t : ty) : bool :=
  match t with
  | TRecord _ fs => forallb (fun f => no_record_alias (snd f)) fs
  | TAlias _ (TRecord _ _) => false
  | _ => true
  end.
Lemma num_leaves_flat : forall t, no_record_alias t = true -> num_leaves t = flat_size t.
Proof.
  induction t as [| | | | | |m fs IH|m t IH] using ty_rect'; intros H; try reflexivity.
  - cbn [num_leaves flat_size no_record_alias] in *. f_equal. apply map_ext_in. intros [n t] Hin.
    apply (proj1 (Forall_forall _ _) IH (n, t) Hin). rewrite forallb_forall in H. exact (H _ Hin).
  - destruct t; try reflexivity. discriminate H.
Qed.

(** ** Resolving keys *)

Definition prefix (a b : list N) : Prop := exists c, b = a ++ c.
(** No earlier sibling can be mistaken for the field named [n] at position [i]. *)
Definition clear (fs : list field) (i : nat) (n : list N) : Prop :=
  forall j n' t', j < i -> nth_error fs j = Some (n', t') -> ~ In dot n' /\ ~ prefix n n' /\ ~ prefix n' n.
Inductive clear_path : list field -> list nat -> Prop :=
| clear_last : forall fs i n t, nth_error fs i = Some (n, t) -> clear fs i n -> clear_path fs [i]
| clear_cons : forall fs i n m gs o, nth_error fs i = Some (n, TRecord m gs) -> clear fs i n -> clear_path gs o ->
    clear_path fs (i :: o).

Lemma mismatch_self : forall n rest, mismatch_name n (n ++ rest) = mm_prefix rest.
Proof. induction n as [|a n IH]; intros rest; [reflexivity|]. cbn. now rewrite N.eqb_refl. Qed.

Lemma mismatch_clear : forall n' n rest, (rest = [] \/ exists r, rest = dot :: r) ->
  ~ In dot n' -> ~ prefix n n' -> ~ prefix n' n -> mismatch_name n' (n ++ rest) = mm_no.
Proof.
  induction n' as [|a n' IH]; intros n rest Hr Hd H1 H2.
  - exfalso. apply H2. exists n. reflexivity.
  - destruct n as [|b n].
    + exfalso. apply H1. now exists (a :: n').
    + cbn [mismatch_name app]. destruct (N.eqb_spec a b) as [->|Hne]; [|reflexivity].
      apply IH; [exact Hr|intros X; apply Hd; now right| |].
      * intros [c ->]. apply H1. now exists c.
      * intros [c ->]. apply H2. now exists c.
Qed.

Lemma resolve_fields_skip : forall rec pre post n t i rest, (rest = [] \/ exists r, rest = dot :: r) ->
  (forall j n' t', nth_error pre j = Some (n', t') -> ~ In dot n' /\ ~ prefix n n' /\ ~ prefix n' n) ->
  resolve_fields rec (pre ++ (n, t) :: post) i (n ++ rest)
  = resolve_fields rec ((n, t) :: post) (i + length pre) (n ++ rest).
Proof.
  intros rec. induction pre as [|[n' t'] pre IH]; intros post n t i rest Hr H.
  - cbn [app length]. now rewrite Nat.add_0_r.
  - change (((n', t') :: pre) ++ (n, t) :: post) with ((n', t') :: (pre ++ (n, t) :: post)).
    cbn [resolve_fields]. destruct (H 0 n' t' eq_refl) as [A [B C]]. rewrite (mismatch_clear n' n rest Hr A B C).
    rewrite IH; [|exact Hr|intros j; apply (H (S j))]. cbn [length resolve_fields].
    now replace (S i + length pre) with (i + S (length pre)) by lia.
Qed.

Lemma resolve_key_leaf : forall fs o ns t, leaf_at fs o ns t -> clear_path fs o -> Forall (fun n => n <> []) ns ->
  forall m, resolve_key (TRecord m fs) (join ns) = Some (Some o).
Proof.
  induction 1 as [fs i n t E R|fs i n m gs o ns t E L IH]; intros C Hn m0;
    destruct (nth_error_split' _ _ _ _ E) as [Es El]; inversion Hn as [|? ? Hn1 Hn2]; subst.
  - inversion C as [? ? n' t' E' Cl|? ? ? ? ? ? E' Cl C']; subst; [|inversion C'].
    assert (n' = n) as -> by congruence. cbn [join].
    assert (G : resolve_fields resolve_key fs 0 (n ++ []) = Some (Some [i])).
    { rewrite Es. rewrite resolve_fields_skip; [| |].
      - cbn [resolve_fields]. rewrite mismatch_self, El. reflexivity.
      - now left.
      - intros j a b Hj. apply (Cl j a b).
        + rewrite <- El. apply nth_error_Some. congruence.
        + rewrite Es. rewrite nth_error_app1; [exact Hj|]. apply nth_error_Some. congruence. }
    rewrite app_nil_r in G. cbn [resolve_key]. destruct n; [congruence|exact G].
  - destruct (leaf_at_nonempty _ _ _ _ L) as [Ho Hns].
    inversion C as [? ? n' t' E' Cl|? ? n' m' gs' o' E' Cl C']; subst; [congruence|].
    assert (n' = n /\ gs' = gs) as [-> ->] by (rewrite E in E'; injection E'; auto).
    assert (J : join (n :: ns) = n ++ dot :: join ns) by (destruct ns; [congruence|reflexivity]). rewrite J.
    assert (G : resolve_fields resolve_key fs 0 (n ++ dot :: join ns) = Some (Some (i :: o))).
    { rewrite Es. rewrite resolve_fields_skip.
      - cbn [resolve_fields]. rewrite mismatch_self, El, (IH C' Hn2 m). reflexivity.
      - right. eauto.
      - intros j a b Hj. apply (Cl j a b).
        + rewrite <- El. apply nth_error_Some. congruence.
        + rewrite Es. rewrite nth_error_app1; [exact Hj|]. apply nth_error_Some. congruence. }
    cbn [resolve_key]. destruct n; [congruence|exact G].
Qed.

(** * Congruence *)

(** What is left of a type without names, attributes and aliases. *)
Inductive shape := SNone | SBasic (b : basic) | SEnum (n : nat) | SList (s : shape) | SMap (k v : shape) | SRecord (fs : list shape).
Fixpoint shape_of (t : ty) : shape :=
  match t with
  | TNull | TNone _ => SNone
  | TBasic _ b => SBasic b
  | TEnum _ fs => SEnum (length fs)
  | TList _ v => SList (shape_of v)
  | TMap _ k v => SMap (shape_of k) (shape_of v)
  | TRecord _ fs => SRecord (map (fun f => shape_of (snd f)) fs)
  | TAlias _ v => shape_of v
  end.

Lemma basic_eqb_eq : forall a b, basic_eqb a b = true <-> a = b.
Proof. intros [] []; cbn; split; intros H; (reflexivity || discriminate). Qed.

Lemma shape_strip : forall t, shape_of (strip t) = shape_of t /\ match strip t with TAlias _ _ => False | _ => True end.
Proof. induction t; cbn; auto. Qed.

Lemma eqs_shapes : forall (fs gs : list field),
  Forall (fun f : field => forall y, congruent (snd f) y = true <-> shape_of (snd f) = shape_of y) fs ->
  (eqs (fun p q => congruent (snd p) (snd q)) fs gs = true <->
   map (fun f : field => shape_of (snd f)) fs = map (fun f : field => shape_of (snd f)) gs).
Proof.
  induction fs as [|f fs IH]; intros [|g gs] H; cbn [eqs map]; try (split; intros; (reflexivity || discriminate)).
  inversion H as [|? ? H1 H2]; subst. rewrite andb_true_iff, H1, (IH gs H2). split.
  - intros [-> ->]. reflexivity.
  - intros E. injection E as -> ->. auto.
Qed.

Lemma congruent_shape : forall x y, congruent x y = true <-> shape_of x = shape_of y.
Proof.
  induction x as [|m|m b|m fs|m t IH|m k v IH1 IH2|m fs IH|m t IH] using ty_rect'; intros y;
    try (cbn [congruent shape_of]; apply IH);
    destruct (shape_strip y) as [E Na]; rewrite <- E; cbn [congruent shape_of];
    destruct (strip y) as [|n|n c|n gs|n u|n k' v'|n gs|n u]; try contradiction; cbn [shape_of];
    try (split; intros; (reflexivity || discriminate)).
  - rewrite basic_eqb_eq. split; [intros ->; reflexivity|intros Q; now injection Q].
  - rewrite Nat.eqb_eq. split; [intros ->; reflexivity|intros Q; now injection Q].
  - rewrite IH. split; [intros ->; reflexivity|intros Q; now injection Q].
  - rewrite andb_true_iff, IH1, IH2. split; [intros [-> ->]; reflexivity|intros Q; now injection Q].
  - rewrite (eqs_shapes fs gs IH). split; [intros ->; reflexivity|intros Q; now injection Q].
Qed.

(** * Equality of types *)

Lemma bytes_eqb_iff : forall xs ys, bytes_eqb xs ys = true <-> xs = ys.
Proof.
  intros xs ys. split; [apply bytes_eqb_eq'|]. intros <-. induction xs as [|x xs IH]; [reflexivity|]. cbn. now rewrite N.eqb_refl.
Qed.

Lemma eqs_eq : forall A (f : A -> A -> bool) xs ys, Forall (fun x => forall y, f x y = true <-> x = y) xs ->
  (eqs f xs ys = true <-> xs = ys).
Proof.
  intros A f. induction xs as [|x xs IH]; intros [|y ys] H; cbn [eqs]; try (split; intros; (reflexivity || discriminate)).
  inversion H as [|? ? H1 H2]; subst. rewrite andb_true_iff, H1, (IH ys H2). split; [intros [-> ->]; reflexivity|intros Q; injection Q as -> ->; auto].
Qed.
Lemma meta_eqb_eq : forall m n, meta_eqb m n = true <-> m = n.
Proof.
  intros [a x] [b y]. unfold meta_eqb. cbn [m_name m_attrs]. rewrite andb_true_iff, bytes_eqb_iff.
  rewrite eqs_eq.
  - split; [intros [-> ->]; reflexivity|intros Q; injection Q as -> ->; auto].
  - apply Forall_forall. intros [k v] _ [k' v']. unfold attr_eqb. cbn [fst snd]. rewrite andb_true_iff, bytes_eqb_iff.
    destruct v as [v|], v' as [v'|]; cbn [opt_eqb]; rewrite ?bytes_eqb_iff; split; intros Q;
      try (destruct Q as [-> Q]; congruence || discriminate Q); try (injection Q as -> ->); try (injection Q as ->); auto; discriminate.
Qed.
Lemma ty_eqb_eq : forall x y, ty_eqb x y = true <-> x = y.
Proof.
  induction x as [|m|m b|m fs|m t IH|m k v IH1 IH2|m fs IH|m t IH] using ty_rect'; intros y; destruct y as [|n|n c|n gs|n u|n k' v'|n gs|n u];
    cbn [ty_eqb]; try (split; intros; (reflexivity || discriminate)); rewrite ?andb_true_iff, ?meta_eqb_eq.
  - split; [intros ->; reflexivity|intros Q; now injection Q].
  - rewrite basic_eqb_eq. split; [intros [-> ->]; reflexivity|intros Q; injection Q as -> ->; auto].
  - rewrite eqs_eq; [|apply Forall_forall; intros; apply bytes_eqb_iff].
    split; [intros [-> ->]; reflexivity|intros Q; injection Q as -> ->; auto].
  - rewrite IH. split; [intros [-> ->]; reflexivity|intros Q; injection Q as -> ->; auto].
  - rewrite IH1, IH2. split; [intros [[-> ->] ->]; reflexivity|intros Q; injection Q as -> -> ->; auto].
  - rewrite eqs_eq.
    + split; [intros [-> ->]; reflexivity|intros Q; injection Q as -> ->; auto].
    + eapply Forall_impl; [|exact IH]. intros [a t] H [b u]. cbn [fst snd] in *. rewrite andb_true_iff, bytes_eqb_iff, H.
      split; [intros [-> ->]; reflexivity|intros Q; injection Q as -> ->; auto].
  - rewrite IH. split; [intros [-> ->]; reflexivity|intros Q; injection Q as -> ->; auto].
Qed.

(** * Order of the leaves *)

(** [o] comes before [o']: at the first difference its position is smaller. *)
Inductive before : list nat -> list nat -> Prop :=
| before_here : forall i j o o', i < j -> before (i :: o) (j :: o')
| before_below : forall i o o', before o o' -> before (i :: o) (i :: o').

Lemma left_sum : forall (fs : list field) i n t, nth_error fs i = Some (n, t) -> forall j, i < j ->
  list_sum (map (fun f => flat_size (snd f)) (firstn i fs)) + flat_size t
  <= list_sum (map (fun f => flat_size (snd f)) (firstn j fs)).
Proof.
  induction fs as [|[a u] fs IH]; intros i n t H j Hj; [destruct i; discriminate|].
  destruct j as [|j]; [lia|]. destruct i as [|i]; cbn [firstn map list_sum fold_right snd nth_error] in *.
  - injection H as -> ->. lia.
  - assert (Q := IH i n t H j ltac:(lia)). unfold list_sum in Q. lia.
Qed.

Lemma flat_index_range : forall fs i o k n t, nth_error fs i = Some (n, t) -> flat_index_at fs (i :: o) = Some k ->
  let left := list_sum (map (fun f => flat_size (snd f)) (firstn i fs)) in left <= k < left + flat_size t.
Proof.
  intros fs i o k n t E H left. cbn [flat_index_at] in H. rewrite E in H. fold left in H. destruct o as [|j o].
  - destruct t; try discriminate H; injection H as <-; cbn; lia.
  - destruct t as [| | | | | |m gs|]; try discriminate H. destruct (flat_index_at gs (j :: o)) as [k'|] eqn:Ek; [|discriminate].
    injection H as <-. apply flat_index_bound in Ek. rewrite leaf_list_length in Ek. cbn [flat_size]. lia.
Qed.

Lemma flat_index_order : forall o fs k o' k', flat_index_at fs o = Some k -> flat_index_at fs o' = Some k' ->
  before o o' -> k < k'.
Proof.
  induction o as [|i o IH]; intros fs k o' k' H H' B; [discriminate|].
  inversion B as [? j ? o'' Hij|? ? o'' B']; subst.
  - assert (exists n t, nth_error fs i = Some (n, t)) as [n [t E]].
    { cbn [flat_index_at] in H. destruct (nth_error fs i) as [[n t]|]; [eauto|discriminate]. }
    assert (exists n t, nth_error fs j = Some (n, t)) as [n' [t' E']].
    { cbn [flat_index_at] in H'. destruct (nth_error fs j) as [[n' t']|]; [eauto|discriminate]. }
    pose proof (flat_index_range _ _ _ _ _ _ E H) as R. pose proof (flat_index_range _ _ _ _ _ _ E' H') as R'.
    pose proof (left_sum fs i n t E j Hij). cbv zeta in *. lia.
  - cbn [flat_index_at] in H, H'. destruct (nth_error fs i) as [[n t]|]; [|discriminate].
    destruct o as [|a o]; [inversion B'|]. destruct o'' as [|b o'']; [inversion B'|].
    destruct t as [| | | | | |m gs|]; try discriminate.
    destruct (flat_index_at gs (a :: o)) as [x|] eqn:Ex; [|discriminate]. injection H as <-.
    destruct (flat_index_at gs (b :: o'')) as [y|] eqn:Ey; [|discriminate]. injection H' as <-.
    pose proof (IH gs x (b :: o'') y Ex Ey B'). lia.
Qed.
Lemma before_total : forall fs o k o' k', flat_index_at fs o = Some k -> flat_index_at fs o' = Some k' -> o = o' \/ before o o' \/ before o' o.
Proof.
  intros fs o. revert fs. induction o as [|i o IH]; intros fs k o' k' H H'; [discriminate|].
  destruct o' as [|j o']; [discriminate|].
  destruct (Nat.lt_trichotomy i j) as [L|[<-|L]]; [right; left; now constructor| |right; right; now constructor].
  cbn [flat_index_at] in H, H'. destruct (nth_error fs i) as [[n t]|]; [|discriminate].
  destruct o as [|a o].
  - destruct t, o'; try discriminate; auto.
  - destruct t as [| | | | | |m gs|]; try discriminate. destruct o' as [|b o']; [discriminate|].
    destruct (flat_index_at gs (a :: o)) as [x|] eqn:Ex; [|discriminate].
    destruct (flat_index_at gs (b :: o')) as [y|] eqn:Ey; [|discriminate].
    destruct (IH gs x (b :: o') y Ex Ey) as [->|[B|B]]; auto; right; [left|right]; now constructor.
Qed.
Lemma flat_index_order_iff : forall fs o k o' k', flat_index_at fs o = Some k -> flat_index_at fs o' = Some k' ->
  (k < k' <-> before o o').
Proof.
  intros fs o k o' k' H H'. split; [|eapply flat_index_order; eauto]. intros L.
  destruct (before_total _ _ _ _ _ H H') as [->|[B|B]]; [|exact B|].
  - assert (k = k') by congruence. lia.
  - pose proof (flat_index_order _ _ _ _ _ H' H B). lia.
Qed.
