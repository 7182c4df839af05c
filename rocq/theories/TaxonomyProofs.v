(** Proofs about concepts and models. *)
From Coq Require Import List NArith Bool Arith Lia.
From Verif Require Import OperatorModel AddressModel DataModel TypeModel TypeProofs ExpressionModel ExpressionProofs TaxonomyModel.
Import ListNotations.
Open Scope nat_scope.

Lemma mem_name_iff : forall x xs, mem_name x xs = true <-> In x xs.
Proof.
  intros x xs. unfold mem_name. rewrite existsb_exists. split.
  - intros (y & H & E). apply bytes_eqb_iff in E. subst. assumption.
  - intros H. exists x. split; [assumption|]. apply bytes_eqb_iff. reflexivity.
Qed.
Lemma mem_name_not : forall x xs, mem_name x xs = false <-> ~ In x xs.
Proof. intros x xs. rewrite <- mem_name_iff. destruct (mem_name x xs); split; intros; congruence. Qed.
Lemma bytes_eqb_refl' : forall x, bytes_eqb x x = true.
Proof. intros x. apply bytes_eqb_iff. reflexivity. Qed.
Lemma name_dec : forall x y : list N, {x = y} + {x <> y}.
Proof. apply list_eq_dec. apply N.eq_dec. Qed.
Lemma find_key_in : forall {A} k (m : list (list N * A)) a, find_key k m = Some a -> In k (map fst m).
Proof.
  induction m as [|[k' a'] m IH]; intros a H; cbn in *; [discriminate|]. destruct (bytes_eqb k' k) eqn:E.
  - left. apply bytes_eqb_iff. assumption.
  - right. eapply IH. eassumption.
Qed.

(** * Definitions *)

Lemma find_update : forall {A} (e : A) k f m k', find_key k' (update e k f m) =
  if bytes_eqb k k' then Some (f (match find_key k m with Some a => a | None => e end)) else find_key k' m.
Proof.
  induction m as [|[k0 a] m IH]; intros k'; cbn [update find_key].
  - reflexivity.
  - destruct (bytes_eqb k0 k) eqn:E0.
    + apply bytes_eqb_iff in E0. subst k0. cbn [find_key]. destruct (bytes_eqb k k'); reflexivity.
    + cbn [find_key]. rewrite IH. destruct (bytes_eqb k0 k') eqn:E1; [|reflexivity]. destruct (bytes_eqb k k') eqn:E2; [|reflexivity].
      apply bytes_eqb_iff in E1, E2. subst. rewrite bytes_eqb_refl' in E0. discriminate.
Qed.
Lemma add_fields_spec : forall fs c, (forall f, In f (c_fields (add_fields fs c)) <-> In f (c_fields c) \/ In f fs) /\ c_concepts (add_fields fs c) = c_concepts c.
Proof.
  induction fs as [|x fs IH]; intros c; [cbn; split; [tauto|reflexivity]|]. unfold add_fields in *. cbn [fold_left].
  destruct (mem_name x (c_fields c)) eqn:E.
  - destruct (IH c) as [H1 H2]. split; [|assumption]. intros f. rewrite H1. cbn. apply mem_name_iff in E. split; [tauto|]. intros [H|[<-|H]]; auto.
  - destruct (IH {| c_fields := c_fields c ++ [x]; c_concepts := c_concepts c |}) as [H1 H2]. split; [|assumption].
    intros f. rewrite H1. cbn. rewrite in_app_iff. cbn. tauto.
Qed.
Lemma add_concepts_spec : forall ns c, c_fields (add_concepts ns c) = c_fields c /\
  forall n, In n (c_concepts (add_concepts ns c)) <-> In n (c_concepts c) \/ In n ns /\ ~ In n (c_fields c).
Proof.
  induction ns as [|x ns IH]; intros c; [cbn; split; [reflexivity|tauto]|]. unfold add_concepts in *. cbn [fold_left].
  destruct (mem_name x (c_fields c)) eqn:E.
  - apply mem_name_iff in E. destruct (IH c) as [H1 H2]. split; [assumption|]. intros n. rewrite H2. cbn. split; [tauto|].
    intros [H|[ [<-|H] H3] ]; tauto.
  - apply mem_name_not in E. destruct (IH {| c_fields := c_fields c; c_concepts := c_concepts c ++ [x] |}) as [H1 H2]. split; [assumption|].
    intros n. rewrite H2. cbn. rewrite in_app_iff. cbn. split; [intros [ [H|[<-|[]] ]|H]; tauto|]. intros [H|[ [<-|H] H3] ]; tauto.
Qed.
(** An item of a schema file that defines a concept. *)
Definition definition (d : data) (n : list N) (fs ns : list (list N)) : Prop :=
  exists xs ys, d = DRecord xs /\ find_key k_concept xs = Some (DRecord ys) /\ find_key k_name ys = Some (DString n) /\
    strings_at k_fields ys = Some fs /\ strings_at k_concepts ys = Some ns.
Definition has_field (m : concepts_map) (n f : list N) : Prop := exists c, find_key n m = Some c /\ In f (c_fields c).
Definition has_concept (m : concepts_map) (n f : list N) : Prop := exists c, find_key n m = Some c /\ In f (c_concepts c).

Lemma extract_items_spec : forall ds out m, extract_items ds out = Some m ->
  (forall n f, has_field m n f <-> has_field out n f \/ exists d fs ns, In d ds /\ definition d n fs ns /\ In f fs) /\
  (forall n k, has_concept m n k -> has_concept out n k \/ exists d fs ns, In d ds /\ definition d n fs ns /\ In k ns) /\
  (forall n k, has_concept out n k \/ (exists d fs ns, In d ds /\ definition d n fs ns /\ In k ns) -> has_field m n k \/ has_concept m n k).
Proof.
  induction ds as [|d ds IH]; intros out m E; cbn [extract_items] in E.
  - inversion E; subst. repeat split; intros; try tauto.
    + destruct H as [H|(d & _ & _ & [] & _)]. assumption.
    + destruct H as [H|(d & _ & _ & [] & _)]. right. assumption.
  - assert (extract_items ds out = Some m -> (forall n fs ns, ~ definition d n fs ns) ->
      (forall n f, has_field m n f <-> has_field out n f \/ exists d' fs ns, In d' (d :: ds) /\ definition d' n fs ns /\ In f fs) /\
      (forall n k, has_concept m n k -> has_concept out n k \/ exists d' fs ns, In d' (d :: ds) /\ definition d' n fs ns /\ In k ns) /\
      (forall n k, has_concept out n k \/ (exists d' fs ns, In d' (d :: ds) /\ definition d' n fs ns /\ In k ns) -> has_field m n k \/ has_concept m n k)) as Skip.
    { intros E' Hn. destruct (IH out m E') as (I1 & I2 & I3). split; [|split].
      - intros n f. rewrite I1. split; (intros [H|(d' & fs & ns & H1 & H2 & H3)]; [left; assumption|]).
        + right. exists d', fs, ns. cbn. auto.
        + destruct H1 as [<-|H1]; [exfalso; eapply Hn; eassumption|]. right. exists d', fs, ns. auto.
      - intros n k H. destruct (I2 n k H) as [H'|(d' & fs & ns & H1 & H2 & H3)]; [left; assumption|]. right. exists d', fs, ns. cbn. auto.
      - intros n k [H|(d' & fs & ns & H1 & H2 & H3)]; [apply I3; left; assumption|]. destruct H1 as [<-|H1]; [exfalso; eapply Hn; eassumption|].
        apply I3. right. exists d', fs, ns. auto. }
    destruct d; try (apply Skip; [assumption|]; intros ? ? ? (? & ? & H & _); discriminate).
    destruct (find_key k_concept xs) as [cd|] eqn:Ek.
    2:{ apply Skip; [assumption|]. intros n fs ns (xs' & ys & H & Hk & _). inversion H; subst. congruence. }
    destruct (convert_concept cd out) as [out'|] eqn:Ec; [|discriminate]. clear Skip. destruct (IH out' m E) as (I1 & I2 & I3). clear IH E.
    unfold convert_concept in Ec. destruct cd; try discriminate. rename xs0 into ys.
    destruct (find_key k_name ys) as [ [ | | | | | | |n0| | | | | | | ]|] eqn:En; try discriminate.
    destruct (strings_at k_fields ys) as [fs0|] eqn:Ef; [|discriminate]. destruct (strings_at k_concepts ys) as [ns0|] eqn:Es; [|discriminate].
    inversion Ec; subst out'. clear Ec.
    assert (definition (DRecord xs) n0 fs0 ns0) as D0 by (exists xs, ys; auto).
    assert (forall n fs ns, definition (DRecord xs) n fs ns -> n = n0 /\ fs = fs0 /\ ns = ns0) as D1.
    { intros n fs ns (xs' & ys' & H & H1 & H2 & H3 & H4). inversion H; subst xs'. rewrite Ek in H1. inversion H1; subst ys'. rewrite En in H2. inversion H2.
      rewrite Ef in H3. rewrite Es in H4. inversion H3. inversion H4. auto. }
    set (old := match find_key n0 out with Some a => a | None => {| c_fields := []; c_concepts := [] |} end) in *.
    assert (forall n, find_key n (update {| c_fields := []; c_concepts := [] |} n0 (fun c => add_concepts ns0 (add_fields fs0 c)) out) =
      if bytes_eqb n0 n then Some (add_concepts ns0 (add_fields fs0 old)) else find_key n out) as U by (intros n; rewrite find_update; reflexivity).
    set (out1 := update {| c_fields := []; c_concepts := [] |} n0 (fun c => add_concepts ns0 (add_fields fs0 c)) out) in *.
    destruct (add_fields_spec fs0 old) as [A1 A2]. destruct (add_concepts_spec ns0 (add_fields fs0 old)) as [B1 B2].
    assert (forall f, In f (c_fields old) <-> has_field out n0 f) as O1.
    { intros f. unfold old, has_field. destruct (find_key n0 out) as [c|]; cbn; split; try tauto.
      - intros H. exists c. auto.
      - intros (c' & H & H'). inversion H; subst. assumption.
      - intros (c' & H & _). discriminate. }
    assert (forall f, In f (c_concepts old) <-> has_concept out n0 f) as O2.
    { intros f. unfold old, has_concept. destruct (find_key n0 out) as [c|]; cbn; split; try tauto.
      - intros H. exists c. auto.
      - intros (c' & H & H'). inversion H; subst. assumption.
      - intros (c' & H & _). discriminate. }
    assert (forall n f, has_field out1 n f <-> has_field out n f \/ (n = n0 /\ In f fs0)) as F1.
    { intros n f. unfold has_field at 1. rewrite U. destruct (bytes_eqb n0 n) eqn:Eb.
      - apply bytes_eqb_iff in Eb. subst n. rewrite <- O1. split.
        + intros (c & H & H'). inversion H; subst. rewrite B1, A1 in H'. tauto.
        + intros H. eexists. split; [reflexivity|]. rewrite B1, A1. tauto.
      - split; [intros H; left; exact H|]. intros [H|[-> H] ]; [exact H|]. rewrite bytes_eqb_refl' in Eb. discriminate. }
    assert (forall n k, has_concept out1 n k <-> has_concept out n k \/ (n = n0 /\ In k ns0 /\ ~ has_field out1 n k)) as F2.
    { intros n k. unfold has_concept at 1. rewrite U. destruct (bytes_eqb n0 n) eqn:Eb.
      - apply bytes_eqb_iff in Eb. subst n. rewrite <- O2.
        assert (In k (c_fields (add_fields fs0 old)) <-> has_field out1 n0 k) as F3.
        { rewrite F1, A1, O1. tauto. }
        rewrite <- F3. split.
        + intros (c & H & H'). inversion H; subst. apply B2 in H'. rewrite A2 in H'. tauto.
        + intros H. eexists. split; [reflexivity|]. apply B2. rewrite A2. tauto.
      - split; [intros H; left; exact H|]. intros [H|[-> H] ]; [exact H|]. rewrite bytes_eqb_refl' in Eb. discriminate. }
    split; [|split].
    + intros n f. rewrite I1, F1. split.
      * intros [ [H|[-> H] ]|(d' & fs & ns & H1 & H2 & H3)]; [left; assumption| |].
        -- right. exists (DRecord xs), fs0, ns0. cbn. auto.
        -- right. exists d', fs, ns. cbn. auto.
      * intros [H|(d' & fs & ns & [<-|H1] & H2 & H3)]; [auto| |].
        -- destruct (D1 _ _ _ H2) as (-> & -> & ->). auto.
        -- right. exists d', fs, ns. auto.
    + intros n k H. destruct (I2 n k H) as [H'|(d' & fs & ns & H1 & H2 & H3)].
      * apply F2 in H' as [H'|(-> & H' & _)]; [auto|]. right. exists (DRecord xs), fs0, ns0. cbn. auto.
      * right. exists d', fs, ns. cbn. auto.
    + intros n k H.
      assert (has_field out1 n k \/ has_concept out1 n k \/ exists d' fs ns, In d' ds /\ definition d' n fs ns /\ In k ns) as G.
      { destruct H as [H|(d' & fs & ns & [<-|H1] & H2 & H3)].
        - right. left. apply F2. left. assumption.
        - destruct (D1 _ _ _ H2) as (-> & -> & ->).
          destruct (in_dec name_dec k (c_fields (add_fields fs0 old))) as [Hin|Hout].
          + left. apply F1. apply A1 in Hin. rewrite O1 in Hin. tauto.
          + right. left. apply F2. right. split; [reflexivity|]. split; [assumption|]. intros Hf. apply Hout. apply A1. apply F1 in Hf. rewrite O1. tauto.
        - right. right. exists d', fs, ns. auto. }
      destruct G as [G|[G|G] ]; [left; apply I1; left; assumption| |]; apply I3; auto.
Qed.

(** * [resolve_concepts] *)

(** The fields that a name stands for: itself if it is not a concept; otherwise the fields of the
    concept, and what the names of the referenced concepts stand for. *)
Inductive stands_for (cs : concepts_map) : list N -> list N -> Prop :=
| sf_self : forall n, find_key n cs = None -> stands_for cs n n
| sf_field : forall n c f, find_key n cs = Some c -> In f (c_fields c) -> stands_for cs n f
| sf_nested : forall n c k f, find_key n cs = Some c -> In k (c_concepts c) -> stands_for cs k f -> stands_for cs n f.

Lemma fold_sound : forall cs l ns st f,
  (forall n st f, In f (snd (try_resolve cs l n st)) -> In f (snd st) \/ stands_for cs n f) ->
  In f (snd (fold_left (fun st n => try_resolve cs l n st) ns st)) -> In f (snd st) \/ exists n, In n ns /\ stands_for cs n f.
Proof.
  induction ns as [|n ns IH]; intros st f H Hin; [left; exact Hin|]. cbn [fold_left] in Hin.
  apply IH in Hin; [|assumption]. destruct Hin as [Hin|(k & Hk & Hs)].
  - apply H in Hin as [Hin|Hin]; [left; assumption|]. right. exists n. cbn. auto.
  - right. exists k. cbn. auto.
Qed.
Lemma try_sound : forall cs l n st f, In f (snd (try_resolve cs l n st)) -> In f (snd st) \/ stands_for cs n f.
Proof.
  induction l as [|l IH]; intros n st f H; cbn [try_resolve] in H; [left; assumption|].
  destruct (find_key n cs) as [c|] eqn:E.
  - destruct (mem_name n (fst st)); [left; assumption|]. apply fold_sound in H; [|exact IH]. cbn [snd] in H. destruct H as [H|(k & Hk & Hs)].
    + apply in_app_iff in H as [H|H]; [left; assumption|]. right. eapply sf_field; eassumption.
    + right. eapply sf_nested; eassumption.
  - cbn in H. apply in_app_iff in H as [H|[<-|[]]]; [left; assumption|]. right. apply sf_self. assumption.
Qed.

Definition unvisited (cs : concepts_map) (V : list (list N)) : nat := length (filter (fun k => negb (mem_name k V)) (map fst cs)).
Lemma filter_le : forall {A} (f g : A -> bool) l, (forall x, f x = true -> g x = true) -> length (filter f l) <= length (filter g l).
Proof.
  induction l as [|x l IH]; intros H; [cbn; lia|]. cbn. specialize (IH H). destruct (f x) eqn:E; [rewrite (H x E); cbn; lia|]. destruct (g x); cbn; lia.
Qed.
Lemma filter_lt : forall {A} (f g : A -> bool) l x, (forall x, f x = true -> g x = true) -> In x l -> f x = false -> g x = true -> length (filter f l) < length (filter g l).
Proof.
  induction l as [|y l IH]; intros x H Hin Hf Hg; [destruct Hin|]. cbn. destruct Hin as [<-|Hin].
  - rewrite Hf, Hg. cbn. pose proof (filter_le f g l H). lia.
  - specialize (IH x H Hin Hf Hg). destruct (f y) eqn:E; [rewrite (H y E); cbn; lia|]. destruct (g y); cbn; lia.
Qed.
Lemma unvisited_mono : forall cs V V', incl V V' -> unvisited cs V' <= unvisited cs V.
Proof.
  intros cs V V' H. apply filter_le. intros x Hx. apply negb_true_iff in Hx. apply negb_true_iff. apply mem_name_not. apply mem_name_not in Hx. auto.
Qed.
Lemma unvisited_cons : forall cs V n, In n (map fst cs) -> ~ In n V -> unvisited cs (n :: V) < unvisited cs V.
Proof.
  intros cs V n H1 H2. eapply filter_lt; [|exact H1| |].
  - intros x Hx. apply negb_true_iff in Hx. apply negb_true_iff. apply mem_name_not. apply mem_name_not in Hx. cbn in Hx. tauto.
  - apply negb_false_iff. apply mem_name_iff. left. reflexivity.
  - apply negb_true_iff. apply mem_name_not. assumption.
Qed.

(** A name has been dealt with. *)
Definition handled (cs : concepts_map) (st : list (list N) * list (list N)) (n : list N) : Prop :=
  match find_key n cs with Some _ => In n (fst st) | None => In n (snd st) end.
Definition grown (st st' : list (list N) * list (list N)) : Prop := incl (fst st) (fst st') /\ incl (snd st) (snd st').
Lemma handled_grown : forall cs st st' n, grown st st' -> handled cs st n -> handled cs st' n.
Proof. intros cs st st' n [H1 H2]. unfold handled. destruct (find_key n cs); auto. Qed.
(** A concept and all it refers to have been dealt with. *)
Definition finished (cs : concepts_map) (st : list (list N) * list (list N)) (n : list N) : Prop :=
  exists c, find_key n cs = Some c /\ incl (c_fields c) (snd st) /\ Forall (handled cs st) (c_concepts c).
Lemma finished_grown : forall cs st st' n, grown st st' -> finished cs st n -> finished cs st' n.
Proof.
  intros cs st st' n G (c & H1 & H2 & H3). exists c. split; [assumption|]. split.
  - intros x Hx. apply G. apply H2. assumption.
  - eapply Forall_impl; [|exact H3]. intros k. apply handled_grown. assumption.
Qed.
Lemma grown_trans : forall a b c, grown a b -> grown b c -> grown a c.
Proof. intros a b c [H1 H2] [H3 H4]. split; eapply incl_tran; eassumption. Qed.
Lemma grown_refl : forall a, grown a a.
Proof. intros. split; apply incl_refl. Qed.

Lemma try_complete : forall cs l n st, unvisited cs (fst st) < l ->
  let st' := try_resolve cs l n st in
  grown st st' /\ handled cs st' n /\ (forall k, In k (fst st') -> ~ In k (fst st) -> finished cs st' k).
Proof.
  induction l as [|l IH]; intros n st H; [lia|]. cbn [try_resolve]. destruct (find_key n cs) as [c|] eqn:E.
  - destruct (mem_name n (fst st)) eqn:M.
    + split; [apply grown_refl|]. split; [unfold handled; rewrite E; apply mem_name_iff; assumption|]. intros; contradiction.
    + apply mem_name_not in M. set (st0 := (n :: fst st, snd st ++ c_fields c)).
      assert (forall ns st1, grown st0 st1 -> let st2 := fold_left (fun st n' => try_resolve cs l n' st) ns st1 in
        grown st1 st2 /\ Forall (handled cs st2) ns /\ (forall k, In k (fst st2) -> ~ In k (fst st1) -> finished cs st2 k)) as F.
      { induction ns as [|k ns IHns]; intros st1 G; cbn [fold_left].
        - split; [apply grown_refl|]. split; [constructor|]. intros; contradiction.
        - destruct (IH k st1) as (G1 & H1 & F1).
          { pose proof (find_key_in _ _ _ E). pose proof (unvisited_cons cs (fst st) n H0 M).
            pose proof (unvisited_mono cs (fst st0) (fst st1) (proj1 G)). cbn [st0 fst] in *. lia. }
          destruct (IHns (try_resolve cs l k st1)) as (G2 & H2 & F2); [eapply grown_trans; eassumption|]. split; [eapply grown_trans; eassumption|]. split.
          + constructor; [eapply handled_grown; eassumption|assumption].
          + intros x Hx Hn. destruct (in_dec name_dec x (fst (try_resolve cs l k st1))) as [Hin|Hout].
            * eapply finished_grown; [exact G2|]. apply F1; assumption.
            * apply F2; assumption. }
      destruct (F (c_concepts c) st0 (grown_refl _)) as (G & Hc & Hf). set (st' := fold_left _ _ _) in *.
      assert (grown st st0) as G0 by (split; cbn; [apply incl_tl, incl_refl|apply incl_appl, incl_refl]).
      split; [eapply grown_trans; eassumption|]. split; [unfold handled; rewrite E; apply G; left; reflexivity|].
      intros k Hk Hn. destruct (name_dec k n) as [->|Hne].
      * exists c. split; [assumption|]. split; [|assumption]. intros x Hx. apply G. cbn. apply in_app_iff. auto.
      * apply Hf; [assumption|]. cbn. intros [->|Hk']; contradiction.
  - split; [split; cbn; [apply incl_refl|apply incl_appl, incl_refl]|]. split; [unfold handled; rewrite E; cbn; apply in_app_iff; cbn; auto|].
    intros; contradiction.
Qed.
Lemma resolve_complete : forall cs ns st, length cs < max_recursion -> (forall k, In k (fst st) -> finished cs st k) ->
  let st' := fold_left (fun st n => try_resolve cs max_recursion n st) ns st in
  (forall k, In k (fst st') -> finished cs st' k) /\ Forall (handled cs st') ns /\ grown st st'.
Proof.
  intros cs ns. induction ns as [|n ns IH]; intros st L F; cbn [fold_left]; [split; [assumption|]; split; [constructor|apply grown_refl]|].
  destruct (try_complete cs max_recursion n st) as (G1 & H1 & F1).
  { unfold unvisited. pose proof (filter_le (fun k => negb (mem_name k (fst st))) (fun _ => true) (map fst cs) (fun _ _ => eq_refl)) as Hle.
    assert (length (filter (fun _ : list N => true) (map fst cs)) <= length cs) as Hlen.
    { rewrite <- (map_length fst cs). clear. induction (map fst cs); cbn; lia. }
    lia. }
  destruct (IH (try_resolve cs max_recursion n st) L) as (F2 & H2 & G2).
  { intros k Hk. destruct (in_dec name_dec k (fst st)) as [Hin|Hout]; [eapply finished_grown; [exact G1|apply F; assumption]|apply F1; assumption]. }
  split; [assumption|]. split; [constructor; [eapply handled_grown; eassumption|assumption]|eapply grown_trans; eassumption].
Qed.
Lemma closed_stands : forall cs st, (forall k, In k (fst st) -> finished cs st k) -> forall n f, stands_for cs n f -> handled cs st n -> In f (snd st).
Proof.
  intros cs st F n f H. induction H as [n E|n c f E Hf|n c k f E Hk Hs IH]; intros Hd; unfold handled in Hd; rewrite E in Hd.
  - assumption.
  - destruct (F n Hd) as (c' & E' & Hi & _). rewrite E in E'. inversion E'; subst. apply Hi. assumption.
  - destruct (F n Hd) as (c' & E' & _ & Hc). rewrite E in E'. inversion E'; subst. apply IH. rewrite Forall_forall in Hc. auto.
Qed.

(** * The fields that replace a concept in a query *)

Lemma push_in : forall xs acc x, In x (fold_left push_name xs acc) <-> In x acc \/ In x xs.
Proof.
  induction xs as [|y xs IH]; intros acc x; [cbn; tauto|]. cbn [fold_left]. rewrite IH. unfold push_name. destruct (mem_name y acc) eqn:E.
  - apply mem_name_iff in E. cbn. split; [tauto|]. intros [H|[<-|H]]; auto.
  - rewrite in_app_iff. cbn. tauto.
Qed.
Lemma push_nodup : forall xs acc, NoDup acc -> NoDup (fold_left push_name xs acc).
Proof.
  induction xs as [|y xs IH]; intros acc H; [assumption|]. cbn [fold_left]. apply IH. unfold push_name. destruct (mem_name y acc) eqn:E; [assumption|].
  apply mem_name_not in E. clear IH. induction acc as [|z acc IHa]; [repeat constructor; auto|]. inversion H; subst. cbn. constructor.
  - rewrite in_app_iff. cbn in *. intros [Hz|[->|[]]]; tauto.
  - apply IHa; cbn in E; tauto.
Qed.
Lemma load_in : forall st c, (forall n, In n (fst (load st c)) <-> In n (fst st) \/ In n (c_concepts c)) /\
  (forall f, In f (snd (load st c)) <-> In f (snd st) \/ In f (c_fields c)).
Proof. intros. split; intros; apply push_in. Qed.
Lemma logged_in : forall cs ns st,
  (forall k, In k (fst (fold_left (load_logged cs) ns st)) <-> In k (fst st) \/ exists n, In n ns /\ has_concept cs n k) /\
  (forall f, In f (snd (fold_left (load_logged cs) ns st)) <-> In f (snd st) \/ exists n, In n ns /\ has_field cs n f).
Proof.
  induction ns as [|n ns IH]; intros st; cbn [fold_left].
  - split; intros; (split; [tauto|]); intros [H|(n & [] & _)]; assumption.
  - destruct (IH (load_logged cs st n)) as [I1 I2]. unfold load_logged in *. destruct (find_key n cs) as [c|] eqn:E.
    + destruct (load_in st c) as [L1 L2]. split; intros x; [rewrite I1, L1|rewrite I2, L2]; (split; [intros [ [H|H]|(m & H1 & H2)]|intros [H|(m & [<-|H1] & H2)]]); auto.
      all: try (right; exists n; split; [left; reflexivity|]; exists c; auto; fail).
      all: try (right; exists m; split; [right; assumption|assumption]).
      * destruct H2 as (c' & E' & H2). rewrite E in E'. inversion E'; subst. auto.
      * right. exists m. auto.
      * destruct H2 as (c' & E' & H2). rewrite E in E'. inversion E'; subst. auto.
      * right. exists m. auto.
    + split; intros x; [rewrite I1|rewrite I2]; (split; [intros [H|(m & H1 & H2)]|intros [H|(m & [<-|H1] & H2)]]); auto.
      all: try (right; exists m; split; [right; assumption|assumption]).
      all: try (destruct H2 as (c' & E' & _); congruence).
      all: right; exists m; auto.
Qed.
Lemma target_in : forall cs c f, In f (target_fields cs c) <-> In f (c_fields c) \/ exists n, In n (c_concepts c) /\ has_field cs n f.
Proof.
  intros cs c f. unfold target_fields, load_all. destruct (logged_in cs (fst (load ([], []) c)) (load ([], []) c)) as [_ H]. rewrite H.
  destruct (load_in ([], []) c) as [L1 L2]. rewrite L2. cbn [fst snd]. split.
  - intros [ [ []|H1]|(n & H1 & H2)]; [auto|]. right. exists n. split; [|assumption]. apply L1 in H1 as [[]|H1]. assumption.
  - intros [H1|(n & H1 & H2)]; [auto|]. right. exists n. split; [|assumption]. apply L1. auto.
Qed.
Lemma logged_nodup : forall cs ns st, NoDup (fst st) -> NoDup (snd st) ->
  NoDup (fst (fold_left (load_logged cs) ns st)) /\ NoDup (snd (fold_left (load_logged cs) ns st)).
Proof.
  induction ns as [|n ns IH]; intros st H1 H2; [auto|]. cbn [fold_left]. apply IH; unfold load_logged; (destruct (find_key n cs); [apply push_nodup|]; assumption).
Qed.
Lemma target_nodup : forall cs c, NoDup (target_fields cs c).
Proof.
  intros cs c. unfold target_fields, load_all. apply logged_nodup; apply push_nodup; constructor.
Qed.
(** If the log did not grow, it is closed. *)
Lemma no_append_closed : forall cs c, appends cs c = false -> forall n k, In n (c_concepts c) -> has_concept cs n k -> In k (c_concepts c).
Proof.
  intros cs c H n k Hn Hk. unfold appends in H. apply negb_false_iff, Nat.eqb_eq in H. unfold load_all in H.
  set (st := load ([], []) c) in *. destruct (logged_in cs (fst st) st) as [L _]. destruct (load_in ([], []) c) as [M _]. fold st in M.
  assert (NoDup (fst st)) as D by (apply push_nodup; constructor).
  assert (incl (fst st) (fst (fold_left (load_logged cs) (fst st) st))) as Hi by (intros x Hx; apply L; auto).
  assert (incl (fst (fold_left (load_logged cs) (fst st) st)) (fst st)) as Hj by (apply NoDup_length_incl; [assumption|lia|assumption]).
  assert (In k (fst st)) as Hf.
  { apply Hj. apply L. right. exists n. split; [|assumption]. apply M. auto. }
  apply M in Hf as [[]|Hf]. assumption.
Qed.
(** The fields of a concept, directly or through references. *)
Inductive field_of (cs : concepts_map) : list N -> list N -> Prop :=
| fo_field : forall n f, has_field cs n f -> field_of cs n f
| fo_nested : forall n k f, has_concept cs n k -> field_of cs k f -> field_of cs n f.
Lemma target_complete : forall cs n c, find_key n cs = Some c -> appends cs c = false -> forall f, In f (target_fields cs c) <-> field_of cs n f.
Proof.
  intros cs n c E A f. rewrite target_in. split.
  - intros [H|(k & Hk & Hf)].
    + apply fo_field. exists c. auto.
    + eapply fo_nested; [exists c; split; eassumption|]. apply fo_field. assumption.
  - intros H. inversion H as [? ? Hf|? k ? Hk Hf]; subst.
    + left. destruct Hf as (c' & E' & Hf). rewrite E in E'. inversion E'; subst. assumption.
    + right. destruct Hk as (c' & E' & Hk). rewrite E in E'. inversion E'; subst c'. clear H E'.
      revert Hk. induction Hf as [m f Hf|m k f Hm Hf IH]; intros Hk.
      * exists m. auto.
      * apply IH. eapply no_append_closed; eassumption.
Qed.

(** * The leaves of a model *)

Inductive leaves_of (ms : models_map) : list (list N) -> list (list N) -> Prop :=
| lo_nil : leaves_of ms [] []
| lo_leaf : forall x r l, find_key x ms = None -> leaves_of ms r l -> leaves_of ms (x :: r) (x :: l)
| lo_model : forall x r def l1 l2, find_key x ms = Some def -> def <> [] -> leaves_of ms def l1 -> leaves_of ms r l2 -> leaves_of ms (x :: r) (l1 ++ l2).

Section Leaves.
  Variable ts : taxonomies.
  Notation ms := (t_models ts).
  Inductive tails : list (list (list N)) -> list (list N) -> Prop :=
  | t_nil : tails [] []
  | t_cons : forall m r up l1 l2, leaves_of ms r l1 -> tails up l2 -> tails ((m :: r) :: up) (l1 ++ l2).
  Definition at_leaf (levels : list (list (list N))) (L : list (list N)) : Prop :=
    exists x r up l, levels = (x :: r) :: up /\ L = x :: l /\ tails levels l.
  Lemma descend_ok : forall xs l, leaves_of ms xs l -> xs <> [] -> forall up l2, tails up l2 ->
    exists k levels, (forall fuel, k <= fuel -> descend ts fuel (xs :: up) = Some levels) /\ at_leaf levels (l ++ l2).
  Proof.
    induction 1 as [|x r l E Hr IHr|x r def l1 l2 E Hne Hd IHd Hr IHr]; intros Hx up l3 T; [contradiction| |].
    - exists 1, ((x :: r) :: up). split.
      + intros fuel Hf. destruct fuel; [lia|]. cbn [descend]. rewrite E. reflexivity.
      + exists x, r, up, (l ++ l3). split; [reflexivity|]. split; [reflexivity|]. constructor; assumption.
    - destruct (IHd Hne ((x :: r) :: up) (l2 ++ l3)) as (k & levels & Hk & Ha); [constructor; assumption|].
      exists (S k), levels. split.
      + intros fuel Hf. destruct fuel; [lia|]. cbn [descend]. rewrite E. apply Hk. lia.
      + rewrite <- app_assoc. assumption.
  Qed.
  Lemma advance_ok : forall levels l, tails levels l -> (advance levels = [] /\ l = []) \/
    exists xs up l1 l2, advance levels = xs :: up /\ xs <> [] /\ leaves_of ms xs l1 /\ tails up l2 /\ l = l1 ++ l2.
  Proof.
    induction 1 as [|m r up l1 l2 Hr T IH]; [left; auto|]. destruct r as [|y r].
    - inversion Hr; subst. cbn [advance app]. destruct up; exact IH.
    - right. exists (y :: r), up, l1, l2. cbn [advance]. repeat split; auto. discriminate.
  Qed.
  Lemma walk_ok : forall L levels, at_leaf levels L -> exists k, forall fuel, k <= fuel -> walk ts fuel levels = Some L.
  Proof.
    intros L. remember (length L) as n eqn:Hn. revert L Hn. induction n as [n IH] using lt_wf_ind. intros L Hn levels (x & r & up & l & -> & -> & T).
    destruct (advance_ok _ _ T) as [ [A ->]|(xs & up' & l1 & l2 & A & Hne & Hx & T' & ->)].
    - exists 1. intros fuel Hf. destruct fuel; [lia|]. cbn [walk]. rewrite A. reflexivity.
    - destruct (descend_ok xs l1 Hx Hne up' l2 T') as (k1 & levels' & Hk1 & Ha).
      destruct (IH (length (l1 ++ l2))) with (L := l1 ++ l2) (levels := levels') as (k2 & Hk2); [subst n; cbn; lia|reflexivity|assumption|].
      exists (S (k1 + k2)). intros fuel Hf. destruct fuel; [lia|]. cbn [walk]. rewrite A, Hk1 by lia. rewrite Hk2 by lia. reflexivity.
  Qed.
  Lemma leaves_ok : forall def ls, leaves_of ms def ls -> def <> [] -> exists k, forall fuel, k <= fuel -> leaves ts fuel def = Some ls.
  Proof.
    intros def ls H Hne. destruct (descend_ok def ls H Hne [] [] t_nil) as (k1 & levels & Hk1 & Ha). rewrite app_nil_r in Ha.
    destruct (walk_ok _ _ Ha) as (k2 & Hk2). exists (k1 + k2). intros fuel Hf. unfold leaves. rewrite Hk1 by lia. apply Hk2. lia.
  Qed.
End Leaves.

(** * Truth of resolved expressions *)

Lemma existsb_map' : forall {A B} (f : B -> bool) (g : A -> B) l, existsb f (map g l) = existsb (fun x => f (g x)) l.
Proof. induction l; cbn; congruence. Qed.

Section Truth.
  Variable ts : taxonomies.
  Variable seen : option (list (list N * list ty)).
  Variable v : predicate -> bool.

  (** The fields that replace a concept: those that are kept. *)
  Definition candidates (n : list N) (op : relop) (d : data) : list (list N) :=
    match find_key n (t_concepts ts) with
    | None => []
    | Some c => filter (keeps seen op d) (target_fields (t_concepts ts) c)
    end.
  Lemma substitute_holds : forall p n op d make, candidates n op d <> [] ->
    holds v (substitute ts seen p n op d make) = existsb (fun f => v (make op d f)) (candidates n op d).
  Proof.
    intros p n op d make. unfold substitute, candidates. destruct (find_key n (t_concepts ts)) as [c|]; [|congruence].
    destruct (filter (keeps seen op d) (target_fields (t_concepts ts) c)) as [|x [|y l]]; intros H; [congruence|cbn; rewrite orb_false_r; reflexivity|].
    cbn [map holds]. change (existsb (holds v) (map (fun x => EPred (make op d x)) (x :: y :: l)) = existsb (fun f => v (make op d f)) (x :: y :: l)).
    rewrite existsb_map'. reflexivity.
  Qed.
  Lemma substitute_none : forall p n op d make, candidates n op d = [] -> substitute ts seen p n op d make = EPred p.
  Proof.
    intros p n op d make. unfold substitute, candidates. destruct (find_key n (t_concepts ts)) as [c|]; [|reflexivity]. intros ->. reflexivity.
  Qed.
  Lemma collect_ok : forall os es, collect os = inr es -> os = map Resolved es.
  Proof.
    induction os as [|o os IH]; intros es H; cbn in H; [inversion H; reflexivity|]. destruct o; try discriminate.
    destruct (collect os) as [|es'] eqn:E; [discriminate|]. inversion H; subst. cbn. f_equal. apply IH. reflexivity.
  Qed.

  (** [w] says when a predicate of the original expression is met. *)
  Lemma resolve_holds : forall fuel w e e', (forall p q, resolve_pred ts seen fuel p = Resolved q -> holds v q = w p) ->
    resolve ts seen fuel e = Resolved e' -> holds v e' = holds w e.
  Proof.
    intros fuel w e. induction e as [| es IH | es IH | x IH | p] using expr_rect'; intros e' W E; cbn [resolve] in E.
    - inversion E. reflexivity.
    - destruct (collect (map (resolve ts seen fuel) es)) as [o|es'] eqn:Ec.
      + destruct o; try discriminate. exfalso. clear -Ec. induction es as [|x es IHes]; [discriminate|]. cbn in Ec.
        destruct (resolve ts seen fuel x); try (inversion Ec; fail). destruct (collect (map (resolve ts seen fuel) es)); [|discriminate]. apply IHes. inversion Ec; subst. reflexivity.
      + inversion E; subst. apply collect_ok in Ec. cbn [holds]. clear E. revert es' Ec. induction IH as [|x es Hx Hes IHes]; intros es' Ec.
        * destruct es'; [reflexivity|discriminate].
        * destruct es' as [|y es']; [discriminate|]. cbn in Ec. inversion Ec. cbn. rewrite (Hx y W) by assumption. f_equal. apply IHes. assumption.
    - destruct (collect (map (resolve ts seen fuel) es)) as [o|es'] eqn:Ec.
      + destruct o; try discriminate. exfalso. clear -Ec. induction es as [|x es IHes]; [discriminate|]. cbn in Ec.
        destruct (resolve ts seen fuel x); try (inversion Ec; fail). destruct (collect (map (resolve ts seen fuel) es)); [|discriminate]. apply IHes. inversion Ec; subst. reflexivity.
      + inversion E; subst. apply collect_ok in Ec. cbn [holds]. clear E. revert es' Ec. induction IH as [|x es Hx Hes IHes]; intros es' Ec.
        * destruct es'; [reflexivity|discriminate].
        * destruct es' as [|y es']; [discriminate|]. cbn in Ec. inversion Ec. cbn. rewrite (Hx y W) by assumption. f_equal. apply IHes. assumption.
    - destruct (resolve ts seen fuel x) as [y| |] eqn:Ex; try discriminate. inversion E; subst. cbn. f_equal. apply IH; [assumption|reflexivity].
    - apply W. assumption.
  Qed.
End Truth.

(** Without models [resolve] always succeeds. *)
Lemma resolve_total : forall ts seen fuel e, t_models ts = [] -> exists e', resolve ts seen fuel e = Resolved e'.
Proof.
  intros ts seen fuel e M. induction e as [| es IH | es IH | x IH | p] using expr_rect'; cbn [resolve].
  - eauto.
  - assert (exists es', collect (map (resolve ts seen fuel) es) = inr es') as (es' & ->); [|eauto].
    induction IH as [|x es (y & Hx) Hes (ys & IHes)]; [exists []; reflexivity|]. cbn. rewrite Hx, IHes. eauto.
  - assert (exists es', collect (map (resolve ts seen fuel) es) = inr es') as (es' & ->); [|eauto].
    induction IH as [|x es (y & Hx) Hes (ys & IHes)]; [exists []; reflexivity|]. cbn. rewrite Hx, IHes. eauto.
  - destruct IH as (y & ->). eauto.
  - unfold resolve_pred, resolve_models. rewrite M. cbn [find_key].
    destruct (p_lhs p); try (eexists; reflexivity); destruct (p_rhs p); try (eexists; reflexivity); destruct d; try (eexists; reflexivity); destruct xs as [|[? ?] ?]; eexists; reflexivity.
Qed.

(** * Models *)

Section Models.
  Variable ts : taxonomies.
  Variable v : predicate -> bool.
  Notation sub := (substitute ts None).
  (** A concept and at least one field, all references resolved. *)
  Definition good_leaf (x : list N) : Prop := exists c, find_key x (t_concepts ts) = Some c /\ appends (t_concepts ts) c = false /\ target_fields (t_concepts ts) c <> [].
  Lemma filter_true : forall {A} (l : list A), filter (fun _ => true) l = l.
  Proof. induction l; cbn; congruence. Qed.
  Lemma good_candidates : forall x op d, good_leaf x -> candidates ts None x op d <> [] /\ forall f, In f (candidates ts None x op d) <-> field_of (t_concepts ts) x f.
  Proof.
    intros x op d (c & E & A & Hne). unfold candidates. rewrite E. unfold keeps.
    assert (filter (fun _ : list N => true) (target_fields (t_concepts ts) c) = target_fields (t_concepts ts) c) as H by apply filter_true.
    change (filter (keeps None op d) (target_fields (t_concepts ts) c)) with (filter (fun _ : list N => true) (target_fields (t_concepts ts) c)). rewrite H.
    split; [assumption|]. intros f. apply target_complete; assumption.
  Qed.
  (** Some field of the concept satisfies the predicate. *)
  Definition some_field (x : list N) (P : list N -> bool) : Prop := exists f, field_of (t_concepts ts) x f /\ P f = true.
  Lemma good_holds : forall p x op d make, good_leaf x -> (holds v (sub p x op d make) = true <-> some_field x (fun f => v (make op d f))).
  Proof.
    intros p x op d make G. destruct (good_candidates x op d G) as [Hne Hin]. rewrite substitute_holds by assumption. rewrite existsb_exists.
    unfold some_field. split; intros (f & H1 & H2); exists f; (split; [apply Hin; assumption|assumption]).
  Qed.
  Lemma named_spec : forall p op make r ls, Forall good_leaf ls ->
    let parts := named_parts ts None p op make r ls in
    (forallb (holds v) (fst parts) = true <-> forall x d, In x ls -> find_key x r = Some d -> some_field x (fun f => v (make op d f))) /\
    (forallb (holds v) (snd parts) = true <-> forall x, In x ls -> find_key x r = None -> some_field x (fun f => v (meta_predicate op_eq DNone f))) /\
    (fst parts = [] <-> forall x, In x ls -> find_key x r = None).
  Proof.
    intros p op make r ls G. induction G as [|x ls Gx G IH]; cbn [named_parts].
    - cbn. repeat split; intros; try contradiction; reflexivity.
    - cbv zeta in IH. destruct (named_parts ts None p op make r ls) as [res unres]. cbn [fst snd] in IH. destruct IH as (I1 & I2 & I3).
      destruct (find_key x r) as [d|] eqn:E; cbn [fst snd forallb].
      + split; [|split].
        * rewrite andb_true_iff, I1, good_holds by assumption. split.
          -- intros [H1 H2] y d' [<-|Hy] Ey; [rewrite E in Ey; inversion Ey; subst; assumption|eauto].
          -- intros H. split; [apply H; [left; reflexivity|assumption]|]. intros y d' Hy Ey. apply H; [right|]; assumption.
        * rewrite I2. split; intros H y; [intros [<-|Hy] Ey; [congruence|auto]|intros Hy Ey; apply H; [right|]; assumption].
        * split; [discriminate|]. intros H. rewrite (H x) in E by (left; reflexivity). discriminate.
      + split; [|split].
        * rewrite I1. split; intros H y d'; [intros [<-|Hy] Ey; [congruence|eauto]|intros Hy Ey; apply H; [right|]; assumption].
        * rewrite andb_true_iff, I2. unfold unrestricted_leaf. rewrite good_holds by assumption. split.
          -- intros [H1 H2] y [<-|Hy] Ey; auto.
          -- intros H. split; [apply H; [left; reflexivity|assumption]|]. intros y Hy Ey. apply H; [right|]; assumption.
        * rewrite I3. split; intros H y; [intros [<-|Hy]; auto|intros Hy; apply H; right; assumption].
  Qed.
  Lemma unnamed_spec : forall p op make ls r, Forall good_leaf ls -> length r = length ls ->
    exists parts, unnamed_parts ts None p op make r ls = Some parts /\
    (forallb (holds v) (fst parts) = true <-> forall x d, In (x, d) (combine ls (map snd r)) -> d <> DNone -> some_field x (fun f => v (make op d f))) /\
    (forallb (holds v) (snd parts) = true <-> forall x, In (x, DNone) (combine ls (map snd r)) -> some_field x (fun f => v (meta_predicate op_eq DNone f))) /\
    (fst parts = [] <-> forall x d, In (x, d) (combine ls (map snd r)) -> d = DNone).
  Proof.
    intros p op make ls r G. revert r. induction G as [|x ls Gx G IH]; intros [|[k d] r] L; cbn in L; try lia.
    - exists ([], []). cbn. repeat split; intros; try contradiction; reflexivity.
    - destruct (IH r ltac:(lia)) as ([res unres] & E & I1 & I2 & I3). cbn [unnamed_parts]. rewrite E. cbn [fst snd] in *. cbn [map combine snd].
      assert (d = DNone \/ d <> DNone) as [->|Hd] by (destruct d; auto; right; discriminate).
      + eexists. split; [reflexivity|]. cbn [fst snd forallb]. split; [|split].
        * rewrite I1. split; intros H y d'; [intros [Hy|Hy] Hne; [inversion Hy; subst; congruence|eauto]|intros Hy Hne; apply H; [right|]; assumption].
        * rewrite andb_true_iff, I2. unfold unrestricted_leaf. rewrite good_holds by assumption. split.
          -- intros [H1 H2] y [Hy|Hy]; [inversion Hy; subst; assumption|auto].
          -- intros H. split; [apply H; left; reflexivity|]. intros y Hy. apply H. right. assumption.
        * rewrite I3. split; intros H y d'; [intros [Hy|Hy]; [inversion Hy; reflexivity|eauto]|intros Hy; eapply H; right; eassumption].
      + assert (match d with DNone => Some (res, unrestricted_leaf ts None p x :: unres) | _ => Some (sub p x op d make :: res, unres) end
          = Some (sub p x op d make :: res, unres)) as -> by (destruct d; congruence).
        eexists. split; [reflexivity|]. cbn [fst snd forallb]. split; [|split].
        * rewrite andb_true_iff, I1, good_holds by assumption. split.
          -- intros [H1 H2] y d' [Hy|Hy] Hne; [inversion Hy; subst; assumption|eauto].
          -- intros H. split; [apply H; [left; reflexivity|assumption]|]. intros y d' Hy Hne. apply H; [right|]; assumption.
        * rewrite I2. split; intros H y; [intros [Hy|Hy]; [inversion Hy; subst; congruence|auto]|intros Hy; apply H; right; assumption].
        * split; [discriminate|]. intros H. exfalso. apply Hd. apply (H x). left. reflexivity.
  Qed.
  Lemma unnamed_refused : forall p op make ls r, length r <> length ls -> unnamed_parts ts None p op make r ls = None.
  Proof.
    induction ls as [|x ls IH]; intros [|[k d] r] L; cbn [unnamed_parts]; try reflexivity; [cbn in L; congruence|].
    rewrite IH by (cbn in L; lia). reflexivity.
  Qed.
  Lemma assemble_holds : forall op parts, fst parts <> [] ->
    (holds v (assemble op parts) = true <-> forallb (holds v) (snd parts) = true /\ (if is_negated op then negb (forallb (holds v) (fst parts)) else forallb (holds v) (fst parts)) = true).
  Proof.
    intros op [res unres] H. cbn [fst snd] in *. unfold assemble. cbn [fst snd]. destruct res as [|e res]; [congruence|].
    set (e0 := if is_negated op then ENot (single EAnd (e :: res)) else single EAnd (e :: res)).
    assert (holds v e0 = if is_negated op then negb (forallb (holds v) (e :: res)) else forallb (holds v) (e :: res)) as He.
    { unfold e0. destruct (is_negated op); cbn [holds]; rewrite holds_single_and; reflexivity. }
    rewrite <- He. destruct unres as [|u unres]; [cbn [forallb]; tauto|].
    change (forallb (holds v) ((u :: unres) ++ [e0]) = true <-> forallb (holds v) (u :: unres) = true /\ holds v e0 = true).
    rewrite forallb_app. cbn [forallb]. rewrite andb_true_r, andb_true_iff. tauto.
  Qed.
End Models.
