(** Proofs about the segment store, second part: the invariant of the store and what its
    operations do. *)
From Coq Require Import List Bool Arith NArith ZArith Lia Sorted Permutation.
From Coq Require Import ZifyBool ZifyNat ZifyN.
From Verif Require Import DataModel TypeModel TableSliceModel TableSliceProofs RangeMapModel RangeMapProofs LruModel LruProofs SegmentStoreModel SegmentStoreProofs.
Import ListNotations.
Open Scope nat_scope.

(** * The cache *)
Definition cache_in (c : cache uuid segment) (gs : list segment) : Prop :=
  cache_ok c /\ forall u g, In (u, g) (entries (ca_xs c)) -> sg_id g = u /\ In g gs.

Lemma lookup_in : forall (es : list (uuid * segment)) u g, LruProofs.lookup Nat.eqb u es = Some g -> In (u, g) es.
Proof.
  unfold LruProofs.lookup. induction es as [|[x v] es IH]; cbn; intros u g H; [discriminate|].
  destruct (Nat.eqb_spec x u) as [->|]; cbn in H; [injection H as ->; auto|]. right. apply IH. assumption.
Qed.
Lemma in_without : forall (es : list (uuid * segment)) u e, In e (without Nat.eqb u es) <-> In e es /\ fst e <> u.
Proof. intros es u e. unfold without. rewrite filter_In, negb_true_iff, Nat.eqb_neq. tauto. Qed.
Lemma in_use : forall p (e x : uuid * segment) es, In x (use p e es) <-> x = e \/ In x es.
Proof. intros p e x es. destruct p; cbn; [rewrite in_app_iff; cbn|]; intuition. Qed.
Lemma view_entries : forall (c : cache uuid segment) p cap es out, cache_view c = (p, cap, es, out) -> entries (ca_xs c) = es /\ ca_capacity c = cap.
Proof. intros c p cap es out H. unfold cache_view in H. split; congruence. Qed.

Lemma cache_find_in : forall c gs u, cache_in c gs -> exists c' r, cache_find Nat.eqb c u = Some (c', r) /\ cache_in c' gs /\ ca_capacity c' = ca_capacity c /\
  match r with Some g => sg_id g = u /\ In g gs /\ exists i, find_map Nat.eqb u (ca_tracker c') = Some i | None => True end.
Proof.
  intros c gs u [H1 H2]. destruct (cache_find_spec Nat.eqb Nat.eqb_eq c u H1) as (c' & E & Ok & V).
  exists c', (LruProofs.lookup Nat.eqb u (entries (ca_xs c))). split; [assumption|].
  unfold cache_view at 2 in V. cbn [cache_spec] in V.
  destruct (LruProofs.lookup Nat.eqb u (entries (ca_xs c))) as [g|] eqn:El.
  - apply view_entries in V as [V1 V2]. pose proof (lookup_in _ _ _ El) as Hin. destruct (H2 _ _ Hin) as [G1 G2].
    split; [split; [assumption|]|].
    + intros v h Hh. rewrite V1, in_use, in_without in Hh. destruct Hh as [[= -> ->]|[Hh _]]; auto.
    + split; [assumption|]. split; [assumption|]. split; [assumption|].
      destruct (find_map Nat.eqb u (ca_tracker c')) as [i|] eqn:Ef; [exists i; reflexivity|exfalso].
      apply (agree_find_none Nat.eqb Nat.eqb_eq _ _ _ _ (proj1 Ok)) in Ef. apply Ef. rewrite <- map_fst_entries, V1. apply in_map_iff.
      exists (u, g). split; [reflexivity|]. apply in_use. auto.
  - apply view_entries in V as [V1 V2]. split; [split; [assumption|]|auto]. intros v h Hh. rewrite V1 in Hh. auto.
Qed.
Lemma cache_insert_in : forall c gs u g, cache_in c gs -> sg_id g = u -> In g gs -> exists c' r, cache_insert Nat.eqb c u g = Some (c', r, snd (c', negb (existsb (Nat.eqb u) (map fst (entries (ca_xs c)))))) /\ cache_in c' gs /\ ca_capacity c' = ca_capacity c.
Proof.
  intros c gs u g [H1 H2] Hu Hg. destruct (cache_insert_spec Nat.eqb Nat.eqb_eq c u g H1) as (c' & E & Ok & V).
  exists c'. eexists. split.
  { rewrite E. do 2 f_equal. destruct (LruProofs.lookup Nat.eqb u (entries (ca_xs c))) as [w|] eqn:El; cbn [snd]; symmetry.
    - apply negb_false_iff. apply existsb_exists. exists u. split; [|apply Nat.eqb_refl]. apply lookup_in in El. apply in_map_iff. exists (u, w). auto.
    - apply negb_true_iff. apply not_true_iff_false. rewrite existsb_exists. intros (v & Hv & Ev). apply Nat.eqb_eq in Ev. subst v.
      apply (lookup_absent Nat.eqb Nat.eqb_eq) in El. contradiction. }
  unfold cache_view at 2 in V. cbn [cache_spec] in V. rewrite <- and_comm.
  assert (forall es : list (uuid * segment), (forall e, In e es -> In e (entries (ca_xs c)) \/ e = (u, g)) -> entries (ca_xs c') = es -> cache_in c' gs) as G.
  { intros es He E'. split; [assumption|]. intros v h Hh. rewrite E' in Hh. destruct (He _ Hh) as [Hin|[= -> ->]]; auto. }
  destruct (LruProofs.lookup Nat.eqb u (entries (ca_xs c))) as [w|] eqn:El.
  - apply view_entries in V as [V1 V2]. split; [assumption|]. apply (G _) with (2 := V1). intros e He. rewrite in_use, in_without in He.
    destruct He as [->|[He _]]; [|auto]. left. apply lookup_in. assumption.
  - destruct (length (entries (ca_xs c)) =? ca_capacity c); apply view_entries in V as [V1 V2]; split; auto; apply (G _) with (2 := V1); intros e He; rewrite in_use in He.
    + destruct He as [->|He]; auto. left. destruct (entries (ca_xs c)); [destruct He|right; assumption].
    + destruct He as [->|He]; auto.
Qed.
Lemma cache_erase_at_in : forall c gs hs u i, cache_in c gs -> find_map Nat.eqb u (ca_tracker c) = Some i ->
  (forall g, In g gs -> sg_id g <> u -> In g hs) -> cache_in (cache_erase_at c i) hs /\ ca_capacity (cache_erase_at c i) = ca_capacity c /\
  ~ In u (map fst (entries (ca_xs (cache_erase_at c i)))).
Proof.
  intros c gs hs u i [H1 H2] E Hs. rewrite (erase_at_erase Nat.eqb Nat.eqb_eq c u i H1 E).
  destruct (cache_erase_spec Nat.eqb Nat.eqb_eq c u H1) as [Ok V]. apply view_entries in V as [V1 V2]. split; [split; [assumption|]|split; [assumption|]].
  - intros v h Hh. rewrite V1, in_without in Hh. destruct Hh as [Hh Hv]. cbn in Hv. destruct (H2 _ _ Hh) as [G1 G2]. split; [assumption|]. apply Hs; [assumption|congruence].
  - rewrite V1. intros Hin. apply in_map_iff in Hin as (e & <- & He). apply in_without in He. tauto.
Qed.
Lemma cache_in_mono : forall c gs hs, cache_in c gs -> incl gs hs -> cache_in c hs.
Proof. intros c gs hs [H1 H2] Hi. split; [assumption|]. intros u g H. destruct (H2 _ _ H). auto. Qed.
Lemma cache_in_drop : forall c gs hs u, cache_in c gs -> ~ In u (map fst (entries (ca_xs c))) ->
  (forall g, In g gs -> sg_id g <> u -> In g hs) -> cache_in c hs.
Proof.
  intros c gs hs u [H1 H2] Hn Hs. split; [assumption|]. intros v g H. destruct (H2 _ _ H) as [G1 G2]. split; [assumption|]. apply Hs; [assumption|].
  intros E. apply Hn. apply in_map_iff. exists (v, g). split; [cbn; congruence|assumption].
Qed.
Lemma cache_clear_in : forall c gs hs, cache_in c gs -> cache_in (cache_clear c) hs.
Proof. intros c gs hs [(A & B & C) _]. split; [|intros u g []]. split; [|cbn; lia]. repeat split; cbn; try constructor; try easy. intros (n & [] & _). Qed.

(** * The invariant *)
Definition all_segments (st : store) (F : list segment) : list segment := F ++ [st_builder st].
Definition content (st : store) (F : list segment) : list slice := segment_rows (all_segments st F).
(** The invariant without the cache: [F] are the segments on disk in the order of their IDs, [debt] the number of
    erased events that are still to be subtracted. *)
Record inv (st : store) (F : list segment) (debt : nat) : Prop := {
  inv_ordered : ordered (content st F);
  inv_map : represents (st_map st) (all_segments st F);
  inv_nodup : NoDup (map sg_id (all_segments st F));
  inv_fresh : Forall (fun g => sg_id g < st_fresh st) (all_segments st F);
  inv_nonempty : Forall (fun g => sg_slices g <> []) F;
  inv_names : NoDup (map fst (st_files st));
  inv_names_fresh : Forall (fun f => fst f < st_fresh st /\ fst f <> sg_id (st_builder st)) (st_files st);
  inv_files : forall g, In g F -> In (sg_id g, Whole g) (st_files st);
  inv_live : forall f, In f (st_files st) -> ~ In (fst f) (st_doomed st) -> exists g, In g F /\ f = (sg_id g, Whole g);
  inv_doomed : forall u, In u (st_doomed st) -> u < st_fresh st /\ ~ In u (map sg_id (all_segments st F));
  inv_cache : cache_in (st_cache st) F;
  inv_events : st_events st = length (rows (content st F)) + debt }.

Lemma segment_rows_app : forall a b, segment_rows (a ++ b) = segment_rows a ++ segment_rows b.
Proof. intros. apply flat_map_app. Qed.
Lemma inv_with_cache : forall st F d c, inv st F d -> cache_in c F -> inv (with_cache st c) F d.
Proof. intros st F d c H Hc. destruct H. constructor; assumption. Qed.
Lemma with_cache_twice : forall st c d, with_cache (with_cache st c) d = with_cache st d.
Proof. reflexivity. Qed.
Lemma with_cache_same : forall st, with_cache st (st_cache st) = st.
Proof. destruct st. reflexivity. Qed.

Lemma nodup_app : forall (A : Type) (a b : list A), NoDup (a ++ b) <-> NoDup a /\ NoDup b /\ forall x, In x a -> ~ In x b.
Proof.
  intros A a b. induction a as [|z a IH]; cbn.
  - split; [intros H; split; [constructor|auto]|tauto].
  - split.
    + intros H. inversion H; subst. apply IH in H3 as (I1 & I2 & I3). rewrite in_app_iff in H2. repeat split; auto; [constructor; tauto|].
      intros x [<-|Hx]; auto.
    + intros (H1 & H2 & H3). inversion H1; subst. constructor; [|apply IH; repeat split; auto]. rewrite in_app_iff. intros [G|G]; [contradiction|]. apply (H3 z); auto.
Qed.
Lemma unique_segment : forall (L : list segment) g h, NoDup (map sg_id L) -> In g L -> In h L -> sg_id g = sg_id h -> g = h.
Proof.
  induction L as [|x L IH]; intros g h N Hg Hh E; [destruct Hg|]. cbn in N. inversion N; subst. destruct Hg as [->|Hg], Hh as [->|Hh]; auto.
  - exfalso. apply H1. rewrite E. apply in_map. assumption.
  - exfalso. apply H1. rewrite <- E. apply in_map. assumption.
Qed.
Lemma load_file : forall st F d g, inv st F d -> In g F -> load st (sg_id g) = Some (Whole g).
Proof.
  intros st F d g H Hg. pose proof (inv_files _ _ _ H _ Hg) as Hin. pose proof (inv_names _ _ _ H) as Nd. unfold load.
  induction (st_files st) as [|[x f] fs IH]; [destruct Hin|]. cbn in *. inversion Nd; subst.
  destruct Hin as [[= -> ->]|Hin]; [rewrite Nat.eqb_refl; reflexivity|].
  destruct (Nat.eqb_spec x (sg_id g)) as [->|]; [|auto]. exfalso. apply H2. apply in_map_iff. exists (sg_id g, Whole g). auto.
Qed.
Lemma ordered_part : forall a g b, ordered (segment_rows (a ++ g :: b)) -> ordered (sg_slices g).
Proof.
  intros a g b H. rewrite segment_rows_app in H. apply ordered_app in H as (_ & H & _). cbn in H. apply ordered_app in H. tauto.
Qed.
Lemma ordered_in : forall L g, ordered (segment_rows L) -> In g L -> ordered (sg_slices g).
Proof. intros L g H Hg. apply in_split in Hg as (a & b & ->). eapply ordered_part; eassumption. Qed.
Lemma ids_in_segments : forall L p, In p (ids_of (segment_rows L)) <-> exists g, In g L /\ In p (ids_of (sg_slices g)).
Proof.
  intros L p. induction L as [|g L IH]; cbn [segment_rows flat_map].
  - split; [intros []|intros (g & [] & _)].
  - rewrite ids_of_app, in_app_iff. fold (segment_rows L). rewrite IH. split.
    + intros [H|(h & H1 & H2)]; [exists g|exists h]; split; auto; [left; reflexivity|right; assumption].
    + intros (h & [<-|H1] & H2); [auto|]. right. exists h. auto.
Qed.

(** Two different segments do not interleave. *)
Lemma apart : forall L g h, ordered (segment_rows L) -> In g L -> In h L -> g <> h ->
  (forall p q, In p (ids_of (sg_slices g)) -> In q (ids_of (sg_slices h)) -> p < q) \/
  (forall p q, In p (ids_of (sg_slices h)) -> In q (ids_of (sg_slices g)) -> p < q).
Proof.
  intros L g h O Hg Hh Hne. apply in_split in Hg as (a & b & ->). rewrite segment_rows_app in O.
  apply ordered_app in O as (_ & O1 & O2). cbn [segment_rows flat_map] in *. fold (segment_rows b) in *. apply ordered_app in O1 as (_ & _ & O1).
  apply in_app_iff in Hh as [Hh|[Hh|Hh]].
  - right. intros p q Hp Hq. apply O2; [apply ids_in_segments; exists h; auto|]. rewrite ids_of_app. apply in_app_iff. auto.
  - contradiction.
  - left. intros p q Hp Hq. apply O1; [assumption|]. apply ids_in_segments. exists h. auto.
Qed.

(** * Candidates *)
Lemma push_in : forall cs u v, In v (push_candidate cs u) <-> In v cs \/ v = u.
Proof.
  intros cs u v. unfold push_candidate. destruct (rev cs) as [|c r] eqn:E.
  - apply (f_equal (@rev uuid)) in E. rewrite rev_involutive in E. subst cs. cbn. intuition.
  - apply (f_equal (@rev uuid)) in E. rewrite rev_involutive in E. subst cs. cbn. destruct (Nat.eqb_spec c u) as [->|].
    + rewrite !in_app_iff. cbn. intuition.
    + rewrite !in_app_iff. cbn. intuition.
Qed.
Lemma push_fold : forall (B : uuid -> uuid -> Prop) us acc,
  (forall u v, B u v -> B v u -> In u (acc ++ us) -> In v (acc ++ us) -> False) -> StronglySorted B acc -> StronglySorted (fun u v => u = v \/ B u v) us ->
  (forall x u, In x acc -> In u us -> x = u \/ B x u) ->
  StronglySorted B (fold_left push_candidate us acc) /\ forall v, In v (fold_left push_candidate us acc) <-> In v acc \/ In v us.
Proof.
  intros B. induction us as [|u us IH]; intros acc Hb Ha Hs Hau.
  - cbn. split; [assumption|tauto].
  - cbn [fold_left]. inversion Hs; subst.
    destruct (IH (push_candidate acc u)) as [I1 I2].
    + intros x y H3 H4 H5 H6. apply (Hb x y); auto; rewrite in_app_iff in *; rewrite push_in in *; cbn; intuition.
    + unfold push_candidate. destruct (rev acc) as [|c r] eqn:E.
      * constructor; constructor.
      * apply (f_equal (@rev uuid)) in E. rewrite rev_involutive in E. cbn in E. destruct (Nat.eqb_spec c u) as [->|Hne]; [assumption|].
        apply ss_app. split; [assumption|]. split; [repeat constructor|]. intros x y Hx [<-|[]].
        destruct (Hau x u Hx (or_introl eq_refl)) as [->|]; [exfalso|assumption].
        subst acc. apply ss_app in Ha as (_ & _ & A3). apply in_app_iff in Hx as [Hx|[Hx|[]]]; [|contradiction].
        specialize (A3 u c Hx (or_introl eq_refl)).
        destruct (Hau c u (in_elt _ _ []) (or_introl eq_refl)) as [|Hcu]; [contradiction|].
        apply (Hb u c A3 Hcu); rewrite !in_app_iff; cbn; auto.
    + assumption.
    + intros x v Hx Hv. apply push_in in Hx as [Hx| ->]; [apply Hau; [assumption|right; assumption]|]. rewrite Forall_forall in H2. apply H2. assumption.
    + split; [assumption|]. intros v. rewrite I2, push_in. cbn. intuition.
Qed.

Definition entry_range (e : entry uuid) : nat * nat := (N.to_nat (eleft e), N.to_nat (eright e)).
Lemma wf_intervals : forall m : rmap uuid, wf m -> sorted_intervals entry_range m.
Proof.
  induction m as [|e m IH]; intros W; [split; constructor|]. destruct W as (W1 & W2 & W3). destruct (IH W3) as [I1 I2]. split; constructor; auto.
  - apply Forall_forall. intros x Hx. specialize (W2 _ Hx). unfold follows, entry_range. cbn. lia.
  - unfold entry_range. cbn. lia.
Qed.
Definition hit_segment (xs : list bool) (g : segment) : Prop := exists p, In p (ids_of (sg_slices g)) /\ in_ids xs p = true.

Lemma select_segments_spec : forall st F d xs, inv st F d -> exists cs, select_segments st xs = Some cs /\ NoDup cs /\
  forall u, In u cs <-> exists g, In g (all_segments st F) /\ sg_id g = u /\ hit_segment xs g.
Proof.
  intros st F d xs H. destruct (inv_map _ _ _ H) as [W M]. pose proof (inv_ordered _ _ _ H) as O. pose proof (inv_nodup _ _ _ H) as Nd.
  unfold select_segments. change (fun e : entry uuid => (N.to_nat (eleft e), N.to_nat (eright e))) with entry_range.
  pose proof (wf_intervals _ W) as S. rewrite (select_with_spec entry_range xs _ S). cbn [option_map]. eexists. split; [reflexivity|].
  set (es := filter (touches entry_range xs) (st_map st)).
  assert (forall e, In e es -> exists p, In e (st_map st) /\ N.to_nat (eleft e) <= p < N.to_nat (eright e) /\ in_ids xs p = true) as He.
  { intros e Hin. apply filter_In in Hin as [Hin Ht]. unfold touches in Ht. apply existsb_exists in Ht as (p & Hp & Hx). apply in_seq in Hp.
    exists p. unfold entry_range in Hp. cbn in Hp. repeat split; auto; lia. }
  assert (forall u, In u (map evalue es) <-> exists g, In g (all_segments st F) /\ sg_id g = u /\ hit_segment xs g) as Hu.
  { intros u. rewrite in_map_iff. split.
    - intros (e & <- & Hin). destruct (He _ Hin) as (p & H1 & H2 & H3).
      assert (maps (st_map st) (N.of_nat p) (evalue e)) as Hm by (exists e; repeat split; auto; lia).
      apply M in Hm as (g & G1 & G2 & G3). rewrite Nat2N.id in G3. exists g. repeat split; auto. exists p. auto.
    - intros (g & G1 & G2 & p & G3 & G4). assert (maps (st_map st) (N.of_nat p) u) as Hm by (apply M; exists g; rewrite Nat2N.id; auto).
      destruct Hm as (e & E1 & E2 & E3 & E4). exists e. split; [assumption|]. apply filter_In. split; [assumption|]. unfold touches. apply existsb_exists.
      exists p. split; [apply in_seq; unfold entry_range; cbn; lia|assumption]. }
  set (B := fun u v => u <> v /\ forall g h, In g (all_segments st F) -> sg_id g = u -> In h (all_segments st F) -> sg_id h = v ->
    forall p q, In p (ids_of (sg_slices g)) -> In q (ids_of (sg_slices h)) -> p < q).
  destruct (push_fold B (map evalue es) []) as [P1 P2].
  - intros u v [_ B1] [_ B2] H1 H2. apply Hu in H1 as (g & G1 & G2 & p & G3 & _). apply Hu in H2 as (h & K1 & K2 & q & K3 & _).
    specialize (B1 g h G1 G2 K1 K2 p q G3 K3). specialize (B2 h g K1 K2 G1 G2 q p K3 G3). lia.
  - constructor.
  - assert (sorted_intervals entry_range es) as Se.
    { unfold es. destruct S as [S1 S2]. split; [apply ss_filter; assumption|]. apply Forall_forall. intros e Hin. apply filter_In in Hin as [Hin _]. rewrite Forall_forall in S2. auto. }
    assert (forall e, In e es -> In e (st_map st)) as Hes by (intros e Hin; apply filter_In in Hin; tauto).
    clear Hu He. clearbody es. destruct Se as [Se _]. induction Se as [|e es Se IH Hf]; cbn [map]; constructor.
    + apply IH. intros e' Hin. apply Hes. right. assumption.
    + apply Forall_forall. intros v Hv. apply in_map_iff in Hv as (e' & <- & Hin). rewrite Forall_forall in Hf. specialize (Hf _ Hin).
      destruct (Nat.eq_dec (evalue e) (evalue e')) as [|Hne]; [left; assumption|right]. split; [assumption|].
      pose proof (wf_lt _ _ W (Hes e (or_introl eq_refl))) as L1. pose proof (wf_lt _ _ W (Hes e' (or_intror Hin))) as L2.
      unfold follows, entry_range in Hf. cbn in Hf.
      assert (maps (st_map st) (eleft e) (evalue e)) as M1 by (exists e; repeat split; auto; [apply Hes; left; reflexivity|lia]).
      assert (maps (st_map st) (eleft e') (evalue e')) as M2 by (exists e'; repeat split; auto; [apply Hes; right; assumption|lia]).
      apply M in M1 as (g & G1 & G2 & G3). apply M in M2 as (h & K1 & K2 & K3).
      intros g' h' G1' G2' K1' K2'. assert (g' = g) as -> by (eapply unique_segment; eauto; congruence).
      assert (h' = h) as -> by (eapply unique_segment; eauto; congruence).
      destruct (apart _ g h O G1 K1) as [A|A]; [congruence|assumption|]. specialize (A _ _ K3 G3). lia.
  - intros x u [].
  - split.
    + clear P2. induction P1 as [|x l Hl IH Hf]; constructor; [|assumption]. intros Hin. rewrite Forall_forall in Hf. destruct (Hf _ Hin) as [Hn _]. contradiction.
    + intros u. rewrite P2, Hu. cbn. intuition.
Qed.

Section Store.
  Variable arrange : (uuid -> bool) -> list uuid -> list uuid.
  Hypothesis arranges : forall f cs, Permutation (arrange f cs) cs.

  (** A state that differs in the cache only. *)
  Definition same_but_cache (st st' : store) (F : list segment) : Prop :=
    exists c, st' = with_cache st c /\ cache_in c F /\ ca_capacity c = ca_capacity (st_cache st).
  Lemma same_refl : forall st F d, inv st F d -> same_but_cache st st F.
  Proof. intros st F d H. exists (st_cache st). rewrite with_cache_same. split; [reflexivity|]. split; [apply (inv_cache _ _ _ H)|reflexivity]. Qed.
  Lemma same_trans : forall s1 s2 s3 F, same_but_cache s1 s2 F -> same_but_cache s2 s3 F -> same_but_cache s1 s3 F.
  Proof. intros s1 s2 s3 F (c & -> & H1 & H2) (c' & -> & H3 & H4). exists c'. split; [reflexivity|]. split; [assumption|]. cbn in H4. congruence. Qed.
  Lemma same_inv : forall s1 s2 F d, inv s1 F d -> same_but_cache s1 s2 F -> inv s2 F d.
  Proof. intros s1 s2 F d H (c & -> & Hc & _). apply inv_with_cache; assumption. Qed.

  Lemma probe_spec : forall cs st F d, inv st F d -> exists st' bs, probe st cs = Some (st', bs) /\ same_but_cache st st' F.
  Proof.
    induction cs as [|u cs IH]; intros st F d H; [exists st, []; split; [reflexivity|eapply same_refl; eassumption]|]. cbn [probe].
    destruct (u =? sg_id (st_builder st)).
    - destruct (IH st F d H) as (st' & bs & -> & S). exists st', (true :: bs). auto.
    - destruct (cache_find_in (st_cache st) F u (inv_cache _ _ _ H)) as (c' & r & -> & Hc & Hcap & _).
      assert (same_but_cache st (with_cache st c') F) as S1 by (exists c'; auto).
      destruct (IH _ F d (same_inv _ _ _ _ H S1)) as (st' & bs & -> & S2). eexists _, _. split; [reflexivity|]. eapply same_trans; eassumption.
  Qed.

  Definition hits (xs : list bool) (ss : list slice) : list slice := filter (touches interval xs) ss.
  Lemma seg_lookup_spec : forall g xs, ordered (sg_slices g) -> seg_lookup g xs = Some (hits xs (sg_slices g)).
  Proof. intros g xs O. apply select_with_spec. apply ordered_intervals. assumption. Qed.

  Lemma lookup_candidate_spec : forall st F d xs g, inv st F d -> In g (all_segments st F) ->
    exists st', lookup_candidate st xs (sg_id g) = Some (st', Slices (hits xs (sg_slices g))) /\ same_but_cache st st' F.
  Proof.
    intros st F d xs g H Hg. pose proof (ordered_in _ _ (inv_ordered _ _ _ H) Hg) as O. pose proof (inv_nodup _ _ _ H) as Nd.
    unfold lookup_candidate. destruct (Nat.eqb_spec (sg_id g) (sg_id (st_builder st))) as [E|Hne].
    - assert (g = st_builder st) as <- by (eapply unique_segment; eauto; apply in_app_iff; cbn; auto).
      rewrite seg_lookup_spec by assumption. exists st. split; [reflexivity|eapply same_refl; eassumption].
    - assert (In g F) as HF by (apply in_app_iff in Hg as [Hg|[Hg|[]]]; [assumption|subst g; contradiction]).
      destruct (cache_find_in (st_cache st) F (sg_id g) (inv_cache _ _ _ H)) as (c' & r & -> & Hc & Hcap & Hr).
      destruct r as [h|].
      + destruct Hr as (R1 & R2 & _). assert (h = g) as -> by (eapply unique_segment; eauto; apply in_app_iff; auto).
        rewrite seg_lookup_spec by assumption. eexists. split; [reflexivity|]. exists c'. auto.
      + rewrite (load_file _ _ _ _ H HF). destruct (cache_insert_in c' F (sg_id g) g Hc eq_refl HF) as (c2 & r & -> & Hc2 & Hcap2).
        rewrite seg_lookup_spec by assumption. eexists. split; [reflexivity|]. exists c2. split; [reflexivity|]. split; [assumption|congruence].
  Qed.

  Lemma get_loop_spec : forall gs st F d xs, inv st F d -> incl gs (all_segments st F) ->
    exists st', get_loop st xs (map sg_id gs) = Some (st', Some (flat_map (fun g => hits xs (sg_slices g)) gs)) /\ same_but_cache st st' F.
  Proof.
    induction gs as [|g gs IH]; intros st F d xs H Hi; [exists st; split; [reflexivity|eapply same_refl; eassumption]|]. cbn [map get_loop].
    destruct (lookup_candidate_spec st F d xs g H) as (st1 & -> & S1); [apply Hi; left; reflexivity|].
    destruct (IH st1 F d xs) as (st2 & -> & S2).
    - eapply same_inv; eassumption.
    - destruct S1 as (c & -> & _). intros x Hx. apply Hi. right. assumption.
    - exists st2. split; [reflexivity|]. eapply same_trans; eassumption.
  Qed.

  Lemma from_ids : forall (L : list segment) us, incl us (map sg_id L) -> exists gs, us = map sg_id gs /\ incl gs L.
  Proof.
    intros L us. induction us as [|u us IH]; intros Hi; [exists []; split; [reflexivity|intros x []]|].
    destruct IH as (gs & -> & Hg); [intros x Hx; apply Hi; right; assumption|].
    assert (In u (map sg_id L)) as Hu by (apply Hi; left; reflexivity). apply in_map_iff in Hu as (g & <- & HL).
    exists (g :: gs). split; [reflexivity|]. intros x [<-|Hx]; auto.
  Qed.
  Lemma hits_segments : forall xs gs, flat_map (fun g => hits xs (sg_slices g)) gs = hits xs (segment_rows gs).
  Proof. intros xs gs. unfold hits, segment_rows. induction gs as [|g gs IH]; [reflexivity|]. cbn. rewrite filter_app, IH. reflexivity. Qed.
  Lemma hits_none : forall xs g, ordered (sg_slices g) -> ~ hit_segment xs g -> hits xs (sg_slices g) = [].
  Proof.
    intros xs g [V _] Hn. apply filter_none. intros s Hs. rewrite Forall_forall in V. apply not_true_iff_false. rewrite touches_rows by auto.
    intros (r & R1 & R2). apply Hn. exists (row_id r). split; [|assumption]. unfold ids_of. apply in_map. unfold rows. apply in_flat_map. exists s. auto.
  Qed.

  Lemma candidates_spec : forall st F d xs, inv st F d -> exists st' gs, candidates_of arrange st xs = Some (st', map sg_id gs) /\ same_but_cache st st' F /\
    NoDup (map sg_id gs) /\ incl gs (all_segments st F) /\ (forall g, In g (all_segments st F) -> hit_segment xs g -> In g gs) /\
    Permutation (hits xs (segment_rows gs)) (hits xs (content st F)).
  Proof.
    intros st F d xs H. unfold candidates_of. destruct (select_segments_spec st F d xs H) as (cs & -> & Nd & Hc).
    destruct (probe_spec cs st F d H) as (st' & bs & -> & S).
    pose proof (arranges (assoc_bool cs bs) cs) as P. set (us := arrange (assoc_bool cs bs) cs) in *.
    assert (forall u, In u us <-> In u cs) as Hus by (intros u; split; apply Permutation_in; [|symmetry]; assumption).
    destruct (from_ids (all_segments st F) us) as (gs & E & Hg).
    { intros u Hu. apply Hus, Hc in Hu as (g & G1 & <- & _). apply in_map. assumption. }
    assert (NoDup (map sg_id gs)) as Ndg by (rewrite <- E; eapply Permutation_NoDup; [symmetry; exact P|assumption]).
    assert (forall g, In g (all_segments st F) -> hit_segment xs g -> In g gs) as Hhit.
    { intros g G1 G2. assert (In (sg_id g) us) as Hin by (apply Hus, Hc; exists g; auto). rewrite E in Hin. apply in_map_iff in Hin as (h & E2 & Hh).
      assert (h = g) as <-; [|assumption]. apply (unique_segment (all_segments st F)); auto. apply (inv_nodup _ _ _ H). }
    exists st', gs. rewrite E. repeat (split; [reflexivity || assumption|]). unfold content. rewrite <- !hits_segments.
    assert (forall L, incl L (all_segments st F) -> NoDup L -> (forall g, In g (all_segments st F) -> hit_segment xs g -> In g L) ->
      exists hs, flat_map (fun g => hits xs (sg_slices g)) L = flat_map (fun g => hits xs (sg_slices g)) hs /\ NoDup hs /\
        forall g, In g hs <-> In g (all_segments st F) /\ hits xs (sg_slices g) <> []) as Key.
    { intros L HL NdL Hall. exists (filter (fun g => match hits xs (sg_slices g) with [] => false | _ => true end) L). split; [|split].
      - clear. induction L as [|g L IH]; [reflexivity|]. cbn. destruct (hits xs (sg_slices g)) eqn:E; cbn; [assumption|]. rewrite E, IH. reflexivity.
      - apply NoDup_filter'. assumption.
      - intros g. rewrite filter_In. destruct (hits xs (sg_slices g)) eqn:E'; split.
        + intros [_ Hf]. discriminate.
        + intros [_ Hf]. contradiction.
        + intros [Hin _]. split; [auto|discriminate].
        + intros [Hin _]. split; [|reflexivity]. apply Hall; [assumption|].
          assert (In s (hits xs (sg_slices g))) as Hs by (rewrite E'; left; reflexivity). apply filter_In in Hs as [Hs Ht].
          pose proof (ordered_in _ _ (inv_ordered _ _ _ H) Hin) as [V _]. rewrite Forall_forall in V.
          apply touches_rows in Ht as (r & R1 & R2); [|auto]. exists (row_id r). split; [|assumption]. unfold ids_of. apply in_map. unfold rows. apply in_flat_map. exists s. auto. }
    destruct (Key gs Hg) as (h1 & -> & N1 & M1); [eapply NoDup_map_inv; eassumption|assumption|].
    destruct (Key (all_segments st F)) as (h2 & -> & N2 & M2); [apply incl_refl|eapply NoDup_map_inv; apply (inv_nodup _ _ _ H)|auto|].
    apply Permutation_flat_map. apply NoDup_Permutation; auto. intros g. rewrite M1, M2. tauto.
  Qed.

  (** [get] returns exactly the stored slices that contain a requested ID. *)
  Lemma get_spec : forall st F d xs, inv st F d -> exists st' ss, get arrange st xs = Some (st', Some ss) /\ same_but_cache st st' F /\
    Permutation ss (hits xs (content st F)).
  Proof.
    intros st F d xs H. unfold get. destruct (candidates_spec st F d xs H) as (st1 & gs & -> & S1 & _ & Hi & _ & P).
    destruct (get_loop_spec gs st1 F d xs) as (st2 & -> & S2).
    - eapply same_inv; eassumption.
    - destruct S1 as (c & -> & _). assumption.
    - exists st2. eexists. split; [reflexivity|]. split; [eapply same_trans; eassumption|]. rewrite hits_segments. assumption.
  Qed.

End Store.

Section Write.
  Variable writable : uuid -> bool.
  Hypothesis writes_succeed : forall u, writable u = true.

  (** * [put] and [flush] *)
  Lemma represents_fresh : forall m L u, represents m L -> represents m (L ++ [Seg u []]).
  Proof.
    intros m L u H. eapply represents_in; [exact H|]. intros g Hg. rewrite in_app_iff. cbn. split; [auto|]. intros [|[<-|[]]]; [assumption|]. contradiction.
  Qed.
  Lemma flush_spec : forall st F d, inv st F d -> exists st' F', flush writable st = Some (st', true) /\ inv st' F' d /\ content st' F' = content st F /\
    sg_slices (st_builder st') = [] /\ ca_capacity (st_cache st') = ca_capacity (st_cache st) /\
    st_doomed st' = st_doomed st /\ (all_segments st F = all_segments st' F' \/ F' = all_segments st F).
  Proof.
    intros st F d H. unfold flush. destruct (sg_slices (st_builder st)) as [|s0 ss0] eqn:Eb.
    - exists st, F. repeat (split; [assumption || reflexivity|]). left. reflexivity.
    - rewrite writes_succeed. cbn [reset_builder with_builder with_files next_uuid st_cache st_files st_doomed st_builder st_map st_events st_fresh].
      set (g := st_builder st) in *. assert (cache_in (st_cache st) (F ++ [g])) as Hc by (eapply cache_in_mono; [apply (inv_cache _ _ _ H)|apply incl_appl, incl_refl]).
      destruct (cache_insert_in (st_cache st) (F ++ [g]) (sg_id g) g Hc eq_refl) as (c' & r & -> & Hc' & Hcap); [apply in_app_iff; cbn; auto|].
      set (st' := with_cache _ c'). exists st', (F ++ [g]).
      assert (content st' (F ++ [g]) = content st F) as Ec.
      { unfold content, all_segments. rewrite segment_rows_app. unfold st'. cbn. rewrite app_nil_r. reflexivity. }
      assert (~ In (st_fresh st) (map sg_id (F ++ [g]))) as Hfr.
      { intros Hin. apply in_map_iff in Hin as (h & E & Hh). pose proof (inv_fresh _ _ _ H) as Hf. rewrite Forall_forall in Hf. specialize (Hf _ Hh). lia. }
      split; [reflexivity|]. split; [|split; [assumption|split; [reflexivity|split; [exact Hcap|split; [reflexivity|right; reflexivity]]]]].
      constructor.
      + rewrite Ec. apply (inv_ordered _ _ _ H).
      + apply represents_fresh. apply (inv_map _ _ _ H).
      + unfold all_segments, st'. cbn [with_cache with_files reset_builder with_builder next_uuid st_builder]. rewrite map_app. apply nodup_app. split; [apply (inv_nodup _ _ _ H)|]. split; [repeat constructor; easy|].
        intros u Hu [<-|[]]. contradiction.
      + unfold all_segments, st'. cbn [with_cache with_files reset_builder with_builder next_uuid st_builder st_fresh]. apply Forall_app. split; [|constructor; [cbn; lia|constructor]].
        eapply Forall_impl; [|apply (inv_fresh _ _ _ H)]. cbn. intros. lia.
      + apply Forall_app. split; [apply (inv_nonempty _ _ _ H)|]. constructor; [congruence|constructor].
      + unfold st'. cbn [with_cache with_files reset_builder with_builder next_uuid st_files]. rewrite map_app. apply nodup_app. split; [apply (inv_names _ _ _ H)|]. split; [repeat constructor; easy|].
        intros u Hu [<-|[]]. apply in_map_iff in Hu as (f & E & Hf). pose proof (inv_names_fresh _ _ _ H) as Hn. rewrite Forall_forall in Hn. apply Hn in Hf. cbn in E. destruct Hf. contradiction.
      + unfold st'. cbn [with_cache with_files reset_builder with_builder next_uuid st_files st_fresh st_builder sg_id]. apply Forall_app. split.
        * eapply Forall_impl; [|apply (inv_names_fresh _ _ _ H)]. cbn. intros f [? ?]. lia.
        * constructor; [|constructor]. cbn. pose proof (inv_fresh _ _ _ H) as Hf. rewrite Forall_forall in Hf. specialize (Hf g (in_elt _ _ [])). lia.
      + intros h Hh. unfold st'. cbn [with_cache with_files reset_builder with_builder next_uuid st_files]. apply in_app_iff. apply in_app_iff in Hh as [Hh|[<-|[]]]; [left; apply (inv_files _ _ _ H); assumption|right; left; reflexivity].
      + intros f Hf Hd. unfold st' in Hf, Hd. cbn [with_cache with_files reset_builder with_builder next_uuid st_files st_doomed] in Hf, Hd. apply in_app_iff in Hf as [Hf|[<-|[]]].
        * destruct (inv_live _ _ _ H f Hf Hd) as (h & H1 & H2). exists h. split; [apply in_app_iff; auto|assumption].
        * exists g. split; [apply in_app_iff; cbn; auto|reflexivity].
      + intros u Hu. unfold st' in *. cbn [with_cache with_files reset_builder with_builder next_uuid st_doomed st_fresh] in *. destruct (inv_doomed _ _ _ H u Hu) as [D1 D2]. split; [lia|].
        unfold all_segments. cbn [st_builder with_cache]. rewrite map_app, in_app_iff. cbn. intros [G|[G|[]]]; [contradiction|lia].
      + exact Hc'.
      + rewrite Ec. unfold st'. cbn [with_cache with_files reset_builder with_builder next_uuid st_events]. apply (inv_events _ _ _ H).
  Qed.

  Lemma put_overlap : forall size max_size st F d s p, inv st F d -> valid_slice s -> In p (ids_of [s]) -> In p (ids_of (content st F)) ->
    put size max_size writable st s = Some (st, false).
  Proof.
    clear writes_succeed. intros size max_size st F d s p H V Hp Hc. unfold put. destruct V as [V1 V2]. destruct (s_offset s) as [o|] eqn:Eo; [|contradiction].
    destruct (s_rows s) as [|r0 rs0] eqn:Er; [contradiction|]. rewrite <- Er in *. assert (valid_slice s) as V by (split; congruence).
    unfold inject_slice. rewrite ids_of_one in Hp by assumption. apply in_seq in Hp. pose proof (interval_lt s V) as Hlt. destruct (interval s) as [first last]. cbn [fst snd] in *.
    destruct (inv_map _ _ _ H) as [W M].
    pose proof (inject_spec Nat.eqb Nat.eqb_eq (st_map st) (N.of_nat first) (N.of_nat last) (sg_id (st_builder st)) W ltac:(lia)) as I.
    destruct (inject Nat.eqb (N.of_nat first) (N.of_nat last) (sg_id (st_builder st)) (st_map st)) as [m ok]. destruct I as [I1 I2]. destruct ok; [exfalso|].
    - destruct (I1 eq_refl) as [Hno _]. apply Hno. apply ids_in_segments in Hc as (g & G1 & G2). exists (N.of_nat p), (sg_id g). split; [|lia].
      apply M. exists g. rewrite Nat2N.id. auto.
    - reflexivity.
  Qed.
  Lemma put_spec : forall size max_size st F d s, inv st F d -> valid_slice s -> (forall p q, In p (ids_of (content st F)) -> In q (ids_of [s]) -> p < q) ->
    exists st' F', put size max_size writable st s = Some (st', true) /\ inv st' F' d /\ content st' F' = content st F ++ [s] /\
      ca_capacity (st_cache st') = ca_capacity (st_cache st) /\ st_doomed st' = st_doomed st /\
      (forall h, In h (all_segments st F) -> exists h', In h' (all_segments st' F') /\ sg_id h' = sg_id h /\ incl (sg_slices h) (sg_slices h')).
  Proof.
    intros size max_size st F d s H V Habove. unfold put. pose proof V as [V1 V2]. destruct (s_offset s) as [o|] eqn:Eo; [|contradiction].
    destruct (s_rows s) as [|r0 rs0] eqn:Er; [contradiction|]. rewrite <- Er in *.
    set (b := st_builder st). assert (b = Seg (sg_id b) (sg_slices b)) as Eb by (destruct b; reflexivity).
    destruct (represents_inject (st_map st) F (sg_id b) (sg_slices b) [] s) as (m' & -> & R).
    { rewrite <- Eb. apply (inv_map _ _ _ H). }
    { assumption. }
    { rewrite <- Eb. intros p Hp Hc. specialize (Habove p p Hc Hp). lia. }
    cbn [negb]. set (b' := Seg (sg_id b) (sg_slices b ++ [s])). set (st1 := with_events (with_builder (with_map st m') b') (st_events st + length (s_rows s))).
    assert (content st1 F = content st F ++ [s]) as Ec.
    { unfold content, all_segments, st1, b'. cbn [with_events with_builder st_builder]. rewrite !segment_rows_app. cbn. rewrite !app_nil_r. rewrite app_assoc. reflexivity. }
    assert (map sg_id (all_segments st1 F) = map sg_id (all_segments st F)) as Eids by (unfold all_segments; rewrite !map_app; reflexivity).
    assert (inv st1 F d) as H1.
    { constructor; try (unfold st1; cbn; apply H).
      - rewrite Ec. apply ordered_app. split; [apply (inv_ordered _ _ _ H)|]. split; [apply ordered_one; assumption|assumption].
      - exact R.
      - rewrite Eids. apply (inv_nodup _ _ _ H).
      - pose proof (inv_fresh _ _ _ H) as Hf. apply Forall_app in Hf as [Hf1 Hf2]. apply Forall_app. split; [assumption|]. inversion Hf2; subst. constructor; [assumption|constructor].
      - intros u Hu. rewrite Eids. apply (inv_doomed _ _ _ H). assumption.
      - rewrite Ec, rows_app, app_length. unfold st1. cbn [with_events st_events]. rewrite (inv_events _ _ _ H).
        pose proof (total_rows_rows [s]) as T. change (total_rows [s]) with (length (s_rows s) + 0) in T. rewrite <- T by (constructor; [assumption|constructor]). lia. }
    assert (forall h, In h (all_segments st F) -> exists h', In h' (all_segments st1 F) /\ sg_id h' = sg_id h /\ incl (sg_slices h) (sg_slices h')) as Hgrow.
    { intros h Hh. apply in_app_iff in Hh as [Hh|[<-|[]]].
      - exists h. repeat split; auto; [apply in_app_iff; auto|apply incl_refl].
      - exists b'. repeat split; [apply in_app_iff; right; left; reflexivity|]. apply incl_appl, incl_refl. }
    fold st1. destruct (size (sg_slices b') <? max_size).
    - exists st1, F. repeat (split; [reflexivity || assumption|]). assumption.
    - destruct (flush_spec st1 F d H1) as (st2 & F2 & -> & I2 & C2 & _ & Cap & D2 & Alt). exists st2, F2. repeat (split; [reflexivity || assumption || congruence|]).
      intros h Hh. destruct (Hgrow h Hh) as (h' & G1 & G2 & G3). exists h'. repeat split; auto.
      destruct Alt as [<-| ->]; [assumption|]. apply in_app_iff. auto.
  Qed.

  (** * [erase] *)
  Definition kept (xs : list bool) (r : row) : bool := negb (in_set xs r).
  Lemma kept_ids : forall xs ss new, rows new = filter (kept xs) (rows ss) -> ids_of new = filter (fun p => negb (in_ids xs p)) (ids_of ss).
  Proof. intros xs ss new E. unfold ids_of. rewrite E, filter_map_comm. reflexivity. Qed.
  Lemma replace_segment : forall m a g b xs u new, represents m (a ++ g :: b) -> ordered (segment_rows (a ++ g :: b)) -> NoDup (map sg_id (a ++ g :: b)) ->
    rows new = filter (kept xs) (rows (sg_slices g)) -> Forall valid_slice new ->
    represents (inject_all new u (erase_value Nat.eqb (sg_id g) m)) (a ++ Seg u new :: b) /\ ordered (segment_rows (a ++ Seg u new :: b)).
  Proof.
    intros m a g b xs u new R O Nd E V. pose proof (kept_ids _ _ _ E) as Ei.
    assert (forall p, In p (ids_of new) -> In p (ids_of (sg_slices g))) as Hsub by (intros p Hp; rewrite Ei in Hp; apply filter_In in Hp; tauto).
    rewrite segment_rows_app in O. cbn [segment_rows flat_map] in O. fold (segment_rows b) in O. apply ordered_app in O as (O1 & O2 & O3). apply ordered_app in O2 as (O4 & O5 & O6).
    assert (ordered new) as On by (split; [assumption|]; rewrite Ei; apply ss_filter; apply O4).
    split.
    - rewrite map_app in Nd. cbn [map] in Nd. apply NoDup_remove in Nd as [_ Nd]. rewrite <- map_app in Nd.
      pose proof (represents_erase m a g b R Nd) as R1.
      assert (represents (erase_value Nat.eqb (sg_id g) m) (a ++ Seg u [] :: b)) as R2.
      { eapply represents_in; [exact R1|]. intros h Hh. rewrite !in_app_iff. cbn. split; [tauto|]. intros [|[<-|]]; auto. contradiction. }
      pose proof (inject_all_represents new _ a u [] b R2 V) as I. apply I.
      + apply ss_lt_nodup. apply On.
      + intros p Hp Hc. apply Hsub in Hp. unfold segment_rows in Hc. rewrite flat_map_app in Hc. cbn [flat_map sg_slices app] in Hc. rewrite ids_of_app, in_app_iff in Hc.
        destruct Hc as [Hc|Hc].
        * specialize (O3 p p Hc). rewrite ids_of_app, in_app_iff in O3. specialize (O3 (or_introl Hp)). lia.
        * specialize (O6 p p Hp Hc). lia.
    - rewrite segment_rows_app. cbn [segment_rows flat_map sg_slices]. fold (segment_rows b). apply ordered_app. split; [assumption|]. split.
      + apply ordered_app. split; [assumption|]. split; [assumption|]. intros p q Hp Hq. apply O6; auto.
      + intros p q Hp Hq. apply O3; [assumption|]. rewrite ids_of_app, in_app_iff in *. destruct Hq as [Hq|Hq]; auto.
  Qed.
  Lemma filter_count : forall (A : Type) (f : A -> bool) l, length l = length (filter f l) + (length l - length (filter f l)).
  Proof. intros A f l. pose proof (filter_shorter _ f l). lia. Qed.
  Lemma filter_filter : forall (A : Type) (f : A -> bool) l, filter f (filter f l) = filter f l.
  Proof. intros A f. induction l as [|x l IH]; [reflexivity|]. cbn. destruct (f x) eqn:E; cbn; [rewrite E, IH; reflexivity|assumption]. Qed.
  Lemma rows_segments_cons : forall g b, rows (segment_rows (g :: b)) = rows (sg_slices g) ++ rows (segment_rows b).
  Proof. intros. cbn [segment_rows flat_map]. apply rows_app. Qed.
  Lemma no_hit_kept : forall xs u ss new, rows new = filter (kept xs) (rows ss) -> ~ hit_segment xs (Seg u new).
  Proof.
    intros xs u ss new E (p & Hp & Hx). change (In p (ids_of new)) in Hp. rewrite (kept_ids _ _ _ E) in Hp. apply filter_In in Hp as [_ Hp]. rewrite Hx in Hp. discriminate.
  Qed.

  (** What processing one candidate does to the segments. *)
  Definition erased_one (xs : list bool) (st : store) (F : list segment) (u : uuid) (st' : store) (F' : list segment) : Prop :=
    filter (kept xs) (rows (content st' F')) = filter (kept xs) (rows (content st F)) /\
    (forall h, In h (all_segments st' F') -> (In h (all_segments st F) /\ sg_id h <> u) \/ (~ hit_segment xs h /\ st_fresh st <= sg_id h)) /\
    (forall h, In h (all_segments st F) -> sg_id h <> u -> In h (all_segments st' F')) /\
    ca_capacity (st_cache st') = ca_capacity (st_cache st) /\ st_fresh st <= st_fresh st'.

  Lemma erase_segment_spec : forall st F d xs g i, inv st F d -> In g F ->
    (match i with Some i => find_map Nat.eqb (sg_id g) (ca_tracker (st_cache st)) = Some i | None => ~ In (sg_id g) (map fst (entries (ca_xs (st_cache st)))) end) ->
    exists st1 n F', erase_segment writable st g xs = Some (st1, n) /\ st_cache st1 = st_cache st /\
      let st' := match i with Some i => with_cache st1 (cache_erase_at (st_cache st1) i) | None => st1 end in
      inv st' F' (d + n) /\ erased_one xs st F (sg_id g) st' F'.
  Proof.
    intros st F d xs g i H Hg Hi. pose proof (inv_nodup _ _ _ H) as Nd. pose proof (inv_ordered _ _ _ H) as O. pose proof (inv_map _ _ _ H) as R.
    assert (sg_slices g <> []) as Hne by (pose proof (inv_nonempty _ _ _ H) as G; rewrite Forall_forall in G; auto).
    assert (ordered (sg_slices g)) as Og by (eapply ordered_in; [exact O|]; apply in_app_iff; auto).
    destruct (shrink_spec g xs Og Hne) as (r & Er & Erow & Vr & Hr). fold (kept xs) in Erow.
    apply in_split in Hg as (A & B & ->). set (b := st_builder st) in *.
    assert (all_segments st (A ++ g :: B) = A ++ g :: (B ++ [b])) as Eall by (unfold all_segments; rewrite <- app_assoc; reflexivity).
    unfold content in O. rewrite Eall in O, R, Nd.
    set (new := match r with Some new => new | None => [] end) in *.
    set (F' := match r with Some new => A ++ Seg (st_fresh st) new :: B | None => A ++ B end).
    destruct (replace_segment (st_map st) A g (B ++ [b]) xs (st_fresh st) new R O Nd Erow Vr) as [R' O'].
    assert (total_rows (sg_slices g) - total_rows new = length (rows (sg_slices g)) - length (filter (kept xs) (rows (sg_slices g)))) as Hn.
    { rewrite !total_rows_rows by (try assumption; apply Og). rewrite Erow. reflexivity. }
    assert (exists st1, erase_segment writable st g xs = Some (st1, total_rows (sg_slices g) - total_rows new) /\
      st_builder st1 = b /\ st_cache st1 = st_cache st /\ st_events st1 = st_events st /\ st_doomed st1 = st_doomed st ++ [sg_id g] /\
      st_fresh st <= st_fresh st1 /\ (r <> None -> st_fresh st < st_fresh st1) /\
      st_files st1 = st_files st ++ (match r with Some new => [(st_fresh st, Whole (Seg (st_fresh st) new))] | None => [] end) /\
      represents (st_map st1) (F' ++ [b])) as (st1 & E1 & S1 & S2 & S3 & S4 & S5 & S5' & S6 & S7).
    { unfold erase_segment. rewrite Er. unfold new, F' in *. destruct r as [new'|]; cbn [option_map].
      - rewrite writes_succeed. eexists. split; [reflexivity|]. cbn. repeat (split; [reflexivity || lia|]). rewrite <- app_assoc. exact R'.
      - eexists. split; [do 2 f_equal; cbn; lia|]. cbn. repeat (split; [reflexivity || (intros; contradiction) || lia|]). split; [symmetry; apply app_nil_r|].
        rewrite <- app_assoc. eapply represents_in; [exact R'|]. intros h Hh. rewrite !in_app_iff. cbn [In]. rewrite !in_app_iff. cbn [In]. split; [|tauto].
        intros [|[<-|]]; auto; contradiction. }
    exists st1, (total_rows (sg_slices g) - total_rows new), F'. split; [assumption|]. split; [assumption|]. intros st'.
    assert (cache_in (st_cache st') F' /\ ca_capacity (st_cache st') = ca_capacity (st_cache st)) as [Hc Hcap].
    { assert (forall h, In h (A ++ g :: B) -> sg_id h <> sg_id g -> In h F') as Hs.
      { intros h Hh Hid. unfold F'. rewrite in_app_iff in Hh. cbn in Hh. destruct Hh as [Hh|[<-|Hh]]; [|contradiction|]; destruct r; rewrite in_app_iff; cbn; auto. }
      unfold st'. destruct i as [i|].
      - cbn [with_cache st_cache]. rewrite S2. destruct (cache_erase_at_in (st_cache st) _ F' (sg_id g) i (inv_cache _ _ _ H) Hi Hs) as (C1 & C2 & _). auto.
      - rewrite S2. split; [|reflexivity]. eapply cache_in_drop; [apply (inv_cache _ _ _ H)|exact Hi|exact Hs]. }
    assert (st_builder st' = b /\ st_files st' = st_files st1 /\ st_doomed st' = st_doomed st1 /\ st_fresh st' = st_fresh st1 /\ st_map st' = st_map st1 /\ st_events st' = st_events st1) as (T1 & T2 & T3 & T4 & T5 & T6).
    { unfold st'. destruct i; cbn; repeat split; auto. }
    assert (all_segments st' F' = F' ++ [b]) as Eall' by (unfold all_segments; rewrite T1; reflexivity).
    assert (segment_rows (F' ++ [b]) = segment_rows (A ++ Seg (st_fresh st) new :: (B ++ [b]))) as Esr.
    { unfold F', new. destruct r; rewrite <- app_assoc; [reflexivity|]. rewrite !(segment_rows_app A). reflexivity. }
    assert (content st' F' = segment_rows (A ++ Seg (st_fresh st) new :: (B ++ [b]))) as Ec by (unfold content; rewrite Eall'; exact Esr).
    assert (rows (content st' F') = rows (segment_rows A) ++ filter (kept xs) (rows (sg_slices g)) ++ rows (segment_rows (B ++ [b]))) as Erows'.
    { rewrite Ec, segment_rows_app, rows_app, rows_segments_cons. cbn [sg_slices]. rewrite Erow. reflexivity. }
    assert (rows (content st (A ++ g :: B)) = rows (segment_rows A) ++ rows (sg_slices g) ++ rows (segment_rows (B ++ [b]))) as Erows.
    { unfold content. rewrite Eall, segment_rows_app, rows_app, rows_segments_cons. reflexivity. }
    pose proof (inv_fresh _ _ _ H) as Hfr. rewrite Eall in Hfr.
    assert (forall h, In h F' -> (In h (A ++ B)) \/ (exists new', r = Some new' /\ h = Seg (st_fresh st) new')) as HF'.
    { intros h Hh. unfold F' in Hh. destruct r as [new'|]; [|auto]. rewrite in_app_iff in *. cbn in Hh. destruct Hh as [Hh|[<-|Hh]]; auto. right. exists new'. auto. }
    assert (In g (A ++ g :: B ++ [b])) as Hgin by (apply in_app_iff; cbn; auto).
    assert (forall h, In h (A ++ B ++ [b]) -> In h (A ++ g :: B ++ [b]) /\ sg_id h <> sg_id g) as Hothers.
    { intros h Hh. split; [rewrite in_app_iff in *; cbn; tauto|]. rewrite map_app in Nd. cbn [map] in Nd. apply NoDup_remove in Nd as [_ Nd]. rewrite <- map_app in Nd.
      intros E. apply Nd. rewrite <- E. apply in_map. assumption. }
    split.
    { constructor.
      - rewrite Ec. exact O'.
      - rewrite Eall', T5. exact S7.
      - rewrite Eall'. rewrite map_app in Nd. cbn [map] in Nd. pose proof (NoDup_remove _ _ _ Nd) as [Nd1 Nd2]. unfold F'. destruct r as [new'|].
        + rewrite <- app_assoc, map_app. cbn [map sg_id app]. apply NoDup_Add with (a := st_fresh st) (l := map sg_id A ++ map sg_id (B ++ [b])); [apply Add_app|].
          split; [assumption|]. rewrite <- map_app. intros Hin. apply in_map_iff in Hin as (h & E & Hh). apply Hothers in Hh as [Hh _]. rewrite Forall_forall in Hfr. specialize (Hfr _ Hh). lia.
        + rewrite <- app_assoc, map_app. assumption.
      - rewrite Eall', T4. apply Forall_forall. intros h Hh. apply in_app_iff in Hh as [Hh|Hh].
        + apply HF' in Hh as [Hh|(new' & E & ->)].
          * rewrite Forall_forall in Hfr. assert (In h (A ++ g :: B ++ [b])) as Hin by (rewrite in_app_iff in *; cbn; rewrite in_app_iff; tauto). specialize (Hfr _ Hin). lia.
          * cbn. apply S5'. congruence.
        + rewrite Forall_forall in Hfr. assert (In h (A ++ g :: B ++ [b])) as Hin by (rewrite in_app_iff; cbn; rewrite in_app_iff; tauto). specialize (Hfr _ Hin). lia.
      - pose proof (inv_nonempty _ _ _ H) as Hnn. rewrite Forall_forall in *. intros h Hh. apply HF' in Hh as [Hh|(new' & E & ->)].
        + apply Hnn. rewrite in_app_iff in *. cbn. tauto.
        + cbn. congruence.
      - rewrite T2, S6, map_app. apply nodup_app. split; [apply (inv_names _ _ _ H)|]. split; [destruct r; repeat constructor; easy|].
        intros u Hu Hu'. destruct r; cbn in Hu'; [|easy]. destruct Hu' as [<-|[]]. apply in_map_iff in Hu as (f & E & Hf).
        pose proof (inv_names_fresh _ _ _ H) as G. rewrite Forall_forall in G. apply G in Hf. lia.
      - rewrite T2, S6, T1, T4. apply Forall_app. split.
        + eapply Forall_impl; [|apply (inv_names_fresh _ _ _ H)]. cbn. fold b. intros f [? ?]. split; [lia|assumption].
        + destruct r; constructor; [|constructor]. cbn. split; [apply S5'; discriminate|]. rewrite Forall_forall in Hfr.
          assert (In b (A ++ g :: B ++ [b])) as Hin by (rewrite in_app_iff; cbn; rewrite in_app_iff; cbn; tauto). specialize (Hfr _ Hin). lia.
      - intros h Hh. rewrite T2, S6. apply in_app_iff. apply HF' in Hh as [Hh|(new' & -> & ->)]; [|right; left; reflexivity].
        left. apply (inv_files _ _ _ H). rewrite in_app_iff in *. cbn. tauto.
      - intros f Hf Hd. rewrite T2, S6 in Hf. rewrite T3, S4 in Hd. rewrite in_app_iff in Hd. apply in_app_iff in Hf as [Hf|Hf].
        + destruct (inv_live _ _ _ H f Hf) as (h & H1 & H2); [tauto|]. exists h. split; [|assumption].
          assert (sg_id h <> sg_id g) by (intros E; apply Hd; right; left; rewrite H2; cbn; congruence).
          rewrite in_app_iff in H1. cbn in H1. unfold F'. destruct H1 as [H1|[<-|H1]]; [|contradiction|]; destruct r; rewrite in_app_iff; cbn; auto.
        + unfold F'. destruct r as [new'|]; [|destruct Hf]. destruct Hf as [<-|[]]. exists (Seg (st_fresh st) new'). split; [|reflexivity]. apply in_app_iff. cbn. auto.
      - intros u Hu. rewrite T3, S4 in Hu. rewrite Eall', T4. apply in_app_iff in Hu as [Hu|[<-|[]]].
        + destruct (inv_doomed _ _ _ H u Hu) as [D1 D2]. split; [lia|]. intros Hin. apply in_map_iff in Hin as (h & E & Hh). apply in_app_iff in Hh as [Hh|Hh].
          * apply HF' in Hh as [Hh|(new' & _ & ->)]; [|cbn in E; lia]. apply D2. rewrite Eall, <- E. apply in_map. rewrite in_app_iff in *. cbn. rewrite in_app_iff. tauto.
          * apply D2. rewrite Eall, <- E. apply in_map. rewrite in_app_iff. cbn. rewrite in_app_iff. tauto.
        + rewrite Forall_forall in Hfr. pose proof (Hfr _ Hgin) as Hgf. split; [lia|]. intros Hin. apply in_map_iff in Hin as (h & E & Hh). apply in_app_iff in Hh as [Hh|Hh].
          * apply HF' in Hh as [Hh|(new' & _ & ->)]; [|cbn in E; lia]. apply (Hothers h); [|assumption]. rewrite app_assoc. apply in_app_iff. auto.
          * apply (Hothers h); [|assumption]. rewrite app_assoc. apply in_app_iff. auto.
      - assumption.
      - rewrite T6, S3, (inv_events _ _ _ H), Erows, Erows'. rewrite !app_length, Hn. pose proof (filter_shorter _ (kept xs) (rows (sg_slices g))). lia. }
    split; [|split; [|split; [|split]]].
    - rewrite Erows, Erows'. rewrite !filter_app, filter_filter. reflexivity.
    - intros h Hh. rewrite Eall' in Hh. apply in_app_iff in Hh as [Hh|Hh].
      + apply HF' in Hh as [Hh|(new' & E & ->)].
        * left. rewrite Eall. apply Hothers. rewrite app_assoc. apply in_app_iff. auto.
        * right. split; [|cbn; lia]. unfold new in Erow. rewrite E in Erow. eapply no_hit_kept. exact Erow.
      + left. rewrite Eall. apply Hothers. rewrite app_assoc. apply in_app_iff. auto.
    - intros h Hh Hid. rewrite Eall'. rewrite Eall in Hh. rewrite in_app_iff in *. cbn in Hh. rewrite in_app_iff in Hh. unfold F'.
      destruct Hh as [Hh|[<-|[Hh|Hh]]]; [|contradiction| |auto]; left; destruct r; rewrite in_app_iff; cbn; auto.
    - assumption.
    - lia.
  Qed.

  Lemma erase_builder_spec : forall st F d xs, inv st F d -> sg_slices (st_builder st) <> [] ->
    exists st' n, erase_builder st xs = Some (st', n) /\ inv st' F (d + n) /\ erased_one xs st F (sg_id (st_builder st)) st' F.
  Proof.
    intros st F d xs H Hne. set (b := st_builder st) in *. pose proof (inv_nodup _ _ _ H) as Nd. pose proof (inv_ordered _ _ _ H) as O. pose proof (inv_map _ _ _ H) as R.
    assert (ordered (sg_slices b)) as Og by (eapply ordered_in; [exact O|]; apply in_app_iff; cbn; auto).
    destruct (shrink_spec b xs Og Hne) as (r & Er & Erow & Vr & Hr). fold (kept xs) in Erow.
    set (new := match r with Some new => new | None => [] end) in *.
    destruct (replace_segment (st_map st) F b [] xs (st_fresh st) new R O Nd Erow Vr) as [R' O'].
    assert (total_rows (sg_slices b) - total_rows new = length (rows (sg_slices b)) - length (filter (kept xs) (rows (sg_slices b)))) as Hn.
    { rewrite !total_rows_rows by (try assumption; apply Og). rewrite Erow. reflexivity. }
    assert (exists st', erase_builder st xs = Some (st', total_rows (sg_slices b) - total_rows new) /\ st_builder st' = Seg (st_fresh st) new /\ st_cache st' = st_cache st /\
      st_events st' = st_events st /\ st_doomed st' = st_doomed st /\ st_fresh st' = S (st_fresh st) /\ st_files st' = st_files st /\
      st_map st' = inject_all new (st_fresh st) (erase_value Nat.eqb (sg_id b) (st_map st))) as (st' & E1 & S1 & S2 & S3 & S4 & S5 & S6 & S7).
    { unfold erase_builder. fold b. rewrite Er. unfold new in *. destruct r as [new'|].
      - eexists. split; [reflexivity|]. cbn. repeat split; reflexivity.
      - eexists. split; [do 2 f_equal; cbn; lia|]. cbn. repeat split; reflexivity. }
    exists st', (total_rows (sg_slices b) - total_rows new). split; [assumption|].
    assert (all_segments st' F = F ++ [Seg (st_fresh st) new]) as Eall by (unfold all_segments; rewrite S1; reflexivity).
    assert (rows (content st' F) = rows (segment_rows F) ++ filter (kept xs) (rows (sg_slices b))) as Er'.
    { unfold content. rewrite Eall, segment_rows_app, rows_app, rows_segments_cons. cbn [sg_slices]. rewrite Erow. change (rows (segment_rows [])) with (@nil row). rewrite app_nil_r. reflexivity. }
    assert (rows (content st F) = rows (segment_rows F) ++ rows (sg_slices b)) as Er0.
    { unfold content, all_segments. rewrite segment_rows_app, rows_app, rows_segments_cons. change (rows (segment_rows [])) with (@nil row). rewrite app_nil_r. reflexivity. }
    pose proof (inv_fresh _ _ _ H) as Hfr. unfold all_segments in Hfr. fold b in Hfr. apply Forall_app in Hfr as [Hf1 Hf2]. inversion Hf2 as [|? ? Hf3 _]; subst.
    assert (forall h, In h F -> sg_id h <> sg_id b) as Hdiff.
    { intros h Hh E. unfold all_segments in Nd. fold b in Nd. rewrite map_app in Nd. apply nodup_app in Nd as (_ & _ & Nd). apply (Nd (sg_id h)); [apply in_map; assumption|]. left. symmetry. assumption. }
    split.
    { constructor; try (rewrite ?S1, ?S2, ?S3, ?S4, ?S5, ?S6, ?S7; apply H).
      - unfold content. rewrite Eall. exact O'.
      - rewrite Eall, S7. exact R'.
      - rewrite Eall, map_app. unfold all_segments in Nd. rewrite map_app in Nd. apply nodup_app in Nd as (N1 & _ & _). apply nodup_app. split; [assumption|]. split; [repeat constructor; easy|].
        intros u Hu [<-|[]]. apply in_map_iff in Hu as (h & E & Hh). rewrite Forall_forall in Hf1. specialize (Hf1 _ Hh). cbn in E. lia.
      - rewrite Eall, S5. apply Forall_app. split; [eapply Forall_impl; [|exact Hf1]; cbn; intros; lia|]. constructor; [cbn; lia|constructor].
      - rewrite S5, S6, S1. eapply Forall_impl; [|apply (inv_names_fresh _ _ _ H)]. cbn. intros f [? ?]. lia.
      - intros u Hu. rewrite S4 in Hu. rewrite S5, Eall. destruct (inv_doomed _ _ _ H u Hu) as [D1 D2]. split; [lia|]. rewrite map_app, in_app_iff. cbn. intros [G|[G|[]]]; [|lia].
        apply D2. unfold all_segments. rewrite map_app. apply in_app_iff. auto.
      - rewrite S3, (inv_events _ _ _ H), Er', Er0. rewrite !app_length, Hn. pose proof (filter_shorter _ (kept xs) (rows (sg_slices b))). lia. }
    split; [|split; [|split; [|split]]].
    - rewrite Er', Er0, !filter_app, filter_filter. reflexivity.
    - intros h Hh. rewrite Eall in Hh. apply in_app_iff in Hh as [Hh|[<-|[]]].
      + left. split; [apply in_app_iff; auto|apply Hdiff; assumption].
      + right. split; [eapply no_hit_kept; exact Erow|cbn; lia].
    - intros h Hh Hid. rewrite Eall. apply in_app_iff in Hh as [Hh|[<-|[]]]; [apply in_app_iff; auto|contradiction].
    - rewrite S2. reflexivity.
    - lia.
  Qed.

  Lemma hit_nonempty : forall xs g, hit_segment xs g -> sg_slices g <> [].
  Proof. intros xs g (p & Hp & _) E. rewrite E in Hp. destruct Hp. Qed.

  Lemma erase_candidate_spec : forall st F d xs g, inv st F d -> In g (all_segments st F) -> sg_slices g <> [] ->
    exists st' n F', erase_candidate writable st xs (sg_id g) = Some (st', n) /\ inv st' F' (d + n) /\ erased_one xs st F (sg_id g) st' F'.
  Proof.
    intros st F d xs g H Hg Hne. pose proof (inv_nodup _ _ _ H) as Nd. unfold erase_candidate.
    destruct (cache_find_spec Nat.eqb Nat.eqb_eq (st_cache st) (sg_id g) (proj1 (inv_cache _ _ _ H))) as (c0 & Ec0 & _ & V0).
    destruct (cache_find_in (st_cache st) F (sg_id g) (inv_cache _ _ _ H)) as (c & r & Ec & Hc & Hcap & Hr). rewrite Ec.
    assert (inv (with_cache st c) F d) as H1 by (apply inv_with_cache; assumption).
    assert (forall st' F', erased_one xs (with_cache st c) F (sg_id g) st' F' -> erased_one xs st F (sg_id g) st' F') as Hlift.
    { intros st' F' (E1 & E2 & E3 & E4 & E5). repeat split; auto. cbn in E4. congruence. }
    destruct r as [h|].
    - destruct Hr as (R1 & R2 & i & Hi). assert (h = g) as -> by (eapply unique_segment; eauto; apply in_app_iff; auto).
      destruct (erase_segment_spec _ F d xs g (Some i) H1 R2 Hi) as (st1 & n & F' & -> & Ecache & I1 & I2). rewrite Hi.
      eexists _, n, F'. split; [reflexivity|]. split; [assumption|]. apply Hlift. assumption.
    - destruct (Nat.eqb_spec (sg_id g) (sg_id (st_builder st))) as [E|Hnb].
      + assert (g = st_builder st) as -> by (eapply unique_segment; eauto; apply in_app_iff; cbn; auto).
        destruct (erase_builder_spec _ F d xs H1 Hne) as (st' & n & -> & I1 & I2). exists st', n, F. split; [reflexivity|]. split; [assumption|]. apply Hlift. assumption.
      + assert (In g F) as HF by (apply in_app_iff in Hg as [Hg|[<-|[]]]; [assumption|contradiction]).
        rewrite (load_file _ _ _ _ H HF). destruct (erase_segment_spec _ F d xs g None H1 HF) as (st1 & n & F' & -> & Ecache & I1 & I2).
        { rewrite Ec0 in Ec. injection Ec as <- El. unfold cache_view at 2 in V0. cbn [cache_spec] in V0. rewrite El in V0. apply view_entries in V0 as [V1 _].
          cbn [with_cache st_cache]. rewrite V1. apply (lookup_absent Nat.eqb Nat.eqb_eq). assumption. }
        eexists _, n, F'. split; [reflexivity|]. split; [assumption|]. apply Hlift. assumption.
  Qed.

  Lemma erase_loop_spec : forall cs st F d xs, inv st F d -> NoDup cs -> (forall u, In u cs -> exists g, In g (all_segments st F) /\ sg_id g = u /\ sg_slices g <> []) ->
    (forall g, In g (all_segments st F) -> hit_segment xs g -> In (sg_id g) cs) ->
    exists st' n F', erase_loop writable st xs cs = Some (st', n) /\ inv st' F' (d + n) /\ rows (content st' F') = filter (kept xs) (rows (content st F)) /\
      ca_capacity (st_cache st') = ca_capacity (st_cache st).
  Proof.
    induction cs as [|u cs IH]; intros st F d xs H Nd Hin Hhit.
    - exists st, 0, F. split; [reflexivity|]. rewrite Nat.add_0_r. split; [assumption|]. split; [|reflexivity]. symmetry. apply filter_all. intros r Hr.
      unfold kept. apply negb_true_iff. apply not_true_iff_false. intros Hx.
      assert (In (row_id r) (ids_of (content st F))) as Hid by (unfold ids_of; apply in_map; assumption).
      apply ids_in_segments in Hid as (g & G1 & G2). destruct (Hhit g G1). exists (row_id r). auto.
    - inversion Nd; subst. destruct (Hin u (or_introl eq_refl)) as (g & G1 & <- & G3). cbn [erase_loop].
      destruct (erase_candidate_spec st F d xs g H G1 G3) as (st1 & n1 & F1 & -> & I1 & (E1 & E2 & E3 & E4 & E5)).
      destruct (IH st1 F1 (d + n1) xs I1 H3) as (st2 & n2 & F2 & -> & I2 & R2 & C2).
      + intros u Hu. destruct (Hin u (or_intror Hu)) as (h & K1 & K2 & K3). exists h. split; [|auto]. apply E3; [assumption|]. intros E. apply H2. congruence.
      + intros h Hh Hx. destruct (E2 h Hh) as [[K1 K2]|[K _]]; [|contradiction]. destruct (Hhit h K1 Hx) as [E|]; [|assumption]. symmetry in E. contradiction.
      + exists st2, (n1 + n2), F2. split; [reflexivity|]. rewrite Nat.add_assoc. split; [assumption|]. split; [congruence|congruence].
  Qed.
  (** [erase] removes exactly the rows with the given IDs. *)
  Lemma erase_spec : forall st F xs, inv st F 0 -> exists st' F', erase writable st xs = Some st' /\ inv st' F' 0 /\
    rows (content st' F') = filter (kept xs) (rows (content st F)) /\ ca_capacity (st_cache st') = ca_capacity (st_cache st).
  Proof.
    intros st F xs H. unfold erase. destruct (select_segments_spec st F 0 xs H) as (cs & -> & Nd & Hc).
    destruct (erase_loop_spec cs st F 0 xs H Nd) as (st1 & n & F' & -> & I & R & C).
    - intros u Hu. apply Hc in Hu as (g & G1 & G2 & G3). exists g. repeat split; auto. eapply hit_nonempty. eassumption.
    - intros g G1 G2. apply Hc. exists g. auto.
    - pose proof (inv_events _ _ _ I) as Hev. cbn in Hev. destruct (Nat.leb_spec n (st_events st1)); [|lia].
      eexists _, F'. split; [reflexivity|]. split; [|split; [exact R|exact C]]. destruct I. constructor; auto. cbn.
      match goal with |- _ = ?a + 0 => change (content (with_events st1 (st_events st1 - n)) F') with (content st1 F') in * end. lia.
  Qed.

End Write.

Section Open.
  (** * Releasing chunks and opening a store *)
  Lemma release_spec : forall st F d u, inv st F d -> inv (release st u) F d.
  Proof.
    intros st F d u H. unfold release. destruct (existsb (Nat.eqb u) (st_doomed st)) eqn:E; [|assumption].
    apply existsb_exists in E as (v & Hv & Ev). apply Nat.eqb_eq in Ev. subst v. pose proof (inv_doomed _ _ _ H u Hv) as [D1 D2].
    constructor; try apply H; cbn [with_files st_files st_doomed].
    - pose proof (inv_names _ _ _ H) as Nd. clear -Nd. induction (st_files st) as [|f fs IH]; cbn; [constructor|]. cbn in Nd. inversion Nd; subst.
      destruct (negb (fst f =? u)); [|auto]. cbn. constructor; [|auto]. intros Hin. apply H1. apply in_map_iff in Hin as (g & E & Hg). apply filter_In in Hg as [Hg _]. rewrite <- E. apply in_map. assumption.
    - pose proof (inv_names_fresh _ _ _ H) as G. rewrite Forall_forall in *. intros f Hf. apply filter_In in Hf. apply G. tauto.
    - intros g Hg. apply filter_In. split; [apply (inv_files _ _ _ H); assumption|]. apply negb_true_iff, Nat.eqb_neq. cbn. intros <-. apply D2. apply in_map. apply in_app_iff. auto.
    - intros f Hf Hd. apply filter_In in Hf as [Hf Hu]. apply negb_true_iff, Nat.eqb_neq in Hu. apply (inv_live _ _ _ H); [assumption|]. intros Hin. apply Hd. apply filter_In. split; [assumption|].
      apply negb_true_iff, Nat.eqb_neq. assumption.
    - intros v Hin. apply filter_In in Hin as [Hin _]. apply (inv_doomed _ _ _ H). assumption.
  Qed.
  Lemma clear_cache_spec : forall st F d, inv st F d -> inv (clear_cache st) F d.
  Proof. intros st F d H. apply inv_with_cache; [assumption|]. eapply cache_clear_in. apply (inv_cache _ _ _ H). Qed.

  Definition file_of (g : segment) : uuid * file := (sg_id g, Whole g).
  Lemma register_spec : forall G m n L, represents m L -> NoDup (map sg_id (L ++ G)) -> Forall valid_slice (segment_rows (L ++ G)) -> NoDup (ids_of (segment_rows (L ++ G))) ->
    exists m', fold_left register_segment (map file_of G) (Some (m, n)) = Some (m', n + total_rows (segment_rows G)) /\ represents m' (L ++ G).
  Proof.
    induction G as [|g G IH]; intros m n L R N1 V N2.
    - exists m. rewrite app_nil_r. unfold total_rows. cbn. rewrite Nat.add_0_r. auto.
    - cbn [map fold_left]. unfold register_segment at 2. cbn [snd file_of].
      pose proof (represents_fresh m L (sg_id g) R) as R1.
      rewrite segment_rows_app in V, N2. cbn [segment_rows flat_map] in V, N2. fold (segment_rows G) in V, N2. apply Forall_app in V as [V1 V2]. apply Forall_app in V2 as [V2 V3].
      rewrite !ids_of_app in N2. apply nodup_app in N2 as (N2 & N3 & N4). apply nodup_app in N3 as (N3 & N5 & N6).
      destruct (inject_all_represents (sg_slices g) m L (sg_id g) [] [] R1 V2 N3) as [I1 I2].
      { intros p Hp Hc. rewrite segment_rows_app in Hc. cbn [segment_rows flat_map sg_slices app] in Hc. rewrite app_nil_r in Hc. apply (N4 p Hc). apply in_app_iff. auto. }
      rewrite I2. cbn [option_map app] in *. assert (Seg (sg_id g) (sg_slices g) = g) as Eg by (destruct g; reflexivity). rewrite Eg in I1.
      destruct (IH (inject_all (sg_slices g) (sg_id g) m) (n + total_rows (sg_slices g)) (L ++ [g]) I1) as (m' & E & R').
      + rewrite <- app_assoc. assumption.
      + rewrite <- app_assoc, segment_rows_app. cbn [app segment_rows flat_map]. rewrite !Forall_app. auto.
      + rewrite <- app_assoc, segment_rows_app. cbn [app segment_rows flat_map]. rewrite !ids_of_app. fold (segment_rows G). apply nodup_app. split; [assumption|]. split; [apply nodup_app; auto|assumption].
      + exists m'. rewrite E. split; [|rewrite <- app_assoc in R'; assumption]. do 2 f_equal. unfold total_rows. cbn [segment_rows flat_map]. rewrite map_app, list_sum_app. fold (segment_rows G). lia.
  Qed.

  Lemma segment_rows_perm : forall a b, Permutation a b -> Permutation (segment_rows a) (segment_rows b).
  Proof. intros a b H. apply Permutation_flat_map. assumption. Qed.
  (** Opening a directory with the segments of [F], listed in any order. *)
  Lemma open_spec : forall capacity F G fresh, 0 < capacity -> Permutation G F -> ordered (segment_rows F) -> NoDup (map sg_id F) ->
    Forall (fun g => sg_slices g <> [] /\ sg_id g < fresh) F ->
    exists st, open capacity (map file_of G) fresh = Some st /\ inv st F 0 /\ st_builder st = Seg fresh [] /\ st_doomed st = [] /\ ca_capacity (st_cache st) = capacity.
  Proof.
    intros capacity F G fresh Hcap P O Nd Hf. unfold open.
    assert (forall g, In g G <-> In g F) as Hin by (intros g; split; apply Permutation_in; [|symmetry]; assumption).
    pose proof (segment_rows_perm _ _ P) as P2.
    assert (Permutation (ids_of (segment_rows G)) (ids_of (segment_rows F))) as P3.
    { unfold ids_of, rows. apply Permutation_map. apply Permutation_flat_map. assumption. }
    destruct (register_spec G [] 0 [] represents_nil) as (m & E & R); cbn [app].
    - eapply Permutation_NoDup; [apply Permutation_map; symmetry; exact P|assumption].
    - eapply Permutation_Forall; [symmetry; exact P2|apply O].
    - eapply Permutation_NoDup; [symmetry; exact P3|]. apply ss_lt_nodup. apply O.
    - match goal with |- context [fold_left ?f ?l ?a] => replace (fold_left f l a) with (Some (m, 0 + total_rows (segment_rows G))) by (symmetry; exact E) end.
      unfold cache_new. destruct (Nat.ltb_spec 0 capacity); [|lia]. eexists. split; [reflexivity|]. split; [|repeat split].
      assert (forall g, In g F -> sg_id g < fresh) as Hfr by (intros g Hg; rewrite Forall_forall in Hf; apply Hf in Hg; tauto).
      constructor; unfold content, all_segments; cbn [st_builder st_map st_fresh st_files st_doomed st_cache st_events].
      + rewrite segment_rows_app. cbn. rewrite app_nil_r. assumption.
      + apply represents_fresh. eapply represents_in; [exact R|]. intros g _. cbn [app]. apply Hin.
      + rewrite map_app. apply nodup_app. split; [assumption|]. split; [repeat constructor; easy|]. intros u Hu [<-|[]]. apply in_map_iff in Hu as (g & Eg & Hg). apply Hfr in Hg. cbn in Eg. lia.
      + apply Forall_app. split; [|constructor; [cbn; lia|constructor]]. apply Forall_forall. intros g Hg. apply Hfr in Hg. lia.
      + eapply Forall_impl; [|exact Hf]. cbn; tauto.
      + rewrite map_map. cbn. eapply Permutation_NoDup; [apply Permutation_map; symmetry; exact P|assumption].
      + apply Forall_forall. intros f Hff. apply in_map_iff in Hff as (g & <- & Hg). apply Hin, Hfr in Hg. cbn. lia.
      + intros g Hg. apply in_map_iff. exists g. split; [reflexivity|]. apply Hin. assumption.
      + intros f Hff _. apply in_map_iff in Hff as (g & <- & Hg). exists g. split; [apply Hin; assumption|reflexivity].
      + intros u [].
      + split; [|intros u g []]. split; [|cbn; lia]. repeat split; cbn; try constructor; try easy. intros (x & [] & _).
      + rewrite segment_rows_app. cbn [segment_rows flat_map sg_slices]. rewrite app_nil_r. rewrite total_rows_rows by (eapply Permutation_Forall; [symmetry; exact P2|apply O]).
        rewrite Nat.add_0_r. cbn. apply Permutation_length. unfold rows. apply Permutation_flat_map. assumption.
  Qed.
End Open.
