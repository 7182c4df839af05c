(** Proofs about the segment store, first part: [select_with], the IDs of slices, the
    range map and shrinking segments. *)
From Coq Require Import List Bool Arith NArith ZArith Lia Sorted Permutation.
From Coq Require Import ZifyBool ZifyNat ZifyN.
From Verif Require Import DataModel TypeModel TableSliceModel TableSliceProofs RangeMapModel RangeMapProofs LruModel LruProofs SegmentStoreModel.
Import ListNotations.
Open Scope nat_scope.

(** * [select_with] *)
Lemma next_one_some : forall ids p q, next_one ids p = Some q -> p <= q /\ in_ids ids q = true /\ forall r, p <= r < q -> in_ids ids r = false.
Proof.
  intros ids p q. unfold next_one, in_ids. generalize (length ids - p) as n. intros n. revert p.
  induction n as [|n IH]; intros p H; [discriminate|]. cbn [seq List.find] in H.
  destruct (nth p ids false) eqn:E.
  - injection H as <-. repeat split; auto. intros r Hr. lia.
  - apply IH in H as (H1 & H2 & H3). repeat split; auto; [lia|]. intros r Hr.
    destruct (Nat.eq_dec r p) as [->|]; [assumption|]. apply H3. lia.
Qed.
Lemma next_one_none : forall ids p, next_one ids p = None -> forall r, p <= r -> in_ids ids r = false.
Proof.
  intros ids p H r Hr. unfold next_one in H. unfold in_ids. destruct (Nat.lt_ge_cases r (length ids)) as [Hl|Hl].
  - apply (find_none _ _ H). apply in_seq. lia.
  - apply nth_overflow. assumption.
Qed.

Section SelectWith.
  Context {A : Type} (f : A -> nat * nat).
  Definition follows (a b : A) : Prop := snd (f a) <= fst (f b).
  Definition sorted_intervals (l : list A) : Prop := StronglySorted follows l /\ Forall (fun a => fst (f a) < snd (f a)) l.
  (** An element whose interval contains an ID of the set at or after [p]. *)
  Definition hit_after (ids : list bool) (p : nat) (a : A) : bool :=
    existsb (fun q => (p <=? q) && in_ids ids q) (seq (fst (f a)) (snd (f a) - fst (f a))).

  Lemma hit_after_iff : forall ids p a, hit_after ids p a = true <-> exists q, p <= q /\ in_ids ids q = true /\ fst (f a) <= q < snd (f a).
  Proof.
    intros ids p a. unfold hit_after. rewrite existsb_exists. split.
    - intros (q & H1 & H2). apply in_seq in H1. apply andb_true_iff in H2 as [H2 H3]. apply Nat.leb_le in H2. exists q. repeat split; auto; lia.
    - intros (q & H1 & H2 & H3). exists q. split; [apply in_seq; lia|]. apply andb_true_iff. split; [apply Nat.leb_le|]; assumption.
  Qed.

  Lemma sorted_cons : forall x l, sorted_intervals (x :: l) -> sorted_intervals l /\ fst (f x) < snd (f x) /\ Forall (fun a => snd (f x) <= fst (f a) /\ snd (f x) < snd (f a)) l.
  Proof.
    intros x l [H1 H2]. inversion H1; subst. inversion H2; subst. repeat split; auto.
    rewrite Forall_forall in *. intros a Ha. specialize (H4 _ Ha). specialize (H6 _ Ha). unfold follows in H4. lia.
  Qed.
  Lemma sorted_nth : forall l i j x y, sorted_intervals l -> i <= j -> nth_error l i = Some x -> nth_error l j = Some y -> snd (f x) <= snd (f y).
  Proof.
    induction l as [|a l IH]; intros i j x y S Hij Hi Hj; [destruct i; discriminate|].
    apply sorted_cons in S as (S1 & S2 & S3). destruct i as [|i], j as [|j]; cbn in *; try lia.
    - injection Hi as <-. injection Hj as <-. lia.
    - injection Hi as <-. apply nth_error_In in Hj. rewrite Forall_forall in S3. specialize (S3 _ Hj). lia.
    - apply (IH i j); auto. lia.
  Qed.

  Lemma lower_index_spec : forall fuel l y first len, sorted_intervals l -> len <= fuel -> first + len <= length l ->
    (forall i x, i < first -> nth_error l i = Some x -> snd (f x) <= y) ->
    (forall i x, first + len <= i -> nth_error l i = Some x -> y < snd (f x)) ->
    let r := lower_index f fuel l y first len in
    first <= r <= first + len /\ (forall i x, i < r -> nth_error l i = Some x -> snd (f x) <= y) /\
    (forall i x, r <= i -> nth_error l i = Some x -> y < snd (f x)).
  Proof.
    induction fuel as [|fuel IH]; intros l y first len S Hf Hl Hlo Hhi r.
    - assert (len = 0) by lia. subst len. unfold r. cbn. rewrite Nat.add_0_r in *. repeat split; auto; lia.
    - unfold r. cbn [lower_index]. destruct (Nat.eqb_spec len 0) as [->|Hne].
      + rewrite Nat.add_0_r in *. repeat split; auto; lia.
      + assert (len / 2 < len) as Hh by (apply Nat.div_lt; lia). set (half := len / 2) in *.
        destruct (nth_error l (first + half)) as [m|] eqn:Em; [|apply nth_error_None in Em; lia].
        destruct (Nat.leb_spec (snd (f m)) y) as [Hm|Hm].
        * destruct (IH l y (first + half + 1) (len - half - 1) S) as (R1 & R2 & R3).
          -- lia.
          -- lia.
          -- intros i x Hi Hx. assert (snd (f x) <= snd (f m)) by (apply (sorted_nth l i (first + half) x m S); auto; lia). lia.
          -- intros i x Hi Hx. apply (Hhi i x); [lia|assumption].
          -- repeat split; auto; lia.
        * destruct (IH l y first half S) as (R1 & R2 & R3).
          -- lia.
          -- lia.
          -- assumption.
          -- intros i x Hi Hx. assert (snd (f m) <= snd (f x)) by (apply (sorted_nth l (first + half) i m x S); auto; lia). lia.
          -- repeat split; auto; lia.
  Qed.
  Lemma lower_bound_split : forall l y, sorted_intervals l -> exists a, l = a ++ lower_bound f l y /\
    Forall (fun x => snd (f x) <= y) a /\ Forall (fun x => y < snd (f x)) (lower_bound f l y).
  Proof.
    intros l y S. unfold lower_bound. destruct (lower_index_spec (length l) l y 0 (length l) S) as (R1 & R2 & R3); auto; try lia.
    { intros i x Hi Hx. assert (nth_error l i = None) by (apply nth_error_None; lia). congruence. }
    set (r := lower_index f (length l) l y 0 (length l)) in *. exists (firstn r l). split; [symmetry; apply firstn_skipn|]. split.
    - apply Forall_forall. intros x Hx. apply In_nth_error in Hx as [i Hi].
      assert (i < length (firstn r l)) as Hlt by (apply nth_error_Some; congruence). rewrite firstn_length in Hlt.
      apply (R2 i x); [lia|]. rewrite <- (firstn_skipn r l), nth_error_app1; [assumption|]. rewrite firstn_length. lia.
    - apply Forall_forall. intros x Hx. apply In_nth_error in Hx as [i Hi]. apply (R3 (r + i) x); [lia|].
      rewrite <- (firstn_skipn r l), nth_error_app2; rewrite firstn_length; [|lia]. replace (r + i - Nat.min r (length l)) with i by lia. assumption.
  Qed.

  Lemma sorted_app_r : forall a b, sorted_intervals (a ++ b) -> sorted_intervals b.
  Proof. induction a as [|x a IH]; intros b S; [assumption|]. apply IH. apply sorted_cons in S. tauto. Qed.

  Lemma filter_drop : forall l y (g h : A -> bool), sorted_intervals l ->
    (forall x, In x l -> snd (f x) <= y -> g x = false) -> (forall x, In x l -> y < snd (f x) -> g x = h x) ->
    filter g l = filter h (lower_bound f l y).
  Proof.
    intros l y g h S H1 H2. destruct (lower_bound_split l y S) as (a & E & F1 & F2).
    rewrite E in H1, H2. rewrite E at 1. rewrite filter_app.
    rewrite (filter_none _ g a); [cbn|].
    - apply filter_ext_in. intros x Hx. apply H2; [apply in_app_iff; auto|]. rewrite Forall_forall in F2. apply F2. assumption.
    - intros x Hx. apply H1; [apply in_app_iff; auto|]. rewrite Forall_forall in F1. apply F1. assumption.
  Qed.
  Lemma lower_bound_shorter : forall x l y, sorted_intervals (x :: l) -> snd (f x) <= y -> length (lower_bound f (x :: l) y) <= length l /\ sorted_intervals (lower_bound f (x :: l) y).
  Proof.
    intros x l y S Hy. destruct (lower_bound_split (x :: l) y S) as (a & E & F1 & F2).
    split; [|rewrite E in S; eapply sorted_app_r; eassumption].
    destruct a as [|z a].
    - change (x :: l = lower_bound f (x :: l) y) in E. rewrite <- E in F2. inversion F2; subst. lia.
    - apply (f_equal (@length A)) in E. rewrite app_length in E. cbn [length] in E. lia.
  Qed.

  Lemma select_walk_spec : forall fuel ids p l, sorted_intervals l -> length l <= fuel -> in_ids ids p = true ->
    select_walk f fuel ids (Some p) l = Some (filter (hit_after ids p) l).
  Proof.
    induction fuel as [|fuel IH]; intros ids p l S Hf Hp.
    { destruct l; [reflexivity|cbn in Hf; lia]. }
    destruct l as [|x l]; [reflexivity|]. cbn [select_walk]. destruct (f x) as [first last] eqn:Ex.
    assert (snd (f x) = last /\ fst (f x) = first) as [El Ef] by (rewrite Ex; auto).
    pose proof S as S'. apply sorted_cons in S' as (S1 & S2 & S3). rewrite Forall_forall in S3.
    set (start := if p <? first then next_one ids first else Some p).
    assert (forall q, p <= q -> first <= q -> in_ids ids q = true -> exists p1, start = Some p1 /\ p1 <= q) as Hstart.
    { intros q Q1 Q2 Q3. unfold start. destruct (Nat.ltb_spec p first); [|exists p; auto].
      destruct (next_one ids first) as [p1|] eqn:En.
      - exists p1. split; [reflexivity|]. destruct (Nat.le_gt_cases p1 q); [assumption|].
        apply next_one_some in En as (E1 & E2 & E3). rewrite E3 in Q3 by lia. discriminate.
      - rewrite (next_one_none _ _ En) in Q3 by lia. discriminate. }
    destruct start as [p1|] eqn:Es.
    - assert (p <= p1 /\ first <= p1 /\ in_ids ids p1 = true) as (P1 & P2 & P3).
      { unfold start in Es. destruct (Nat.ltb_spec p first).
        - apply next_one_some in Es as (E1 & E2 & _). repeat split; auto; lia.
        - injection Es as <-. auto. }
      assert (forall q, p <= q -> first <= q -> in_ids ids q = true -> p1 <= q) as Hmin.
      { intros q Q1 Q2 Q3. destruct (Hstart q Q1 Q2 Q3) as (p1' & [= <-] & H). assumption. }
      assert (forall a, In a (x :: l) -> first <= fst (f a)) as Hfirst.
      { intros a [<-|Ha]; [lia|]. specialize (S3 _ Ha). lia. }
      destruct (Nat.leb_spec first p1); [|lia]. cbn [andb]. destruct (Nat.ltb_spec p1 last) as [Hin|Hout].
      + cbn [filter]. assert (hit_after ids p x = true) as -> by (apply hit_after_iff; exists p1; repeat split; auto; lia).
        destruct (next_one ids last) as [p2|] eqn:En.
        * apply next_one_some in En as (E1 & E2 & E3).
          destruct (lower_bound_shorter x l p2 S ltac:(lia)) as [L1 L2].
          rewrite IH by (auto; cbn in Hf; lia). cbn [option_map]. do 2 f_equal.
          assert (filter (hit_after ids p2) (lower_bound f (x :: l) p2) = filter (hit_after ids p2) (x :: l)) as ->.
          { symmetry. apply filter_drop; [assumption| |auto]. intros a Ha Hs.
            apply not_true_iff_false. rewrite hit_after_iff. intros (q & Q1 & _ & Q3). lia. }
          cbn [filter]. assert (hit_after ids p2 x = false) as ->.
          { apply not_true_iff_false. rewrite hit_after_iff. intros (q & Q1 & _ & Q3). lia. }
          apply filter_ext_in. intros a Ha. apply eq_true_iff_eq. rewrite !hit_after_iff. specialize (S3 _ Ha).
          split; intros (q & Q1 & Q2 & Q3); exists q; repeat split; auto; try lia.
          destruct (Nat.le_gt_cases p2 q); [assumption|]. rewrite E3 in Q2 by lia. discriminate.
        * rewrite filter_none; [reflexivity|]. intros a Ha. apply not_true_iff_false. rewrite hit_after_iff. intros (q & Q1 & Q2 & Q3).
          specialize (S3 _ Ha). rewrite (next_one_none _ _ En) in Q2 by lia. discriminate.
      + destruct (lower_bound_shorter x l p1 S ltac:(lia)) as [L1 L2].
        rewrite IH by (auto; cbn in Hf; lia). f_equal. symmetry. apply filter_drop; [assumption| |].
        * intros a Ha Hs. apply not_true_iff_false. rewrite hit_after_iff. intros (q & Q1 & Q2 & Q3).
          specialize (Hfirst _ Ha). specialize (Hmin q Q1 ltac:(lia) Q2). lia.
        * intros a Ha Hs. apply eq_true_iff_eq. rewrite !hit_after_iff. specialize (Hfirst _ Ha).
          split; intros (q & Q1 & Q2 & Q3); exists q; repeat split; auto; try lia. apply Hmin; auto; lia.
    - rewrite filter_none; [reflexivity|]. intros a Ha. apply not_true_iff_false. rewrite hit_after_iff. intros (q & Q1 & Q2 & Q3).
      assert (first <= q) as Hq by (destruct Ha as [<-|Ha]; [lia|specialize (S3 _ Ha); lia]).
      destruct (Hstart q Q1 Hq Q2) as (p1 & E & _). discriminate.
  Qed.

  (** [select_with] applies its function to exactly the elements whose interval contains
      an ID of the set. *)
  Definition touches (ids : list bool) (a : A) : bool := existsb (in_ids ids) (seq (fst (f a)) (snd (f a) - fst (f a))).
  Lemma select_with_spec : forall ids l, sorted_intervals l -> select_with f ids l = Some (filter (touches ids) l).
  Proof.
    intros ids l S. unfold select_with. destruct (next_one ids 0) as [p|] eqn:E.
    - apply next_one_some in E as (E1 & E2 & E3). rewrite select_walk_spec by (auto; lia). f_equal. apply filter_ext. intros a.
      apply eq_true_iff_eq. rewrite hit_after_iff. unfold touches. rewrite existsb_exists. split.
      + intros (q & Q1 & Q2 & Q3). exists q. split; [apply in_seq; lia|assumption].
      + intros (q & Q1 & Q2). apply in_seq in Q1. exists q. repeat split; auto; try lia.
        destruct (Nat.le_gt_cases p q); [assumption|]. rewrite E3 in Q2 by lia. discriminate.
    - cbn [select_walk]. f_equal. symmetry. apply filter_none. intros a _. apply not_true_iff_false. unfold touches. rewrite existsb_exists.
      intros (q & _ & Q). rewrite (next_one_none _ _ E) in Q by lia. discriminate.
  Qed.
End SelectWith.

(** * Rows *)

(** A stored row: the layout, the ID and the values. *)
Definition row := (layout * nat * list data)%type.
Definition row_id (r : row) : nat := snd (fst r).
Definition rows_of (s : slice) : list row := map (fun e => (s_layout s, fst e, snd e)) (events s).
Definition rows (ss : list slice) : list row := flat_map rows_of ss.
Definition ids_of (ss : list slice) : list nat := map row_id (rows ss).
Definition in_set (ids : list bool) (r : row) : bool := in_ids ids (row_id r).
Definition valid_slice (s : slice) : Prop := s_offset s <> None /\ s_rows s <> [].
(** Valid slices whose IDs increase. *)
Definition ordered (ss : list slice) : Prop := Forall valid_slice ss /\ StronglySorted lt (ids_of ss).

Lemma rows_app : forall a b, rows (a ++ b) = rows a ++ rows b.
Proof. intros. apply flat_map_app. Qed.
Lemma ids_of_app : forall a b, ids_of (a ++ b) = ids_of a ++ ids_of b.
Proof. intros. unfold ids_of. rewrite rows_app, map_app. reflexivity. Qed.
Lemma ids_of_one : forall s, valid_slice s -> ids_of [s] = seq (fst (interval s)) (snd (interval s) - fst (interval s)).
Proof.
  intros s [H1 H2]. unfold ids_of, rows. cbn. rewrite app_nil_r. unfold rows_of. rewrite map_map. unfold row_id, events, interval. cbn.
  destruct (s_offset s) as [o|]; [|contradiction].
  replace (o + length (s_rows s) - o) with (length (s_rows s)) by lia. apply numbered_fst.
Qed.
Lemma ids_of_cons : forall s ss, valid_slice s -> ids_of (s :: ss) = seq (fst (interval s)) (snd (interval s) - fst (interval s)) ++ ids_of ss.
Proof. intros s ss H. rewrite <- ids_of_one by assumption. rewrite <- ids_of_app. reflexivity. Qed.
Lemma interval_lt : forall s, valid_slice s -> fst (interval s) < snd (interval s).
Proof. intros s [H1 H2]. unfold interval. cbn. destruct (s_rows s); [contradiction|]. cbn. lia. Qed.
Lemma in_ids_of : forall ss p, Forall valid_slice ss -> (In p (ids_of ss) <-> exists s, In s ss /\ fst (interval s) <= p < snd (interval s)).
Proof.
  induction ss as [|s ss IH]; intros p H.
  - split; [intros []|intros (s & [] & _)].
  - inversion H; subst. rewrite ids_of_cons, in_app_iff, IH, in_seq by assumption. pose proof (interval_lt s H2). split.
    + intros [Hs|(s' & Hin & Hs')]; [exists s|exists s']; (split; [cbn [In]; auto|lia]).
    + intros (s' & [<-|Hin] & Hs'); [left; lia|right; exists s'; auto].
Qed.

Lemma ss_app : forall (A : Type) (R : A -> A -> Prop) a b, StronglySorted R (a ++ b) <->
  StronglySorted R a /\ StronglySorted R b /\ forall x y, In x a -> In y b -> R x y.
Proof.
  intros A R a b. induction a as [|z a IH]; cbn.
  - split; [intros H; split; [constructor|split; [assumption|easy]]|tauto].
  - split.
    + intros H. inversion H; subst. apply IH in H2 as (I1 & I2 & I3). rewrite Forall_app in H3. destruct H3 as [F1 F2]. split; [constructor; assumption|].
      split; [assumption|]. intros x y [<-|Hx] Hy; [rewrite Forall_forall in F2; auto|auto].
    + intros (H1 & H2 & H3). inversion H1; subst. constructor; [apply IH; auto|]. rewrite Forall_app. split; [assumption|].
      apply Forall_forall. intros y Hy. apply H3; auto.
Qed.
Lemma ss_filter : forall (A : Type) (R : A -> A -> Prop) (f : A -> bool) l, StronglySorted R l -> StronglySorted R (filter f l).
Proof.
  intros A R f l H. induction H; cbn; [constructor|]. destruct (f a); [|assumption]. constructor; [assumption|].
  rewrite Forall_forall in *. intros x Hx. apply filter_In in Hx. apply H0. tauto.
Qed.
Lemma ss_lt_nodup : forall l, StronglySorted lt l -> NoDup l.
Proof.
  intros l H. induction H; constructor; [|assumption]. intros Hin. rewrite Forall_forall in H0. specialize (H0 _ Hin). lia.
Qed.

Lemma ordered_app : forall a b, ordered (a ++ b) <-> ordered a /\ ordered b /\ forall p q, In p (ids_of a) -> In q (ids_of b) -> p < q.
Proof. intros a b. unfold ordered. rewrite Forall_app, ids_of_app, ss_app. tauto. Qed.
Lemma ordered_intervals : forall ss, ordered ss -> sorted_intervals interval ss.
Proof.
  induction ss as [|s ss IH]; intros [H1 H2]; [split; constructor|]. inversion H1; subst.
  rewrite ids_of_cons in H2 by assumption. apply ss_app in H2 as (S1 & S2 & S3). destruct (IH (conj H4 S2)) as [I1 I2].
  pose proof (interval_lt s H3). split; constructor; auto. apply Forall_forall. intros s' Hs'. unfold follows.
  assert (valid_slice s') as Hv by (rewrite Forall_forall in H4; auto). pose proof (interval_lt s' Hv).
  assert (snd (interval s) - 1 < fst (interval s')) as G; [|lia]. apply S3.
  - apply in_seq. lia.
  - apply in_ids_of; [assumption|]. exists s'. split; [assumption|lia].
Qed.
Lemma ordered_one : forall s, valid_slice s -> ordered [s].
Proof.
  intros s H. split; [auto|]. rewrite ids_of_one by assumption. generalize (fst (interval s)) as a, (snd (interval s) - fst (interval s)) as n.
  intros a n. revert a. induction n as [|n IH]; intros a; cbn; constructor; [apply IH|]. apply Forall_forall. intros x Hx. apply in_seq in Hx. lia.
Qed.

(** A slice is touched if one of its rows is in the set. *)
Lemma touches_rows : forall xs s, valid_slice s -> (touches interval xs s = true <-> exists r, In r (rows_of s) /\ in_set xs r = true).
Proof.
  intros xs s H. unfold touches. rewrite existsb_exists. rewrite <- ids_of_one by assumption. unfold ids_of, rows. cbn. rewrite app_nil_r. split.
  - intros (p & Hp & Hx). apply in_map_iff in Hp as (r & <- & Hr). exists r. auto.
  - intros (r & Hr & Hx). exists (row_id r). split; [apply in_map; assumption|assumption].
Qed.
Lemma total_rows_rows : forall ss, Forall valid_slice ss -> total_rows ss = length (rows ss).
Proof.
  induction ss as [|s ss IH]; intros H; [reflexivity|]. inversion H; subst. change (total_rows (s :: ss)) with (length (s_rows s) + total_rows ss). rewrite IH by assumption.
  change (rows (s :: ss)) with (rows_of s ++ rows ss). rewrite app_length. f_equal.
  unfold rows_of, events. rewrite map_length. destruct H2 as [H2 _]. destruct (s_offset s); [|contradiction]. rewrite numbered_length. reflexivity.
Qed.

(** * Shrinking a segment *)
Lemma select_rows : forall s mask, valid_slice s -> exists new, select s mask = Some new /\
  rows new = filter (in_set mask) (rows_of s) /\ Forall valid_slice new.
Proof.
  intros s mask [H1 H2]. destruct (s_offset s) as [o|] eqn:Eo; [|contradiction].
  destruct (select_events s o mask Eo H2) as (new & E & Ev & Hg). exists new. split; [assumption|]. split.
  - assert (rows new = map (fun e => (s_layout s, fst e, snd e)) (flat_map events new)) as ->.
    { clear -Hg. induction Hg as [|x l Hx Hl IH]; [reflexivity|]. cbn. rewrite map_app, <- IH. f_equal.
      unfold rows_of. destruct Hx as (-> & _). reflexivity. }
    rewrite Ev. unfold rows_of. rewrite filter_map_comm. reflexivity.
  - eapply Forall_impl; [|exact Hg]. intros x (_ & G1 & G2). split; assumption.
Qed.

Lemma keep_slices_spec : forall ss mask xs, Forall valid_slice ss -> ordered ss ->
  length xs <= length mask -> (forall p, p < length mask -> in_ids mask p = negb (in_ids xs p)) ->
  exists new, keep_slices mask ss = Some new /\ rows new = filter (fun r => negb (in_set xs r)) (rows ss) /\ Forall valid_slice new.
Proof.
  induction ss as [|s ss IH]; intros mask xs V O Hl Hm; [exists []; repeat split; auto|].
  inversion V; subst. cbn [keep_slices]. set (mask' := mask ++ repeat true (snd (interval s) - length mask)).
  assert (length mask' = Nat.max (length mask) (snd (interval s))) as Hlen by (unfold mask'; rewrite app_length, repeat_length; lia).
  assert (forall p, p < length mask' -> in_ids mask' p = negb (in_ids xs p)) as Hm'.
  { intros p Hp. unfold mask', in_ids. destruct (Nat.lt_ge_cases p (length mask)).
    - rewrite app_nth1 by assumption. apply Hm. assumption.
    - rewrite app_nth2 by assumption. rewrite nth_overflow with (l := xs) by lia. cbn.
      destruct (Nat.lt_ge_cases (p - length mask) (snd (interval s) - length mask)) as [H3|H3].
      + rewrite (nth_indep _ false true) by (rewrite repeat_length; assumption). apply nth_repeat.
      + unfold mask' in Hp. rewrite app_length, repeat_length in Hp. lia. }
  destruct (select_rows s mask' H1) as (new & -> & R1 & V1).
  change (s :: ss) with ([s] ++ ss) in O. apply ordered_app in O as (_ & O & _).
  destruct (IH mask' xs H2 O ltac:(lia) Hm') as (rest & -> & R2 & V2).
  exists (new ++ rest). split; [reflexivity|]. split; [|apply Forall_app; auto].
  rewrite rows_app, R1, R2. cbn [rows flat_map]. rewrite filter_app. f_equal. apply filter_ext_in. intros r Hr. unfold in_set. apply Hm'.
  assert (In (row_id r) (ids_of [s])) as Hin by (unfold ids_of, rows; cbn; rewrite app_nil_r; apply in_map; assumption).
  rewrite ids_of_one in Hin by assumption. apply in_seq in Hin. pose proof (interval_lt s H1). lia.
Qed.

Lemma in_ids_app : forall a b p, in_ids (a ++ b) p = if p <? length a then in_ids a p else in_ids b (p - length a).
Proof.
  intros a b p. unfold in_ids. destruct (Nat.ltb_spec p (length a)); [apply app_nth1|apply app_nth2]; assumption.
Qed.
Lemma seg_ids_spec : forall ss acc, ordered ss -> Forall (fun p => length acc <= p) (ids_of ss) ->
  exists ids, seg_ids_go acc ss = Some ids /\ forall p, in_ids ids p = true <-> in_ids acc p = true \/ In p (ids_of ss).
Proof.
  induction ss as [|s ss IH]; intros acc O H.
  - exists acc. split; [reflexivity|]. intros p. cbn. tauto.
  - cbn [seg_ids_go]. destruct (interval s) as [first last] eqn:Ei.
    pose proof O as [V _]. inversion V as [|? ? V1 V2]; subst. pose proof (interval_lt s V1) as Hlt. rewrite Ei in Hlt. cbn in Hlt.
    rewrite ids_of_cons, Ei in H by assumption. cbn [fst snd] in H. rewrite Forall_app in H. destruct H as [F1 F2].
    assert (length acc <= first) as Hacc by (rewrite Forall_forall in F1; apply F1; apply in_seq; lia).
    destruct (Nat.ltb_spec first (length acc)); [lia|].
    set (acc' := acc ++ repeat false (first - length acc) ++ repeat true (last - first)).
    assert (length acc' = last) as Hlen by (unfold acc'; rewrite !app_length, !repeat_length; lia).
    change (s :: ss) with ([s] ++ ss) in O. apply ordered_app in O as (_ & O & O3).
    destruct (IH acc' O) as (ids & -> & Hids).
    { apply Forall_forall. intros q Hq. rewrite Hlen. assert (last - 1 < q) as G; [|lia]. apply O3; [|assumption].
      rewrite ids_of_one by assumption. rewrite Ei. apply in_seq. cbn. lia. }
    exists ids. split; [reflexivity|]. intros p. rewrite Hids. rewrite ids_of_cons, Ei by assumption. cbn [fst snd]. rewrite in_app_iff, in_seq.
    assert (in_ids acc' p = true <-> in_ids acc p = true \/ first <= p < first + (last - first)) as ->; [|tauto].
    unfold acc'. rewrite in_ids_app. destruct (Nat.ltb_spec p (length acc)).
    + split; [auto|]. intros [G|G]; [assumption|lia].
    + pose proof (range_nth (first - length acc) (last - first) (p - length acc)) as R. rewrite R.
      assert (in_ids acc p = false) as -> by (apply nth_overflow; assumption). lia.
Qed.

Lemma is_subset_iff : forall xs ys, xs <> [] \/ ys <> [] -> (is_subset xs ys = true <-> forall p, in_ids xs p = true -> in_ids ys p = true).
Proof.
  intros xs ys Hne. unfold is_subset. assert (negb ((length xs =? 0) && (length ys =? 0)) = true) as ->.
  { destruct Hne as [H|H]; [destruct xs|destruct ys]; try contradiction; cbn; [reflexivity|]. rewrite andb_false_r. reflexivity. }
  cbn [andb]. rewrite forallb_forall. split.
  - intros H p Hp. destruct (Nat.lt_ge_cases p (length xs)) as [Hl|Hl].
    + specialize (H p). rewrite in_seq in H. specialize (H ltac:(lia)). unfold in_ids in *. rewrite Hp in H. cbn in H. assumption.
    + unfold in_ids in Hp. rewrite nth_overflow in Hp by assumption. discriminate.
  - intros H p _. specialize (H p). unfold in_ids in H. destruct (nth p xs false); cbn; auto.
Qed.

Lemma shrink_spec : forall g xs, ordered (sg_slices g) -> sg_slices g <> [] ->
  exists r, shrink g xs = Some r /\
    let new := match r with Some new => new | None => [] end in
    rows new = filter (fun r => negb (in_set xs r)) (rows (sg_slices g)) /\ Forall valid_slice new /\ r <> Some [].
Proof.
  intros g xs O Hne. unfold shrink, seg_ids. destruct (seg_ids_spec (sg_slices g) [] O) as (ids & -> & Hids).
  { apply Forall_forall. intros. cbn. lia. }
  assert (forall p, in_ids ids p = true <-> In p (ids_of (sg_slices g))) as Hids'.
  { intros p. rewrite Hids. unfold in_ids. destruct p; cbn; split; auto; intros [H|H]; try discriminate; auto. }
  assert (ids <> []) as Hi.
  { destruct (sg_slices g) as [|s ss]; [contradiction|]. destruct O as [V _]. inversion V as [|? ? V1 V2]; subst. pose proof (interval_lt s V1) as Hlt.
    intros ->. assert (in_ids [] (fst (interval s)) = true) as G; [|unfold in_ids in G; destruct (fst (interval s)); discriminate].
    apply Hids'. rewrite ids_of_cons by assumption. apply in_app_iff. left. apply in_seq. lia. }
  destruct (is_subset ids xs) eqn:Es.
  - exists None. split; [reflexivity|]. cbn. split; [|split; [constructor|discriminate]].
    symmetry. apply filter_none. intros r Hr. apply negb_false_iff. unfold in_set.
    apply (proj1 (is_subset_iff ids xs (or_introl Hi)) Es). apply Hids'. unfold ids_of. apply in_map. assumption.
  - assert (seg_lookup g ids = Some (sg_slices g)) as El.
    { unfold seg_lookup. rewrite select_with_spec by (apply ordered_intervals; assumption). f_equal. apply filter_all. intros s Hs.
      destruct O as [V _]. rewrite Forall_forall in V. specialize (V _ Hs). apply touches_rows; [assumption|].
      pose proof (interval_lt s V). assert (In (fst (interval s)) (ids_of [s])) as Hin by (rewrite ids_of_one by assumption; apply in_seq; lia).
      unfold ids_of, rows in Hin. cbn in Hin. rewrite app_nil_r in Hin. apply in_map_iff in Hin as (r & Er & Hr). exists r. split; [assumption|].
      unfold in_set. apply Hids'. unfold ids_of. apply in_map. unfold rows. apply in_flat_map. exists s. auto. }
    rewrite El. destruct (sg_slices g) as [|s0 ss0] eqn:Eg; [contradiction|]. rewrite <- Eg in *. clear s0 ss0 Eg.
    destruct (keep_slices_spec (sg_slices g) (map negb xs) xs) as (new & -> & R & V).
    + apply O.
    + assumption.
    + rewrite map_length. lia.
    + rewrite map_length. intros p Hp. unfold in_ids. rewrite (nth_indep (map negb xs) false (negb false)) by (rewrite map_length; assumption). apply map_nth.
    + destruct new as [|n new].
      * exists None. split; [reflexivity|]. cbn in *. split; [assumption|]. split; [constructor|discriminate].
      * exists (Some (n :: new)). split; [reflexivity|]. split; [assumption|]. split; [assumption|discriminate].
Qed.

(** * The range map *)
Definition segment_rows (gs : list segment) : list slice := flat_map sg_slices gs.
(** Every ID of the slices is mapped to its segment, and nothing else is mapped. *)
Definition represents (m : rmap uuid) (gs : list segment) : Prop :=
  wf m /\ forall p u, maps m p u <-> exists g, In g gs /\ sg_id g = u /\ In (N.to_nat p) (ids_of (sg_slices g)).

Lemma represents_nil : represents [] [].
Proof. split; [exact I|]. intros p u. rewrite maps_nil. split; [easy|]. intros (g & [] & _). Qed.
Lemma represents_in : forall m gs hs, represents m gs -> (forall g, sg_slices g <> [] -> (In g gs <-> In g hs)) -> represents m hs.
Proof.
  intros m gs hs [W H] E. split; [assumption|]. intros p u. rewrite H. split; intros (g & G1 & G2 & G3); exists g; split; auto;
  apply E; auto; intros Hn; rewrite Hn in G3; destruct G3.
Qed.
Lemma represents_erase : forall m a g b, represents m (a ++ g :: b) -> ~ In (sg_id g) (map sg_id (a ++ b)) ->
  represents (erase_value Nat.eqb (sg_id g) m) (a ++ b).
Proof.
  intros m a g b [W H] Hn. destruct (erase_value_spec Nat.eqb Nat.eqb_eq m (sg_id g) W) as [W' H'].
  split; [assumption|]. intros p u. rewrite H', H. split.
  - intros [(h & Hh & Hu & Hp) Hne]. exists h. split; [|auto]. rewrite in_app_iff in *. cbn in Hh. destruct Hh as [Hh|[<-|Hh]]; auto. symmetry in Hu. contradiction.
  - intros (h & Hh & Hu & Hp). split.
    + exists h. split; [|auto]. rewrite in_app_iff in *. cbn. tauto.
    + intros E. apply Hn. rewrite <- E, <- Hu. apply in_map. assumption.
Qed.
Lemma represents_inject : forall m a u ss b s, represents m (a ++ Seg u ss :: b) -> valid_slice s ->
  (forall p, In p (ids_of [s]) -> ~ In p (ids_of (segment_rows (a ++ Seg u ss :: b)))) ->
  exists m', inject_slice s u m = (m', true) /\ represents m' (a ++ Seg u (ss ++ [s]) :: b).
Proof.
  intros m a u ss b s [W H] V Hd. unfold inject_slice. rewrite ids_of_one in Hd by assumption. pose proof (ids_of_one s V) as Hone. pose proof (interval_lt s V) as Hlt.
  destruct (interval s) as [first last]. cbn [fst snd] in *.
  pose proof (inject_spec Nat.eqb Nat.eqb_eq m (N.of_nat first) (N.of_nat last) u W ltac:(lia)) as I.
  destruct (inject Nat.eqb (N.of_nat first) (N.of_nat last) u m) as [m' ok]. destruct I as [I1 I2]. destruct ok.
  - exists m'. split; [reflexivity|]. destruct (I1 eq_refl) as [_ [W' H']]. split; [assumption|]. intros p v. rewrite H', H. split.
    + intros [(g & Hg & Hv & Hp)|(P1 & P2 & ->)].
      * apply in_app_iff in Hg as [Hg|[<-|Hg]].
        -- exists g. split; [apply in_app_iff; auto|auto].
        -- exists (Seg u (ss ++ [s])). split; [apply in_app_iff; cbn; auto|]. split; [assumption|]. cbn [sg_slices] in *. rewrite ids_of_app, in_app_iff. auto.
        -- exists g. split; [apply in_app_iff; cbn; auto|auto].
      * exists (Seg u (ss ++ [s])). split; [apply in_app_iff; cbn; auto|]. split; [reflexivity|]. cbn [sg_slices]. rewrite ids_of_app, in_app_iff. right.
        rewrite Hone. apply in_seq. lia.
    + intros (g & Hg & Hv & Hp). apply in_app_iff in Hg as [Hg|[<-|Hg]].
      * left. exists g. split; [apply in_app_iff; auto|auto].
      * cbn [sg_slices sg_id] in *. rewrite ids_of_app, in_app_iff in Hp. destruct Hp as [Hp|Hp].
        -- left. exists (Seg u ss). split; [apply in_app_iff; cbn; auto|auto].
        -- right. rewrite Hone in Hp. apply in_seq in Hp. repeat split; auto; lia.
      * left. exists g. split; [apply in_app_iff; cbn; auto|auto].
  - exfalso. destruct (I2 eq_refl) as [(p & v & Hm & P1 & P2) _]. apply H in Hm as (g & Hg & Hv & Hp).
    apply (Hd (N.to_nat p)).
    + apply in_seq. lia.
    + unfold ids_of, rows, segment_rows. apply in_map_iff in Hp as (r & Er & Hr). apply in_map_iff. exists r. split; [assumption|].
      unfold rows in Hr. apply in_flat_map in Hr as (s' & Hs' & Hr). apply in_flat_map. exists s'. split; [|assumption]. apply in_flat_map. exists g. auto.
Qed.

Lemma inject_all_represents : forall new m a u ss b, represents m (a ++ Seg u ss :: b) -> Forall valid_slice new ->
  NoDup (ids_of new) -> (forall p, In p (ids_of new) -> ~ In p (ids_of (segment_rows (a ++ Seg u ss :: b)))) ->
  represents (inject_all new u m) (a ++ Seg u (ss ++ new) :: b) /\ inject_strict new u m = Some (inject_all new u m).
Proof.
  induction new as [|s new IH]; intros m a u ss b R V Nd Hd.
  - cbn. rewrite app_nil_r. auto.
  - inversion V; subst. change (s :: new) with ([s] ++ new) in *. rewrite ids_of_app in Nd, Hd.
    destruct (represents_inject m a u ss b s R H1) as (m' & E & R').
    { intros p Hp. apply Hd. apply in_app_iff. auto. }
    cbn [app inject_strict]. unfold inject_all. cbn [fold_left]. rewrite E. cbn [fst]. fold (inject_all new u m'). destruct (IH m' a u (ss ++ [s]) b R' H2) as [I1 I2].
    + clear -Nd. induction (ids_of [s]) as [|x l IHl]; [assumption|]. inversion Nd; auto.
    + intros p Hp. assert (~ In p (ids_of [s])) as Hns.
      { clear -Nd Hp. induction (ids_of [s]) as [|x l IHl]; [easy|]. cbn in Nd. inversion Nd; subst. intros [->|G]; [apply H1; apply in_app_iff; auto|]. apply IHl in H2. contradiction. }
      specialize (Hd p (proj2 (in_app_iff _ _ _) (or_intror Hp))). intros Hin.
      unfold segment_rows in *. rewrite flat_map_app in *. cbn [flat_map sg_slices] in *. rewrite !ids_of_app, !in_app_iff in *. tauto.
    + rewrite <- app_assoc in I1. cbn in I1. auto.
Qed.
