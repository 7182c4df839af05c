(** Proofs about Bloom filters (BloomModel.v). *)
From Coq Require Import List ZArith NArith Lia Bool Arith ZifyBool ZifyNat.
From Verif Require Import BloomModel.
Import ListNotations.
Open Scope nat_scope.

(** A filter that can be used: the hasher computes as many digests as it says, there
    are bits, and with partitioning every partition has bits. *)
Definition usable (f : bloom) : Prop :=
  match bf_hasher f with simple_hasher k seeds => length seeds = k | double_hasher _ _ _ => True end /\
  if bf_partitioned f then 0 < hasher_size (bf_hasher f) <= length (bf_bits f) else 0 < length (bf_bits f).

Lemma forallb_all_ext : forall A (f g : A -> bool) xs, (forall x, f x = g x) -> forallb f xs = forallb g xs.
Proof. intros A f g xs H. induction xs as [|x xs IH]; [reflexivity|]. cbn. now rewrite H, IH. Qed.

Section Bloom.
  Context {V : Type}.
  Variable hash : N -> V -> N.

  Lemma digests_length : forall f x, usable f -> length (digests hash (bf_hasher f) x) = hasher_size (bf_hasher f).
  Proof. intros f x [H _]. destruct (bf_hasher f); cbn [digests hasher_size] in *; rewrite map_length; [exact H|apply seq_length]. Qed.

  Lemma position_bound : forall f i d, usable f -> i < hasher_size (bf_hasher f) -> exists p, position f i d = Some p /\ p < length (bf_bits f).
  Proof.
    intros f i d [_ U] L. unfold position. destruct (bf_partitioned f).
    - destruct (Nat.eqb_spec (hasher_size (bf_hasher f)) 0); [lia|].
      assert (D : length (bf_bits f) / hasher_size (bf_hasher f) <> 0).
      { intros E. apply Nat.div_small_iff in E; lia. }
      destruct (Nat.eqb_spec (length (bf_bits f) / hasher_size (bf_hasher f)) 0); [lia|].
      eexists. split; [reflexivity|]. set (c := length (bf_bits f) / hasher_size (bf_hasher f)) in *.
      assert (N.to_nat (d mod N.of_nat c) < c) by (assert (d mod N.of_nat c < N.of_nat c)%N by (apply N.mod_lt; lia); lia).
      assert (M : hasher_size (bf_hasher f) * c <= length (bf_bits f)) by (apply Nat.mul_div_le; lia).
      assert (S i * c <= hasher_size (bf_hasher f) * c) by (apply Nat.mul_le_mono_r; lia). lia.
    - destruct (Nat.eqb_spec (length (bf_bits f)) 0); [lia|]. eexists. split; [reflexivity|].
      assert (d mod N.of_nat (length (bf_bits f)) < N.of_nat (length (bf_bits f)))%N by (apply N.mod_lt; lia). lia.
  Qed.

  Lemma set_bit_spec : forall bs i, i < length bs -> exists bs', set_bit bs i = Some bs' /\ length bs' = length bs /\
    forall j, nth_error bs' j = if j =? i then Some true else nth_error bs j.
  Proof.
    induction bs as [|b bs IH]; intros i L; [cbn in L; lia|]. destruct i as [|i]; cbn [set_bit].
    - eexists. split; [reflexivity|]. split; [reflexivity|]. intros [|j]; reflexivity.
    - destruct (IH i ltac:(cbn in L; lia)) as (bs' & -> & E & H). eexists. split; [reflexivity|]. split; [cbn; now rewrite E|].
      intros [|j]; [reflexivity|]. cbn. apply H.
  Qed.

  Definition with_bits (f : bloom) (bs : list bool) : bloom := {| bf_partitioned := bf_partitioned f; bf_hasher := bf_hasher f; bf_bits := bs |}.
  Lemma usable_with : forall f bs, length bs = length (bf_bits f) -> usable f -> usable (with_bits f bs).
  Proof. intros f bs E [H1 H2]. split; cbn; [exact H1|]. now rewrite E. Qed.
  Lemma position_with : forall f bs i d, length bs = length (bf_bits f) -> position (with_bits f bs) i d = position f i d.
  Proof. intros f bs i d E. unfold position. cbn. now rewrite E. Qed.

  (** The positions of a value. *)
  Fixpoint positions (f : bloom) (i : nat) (ds : list N) : list nat :=
    match ds with
    | [] => []
    | d :: ds' => match position f i d with Some p => [p] | None => [] end ++ positions f (S i) ds'
    end.
  Lemma positions_with : forall f bs ds i, length bs = length (bf_bits f) -> positions (with_bits f bs) i ds = positions f i ds.
  Proof. intros f bs. induction ds as [|d ds IH]; intros i E; [reflexivity|]. cbn [positions]. rewrite position_with, IH by assumption. reflexivity. Qed.
  Lemma positions_bound : forall f ds i, usable f -> i + length ds <= hasher_size (bf_hasher f) -> Forall (fun p => p < length (bf_bits f)) (positions f i ds).
  Proof.
    intros f. induction ds as [|d ds IH]; intros i U L; [constructor|]. cbn [positions length] in *.
    destruct (position_bound f i d U ltac:(lia)) as (p & -> & B). constructor; [exact B|]. apply IH; [exact U|lia].
  Qed.

  Definition bit_set (f : bloom) (p : nat) : bool := match nth_error (bf_bits f) p with Some b => b | None => false end.

  Lemma lookup_digests_spec : forall f ds i, usable f -> i + length ds <= hasher_size (bf_hasher f) ->
    lookup_digests f i ds = Some (forallb (bit_set f) (positions f i ds)).
  Proof.
    intros f. induction ds as [|d ds IH]; intros i U L; [reflexivity|]. cbn [lookup_digests positions length] in *.
    destruct (position_bound f i d U ltac:(lia)) as (p & -> & B). cbn [app forallb]. unfold bit_set at 1.
    destruct (nth_error (bf_bits f) p) as [b|] eqn:E; [|apply nth_error_None in E; lia].
    destruct b; [|reflexivity]. rewrite IH by (auto; lia). reflexivity.
  Qed.
  Lemma add_digests_spec : forall ds f i u, usable f -> i + length ds <= hasher_size (bf_hasher f) ->
    exists bs u', add_digests f i ds u = Some (with_bits f bs, u') /\ length bs = length (bf_bits f) /\
      (forall p, bit_set (with_bits f bs) p = bit_set f p || existsb (Nat.eqb p) (positions f i ds)) /\
      u' = u || negb (forallb (bit_set f) (positions f i ds)).
  Proof.
    induction ds as [|d ds IH]; intros f i u U L; cbn [add_digests positions length] in *.
    - exists (bf_bits f), u. split; [destruct f; reflexivity|]. split; [reflexivity|]. cbn [existsb forallb negb]. split.
      + intros p. now rewrite orb_false_r.
      + now rewrite orb_false_r.
    - destruct (position_bound f i d U ltac:(lia)) as (p & -> & B). cbn [app existsb forallb].
      destruct (set_bit_spec (bf_bits f) p B) as (bs & -> & Eb & Hb).
      destruct (nth_error (bf_bits f) p) as [b|] eqn:Ep; [|apply nth_error_None in Ep; lia].
      destruct (IH (with_bits f bs) (S i) (u || negb b)) as (bs' & u' & E & Lb & Hp & Hu);
        [now apply usable_with|cbn [with_bits bf_hasher]; lia|].
      exists bs', u'. change (add_digests (with_bits f bs) (S i) ds (u || negb b) = Some (with_bits f bs', u')) in E. split; [exact E|].
      cbn [with_bits bf_bits] in Lb. split; [congruence|].
      rewrite positions_with in Hp, Hu by assumption.
      assert (Q : forall q, bit_set (with_bits f bs) q = bit_set f q || (q =? p)).
      { intros q. unfold bit_set. cbn [with_bits bf_bits]. rewrite Hb. destruct (Nat.eqb_spec q p) as [->|D]; [now rewrite orb_true_r|now rewrite orb_false_r]. }
      split.
      + intros q. change (with_bits (with_bits f bs) bs') with (with_bits f bs') in Hp. rewrite Hp, Q. now rewrite orb_assoc.
      + rewrite Hu. unfold bit_set at 2. rewrite Ep. destruct b.
        * cbn [negb]. rewrite orb_false_r. cbn [andb]. f_equal. f_equal.
          apply forallb_all_ext. intros q. rewrite Q. destruct (Nat.eqb_spec q p) as [->|D]; [|now rewrite orb_false_r].
          unfold bit_set. rewrite Ep. reflexivity.
        * cbn [negb andb]. now rewrite !orb_true_r.
  Qed.

  (** The positions that a value sets. *)
  Definition value_positions (f : bloom) (x : V) : list nat := positions f 0 (digests hash (bf_hasher f) x).

  Lemma bf_lookup_spec : forall f x, usable f -> bf_lookup hash f x = Some (forallb (bit_set f) (value_positions f x)).
  Proof. intros f x U. apply lookup_digests_spec; [exact U|]. rewrite digests_length by assumption. lia. Qed.
  Lemma bf_add_spec : forall f x, usable f -> exists bs, 
    bf_add hash f x = Some (with_bits f bs, negb (forallb (bit_set f) (value_positions f x))) /\ length bs = length (bf_bits f) /\
    forall p, bit_set (with_bits f bs) p = bit_set f p || existsb (Nat.eqb p) (value_positions f x).
  Proof.
    intros f x U. destruct (add_digests_spec (digests hash (bf_hasher f) x) f 0 false U) as (bs & u & E & L & H & Hu);
      [rewrite digests_length by assumption; lia|].
    exists bs. unfold bf_add. rewrite E, Hu. auto.
  Qed.

  (** Adding a sequence of values. *)
  Fixpoint bf_add_all (f : bloom) (xs : list V) : option bloom :=
    match xs with
    | [] => Some f
    | x :: xs' => match bf_add hash f x with Some (g, _) => bf_add_all g xs' | None => None end
    end.

  (** The filter [f] after adding the values [xs]. *)
  Definition holds_values (f g : bloom) (xs : list V) : Prop :=
    usable g /\ bf_partitioned g = bf_partitioned f /\ bf_hasher g = bf_hasher f /\ length (bf_bits g) = length (bf_bits f) /\
    forall p, bit_set g p = bit_set f p || existsb (Nat.eqb p) (flat_map (value_positions f) xs).
  Lemma value_positions_same : forall f g x, bf_partitioned g = bf_partitioned f -> bf_hasher g = bf_hasher f ->
    length (bf_bits g) = length (bf_bits f) -> value_positions g x = value_positions f x.
  Proof.
    intros f g x P H L. unfold value_positions. rewrite H. generalize 0. induction (digests hash (bf_hasher f) x) as [|d ds IH]; intros i; [reflexivity|].
    cbn [positions]. rewrite IH. f_equal. unfold position. rewrite P, H, L. reflexivity.
  Qed.
  Lemma bf_add_all_spec : forall xs f, usable f -> exists g, bf_add_all f xs = Some g /\ holds_values f g xs.
  Proof.
    induction xs as [|x xs IH]; intros f U; cbn [bf_add_all].
    - exists f. split; [reflexivity|]. repeat split; try apply U. intros p. cbn. now rewrite orb_false_r.
    - destruct (bf_add_spec f x U) as (bs & -> & L & H). destruct (IH (with_bits f bs)) as (g & E & U' & P & Hh & Lg & Hg); [now apply usable_with|].
      exists g. split; [exact E|]. split; [exact U'|]. cbn [with_bits bf_partitioned bf_hasher bf_bits] in *. repeat split; try congruence.
      intros p. rewrite Hg, H. cbn [flat_map]. rewrite existsb_app, orb_assoc. f_equal. f_equal.
      clear - L. induction xs as [|y ys IH]; [reflexivity|]. cbn [flat_map]. rewrite IH. f_equal.
      apply value_positions_same; cbn; auto.
  Qed.
  Lemma holds_values_lookup : forall f g xs x, holds_values f g xs -> In x xs -> bf_lookup hash g x = Some true.
  Proof.
    intros f g xs x (U & P & H & L & Hb) I. rewrite bf_lookup_spec by assumption. f_equal. apply forallb_forall. intros p Hp.
    rewrite Hb. apply orb_true_iff. right. apply existsb_exists. exists p. split; [|apply Nat.eqb_refl].
    apply in_flat_map. exists x. split; [exact I|]. rewrite <- (value_positions_same f g) by assumption. exact Hp.
  Qed.
  Lemma holds_values_mono : forall f g xs x, holds_values f g xs -> usable f -> bf_lookup hash f x = Some true -> bf_lookup hash g x = Some true.
  Proof.
    intros f g xs x (U & P & H & L & Hb) Uf E. rewrite bf_lookup_spec in E by assumption. injection E as E.
    rewrite bf_lookup_spec by assumption. f_equal. rewrite forallb_forall in *. intros p Hp. rewrite Hb, E; [reflexivity|].
    now rewrite <- (value_positions_same f g) by assumption.
  Qed.
  Lemma make_bloom_usable : forall part simple mk seeds f, make_bloom part simple mk seeds = Some f ->
    (part = true -> match mk with Some (m, k) => k <= m | None => True end) -> usable f.
  Proof.
    intros part simple [ [m k]|] seeds f E B; [|discriminate]. cbn [make_bloom] in E.
    destruct (Nat.eqb_spec m 0); [discriminate|]. destruct (Nat.eqb_spec k 0); [discriminate|]. cbn [orb] in E.
    set (ss := match seeds with [] => _ | _ => seeds end) in *.
    assert (S : match seeds with [] => false | _ => negb (length seeds =? k) end = false -> simple = true -> length ss = k).
    { intros H ->. subst ss. destruct seeds; [rewrite map_length; apply seq_length|]. apply negb_false_iff, Nat.eqb_eq in H. exact H. }
    destruct (match seeds with [] => false | _ => negb (length seeds =? k) end); [discriminate|]. specialize (S eq_refl).
    assert (M : if part then 0 < k <= m else 0 < m) by (destruct part; [specialize (B eq_refl)|]; lia).
    destruct simple.
    - injection E as <-. split; cbn; [now apply S|]. now rewrite repeat_length.
    - destruct ss as [|a [|b [|c ss]]]; try discriminate. injection E as <-. split; cbn; [exact I|]. now rewrite repeat_length.
  Qed.
End Bloom.
