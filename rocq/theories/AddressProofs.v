(** Proofs about addresses and subnets. *)
From Coq Require Import List ZArith NArith Lia Bool ZifyBool ZifyNat ZifyN.
From Verif Require Import NBits WordProofs CoderModel CoderProofs AddressModel.
Import ListNotations.
Open Scope N_scope.

(** A well-formed address. *)
Definition wf (a : address) : Prop := length a = 16%nat /\ Forall (fun b => b < 256) a.

(** Bit [i] of an address, counted from the most significant one. *)
Definition abit (a : address) (i : nat) : bool :=
  N.testbit (nth (i / 8) a 0) (N.of_nat (7 - i mod 8)).

(** The top [k] bits of two addresses agree. *)
Definition share (k : nat) (a b : address) : Prop := forall i, (i < k)%nat -> abit a i = abit b i.

Lemma bytes_eqb_spec : forall xs ys, bytes_eqb xs ys = true <-> xs = ys.
Proof.
  induction xs as [|x xs IH]; intros [|y ys]; cbn; try easy. rewrite andb_true_iff, IH, N.eqb_eq.
  split; [intros [-> ->]; auto|intros E; now injection E as -> ->].
Qed.
Lemma bytes_eqb_refl : forall xs, bytes_eqb xs xs = true.
Proof. intros. now apply bytes_eqb_spec. Qed.

Lemma byte_ext : forall x y, x < 256 -> y < 256 -> (forall t, (t < 8)%nat -> N.testbit x (N.of_nat t) = N.testbit y (N.of_nat t)) -> x = y.
Proof.
  intros x y X Y H. apply N.bits_inj. intros t. destruct (N.lt_ge_cases t 8) as [L|L].
  - specialize (H (N.to_nat t)). rewrite N2Nat.id in H. apply H. lia.
  - now rewrite !(NBits.testbit_small _ 8) by (auto; change (2 ^ 8) with 256; auto).
Qed.

Lemma abit_8 : forall a j t, (t < 8)%nat -> abit a (8 * j + (7 - t)) = N.testbit (nth j a 0) (N.of_nat t).
Proof.
  intros a j t H. unfold abit. assert (E : ((8 * j + (7 - t)) / 8 = j)%nat).
  { symmetry. apply (Nat.div_unique _ 8 j (7 - t)); lia. }
  assert (M : ((8 * j + (7 - t)) mod 8 = 7 - t)%nat).
  { symmetry. apply (Nat.mod_unique _ 8 j (7 - t)); lia. }
  rewrite E, M. f_equal. f_equal. lia.
Qed.

Lemma abit_split : forall i, exists j t, (t < 8)%nat /\ i = (8 * j + (7 - t))%nat.
Proof.
  intros i. exists (i / 8)%nat, (7 - i mod 8)%nat. pose proof (Nat.div_mod i 8 ltac:(lia)). pose proof (Nat.mod_upper_bound i 8 ltac:(lia)). lia.
Qed.

(** Addresses are equal if all their bits are. *)
Lemma addr_ext : forall a b, wf a -> wf b -> share 128 a b -> a = b.
Proof.
  intros a b [LA FA] [LB FB] H. apply (nth_ext _ _ 0 0); [congruence|].
  intros j Hj. rewrite LA in Hj. rewrite Forall_forall in FA, FB.
  apply byte_ext; [apply FA, nth_In; lia|apply FB, nth_In; lia|].
  intros t Ht. rewrite <- !abit_8 by auto. apply H. lia.
Qed.

(** * Addresses from bits *)

Definition byte_of (f : nat -> bool) : N := fold_right (fun t acc => N.b2n (f t) + 2 * acc) 0 (seq 0 8).

Lemma byte_of_spec : forall f t, (t < 8)%nat -> N.testbit (byte_of f) (N.of_nat t) = f t.
Proof.
  intros f t H. unfold byte_of. cbn [seq fold_right].
  do 8 (destruct t as [|t]; [cbn [N.of_nat Pos.of_succ_nat Pos.succ];
    destruct (f 0%nat), (f 1%nat), (f 2%nat), (f 3%nat), (f 4%nat), (f 5%nat), (f 6%nat), (f 7%nat); reflexivity|]).
  lia.
Qed.
Lemma byte_of_bound : forall f, byte_of f < 256.
Proof.
  intros f. unfold byte_of. cbn [seq fold_right].
  destruct (f 0%nat), (f 1%nat), (f 2%nat), (f 3%nat), (f 4%nat), (f 5%nat), (f 6%nat), (f 7%nat); reflexivity.
Qed.

Definition addr_of (f : nat -> bool) : address := map (fun j => byte_of (fun t => f (8 * j + (7 - t))%nat)) (seq 0 16).

Lemma addr_of_wf : forall f, wf (addr_of f).
Proof.
  intros f. split; [unfold addr_of; now rewrite map_length, seq_length|].
  apply Forall_forall. intros x H. apply in_map_iff in H as (j & <- & _). apply byte_of_bound.
Qed.
Lemma abit_addr_of : forall f i, (i < 128)%nat -> abit (addr_of f) i = f i.
Proof.
  intros f i H. destruct (abit_split i) as (j & t & T & ->). rewrite abit_8 by auto. unfold addr_of.
  rewrite (nth_map_default _ _ _ _ 0%nat) by (rewrite seq_length; lia). rewrite seq_nth by lia. cbn [Nat.add].
  now rewrite byte_of_spec.
Qed.

(** * Masks *)

Lemma mask_byte_table : forallb (fun k => forallb (fun j => forallb (fun t =>
    Bool.eqb (N.testbit (mask_byte (N.of_nat k) j) (N.of_nat t)) (8 * j + (7 - t) <? k)%nat) (seq 0 8)) (seq 0 16)) (seq 0 129) = true.
Proof. vm_compute. reflexivity. Qed.

Lemma mask_byte_spec : forall k j t, (k <= 128)%nat -> (j < 16)%nat -> (t < 8)%nat ->
  N.testbit (mask_byte (N.of_nat k) j) (N.of_nat t) = (8 * j + (7 - t) <? k)%nat.
Proof.
  intros k j t K J T. pose proof mask_byte_table as H. rewrite forallb_forall in H.
  specialize (H k ltac:(apply in_seq; lia)). rewrite forallb_forall in H.
  specialize (H j ltac:(apply in_seq; lia)). rewrite forallb_forall in H.
  specialize (H t ltac:(apply in_seq; lia)). now apply eqb_prop in H.
Qed.

Lemma nth_mapi : forall {A} (f : nat -> A -> N) l i j d, (j < length l)%nat ->
  nth j (mapi i f l) 0 = f (i + j)%nat (nth j l d).
Proof.
  intros A f. induction l as [|x l IH]; intros i j d H; [cbn in H; lia|]. destruct j as [|j]; cbn [mapi nth].
  - now rewrite Nat.add_0_r.
  - rewrite (IH (S i) j d) by (cbn in H; lia). f_equal. lia.
Qed.

Lemma mask_wf : forall a k, wf a -> wf (addr_mask a k).
Proof.
  intros a k [L F]. unfold addr_mask. destruct (128 <? k); [now split|]. split; [now rewrite mapi_length|].
  apply Forall_forall. intros x H. apply (In_nth _ _ 0) in H as (j & Hj & <-). rewrite mapi_length in Hj.
  rewrite (nth_mapi _ _ _ _ 0) by auto. rewrite Forall_forall in F. specialize (F (nth j a 0) (nth_In _ _ Hj)).
  change 256 with (2 ^ 8) in *. apply NBits.land_lt. auto.
Qed.

Lemma abit_mask : forall a k i, wf a -> (k <= 128)%nat -> (i < 128)%nat ->
  abit (addr_mask a (N.of_nat k)) i = (abit a i && (i <? k)%nat)%bool.
Proof.
  intros a k i [L F] K I. unfold addr_mask. replace (128 <? N.of_nat k) with false by lia.
  destruct (abit_split i) as (j & t & T & ->). rewrite !abit_8 by auto.
  rewrite (nth_mapi _ _ _ _ 0) by lia. cbn [Nat.add]. rewrite N.land_spec. f_equal. apply mask_byte_spec; lia.
Qed.

Lemma mask_share : forall a k, wf a -> (k <= 128)%nat -> share k (addr_mask a (N.of_nat k)) a.
Proof. intros a k W K i I. rewrite abit_mask by (auto; lia). replace (i <? k)%nat with true by lia. apply andb_true_r. Qed.

Lemma mask_mask : forall a j k, wf a -> (j <= 128)%nat -> (k <= 128)%nat ->
  addr_mask (addr_mask a (N.of_nat j)) (N.of_nat k) = addr_mask a (N.of_nat (Nat.min j k)).
Proof.
  intros a j k W J K. apply addr_ext; try (now repeat apply mask_wf).
  intros i I. rewrite !abit_mask by (auto; try apply mask_wf; auto; lia). destruct (abit a i); cbn [andb]; auto. lia.
Qed.

Lemma mask_eq_share : forall a b k, wf a -> wf b -> (k <= 128)%nat ->
  addr_mask a (N.of_nat k) = addr_mask b (N.of_nat k) <-> share k a b.
Proof.
  intros a b k A B K. split.
  - intros E i I. rewrite <- (mask_share a k A K i I), <- (mask_share b k B K i I). now rewrite E.
  - intros S. apply addr_ext; try now apply mask_wf. intros i I. rewrite !abit_mask by auto.
    destruct (Nat.ltb_spec i k) as [Q|Q]; [now rewrite S|now rewrite !andb_false_r].
Qed.

(** * Comparison *)

Lemma msb_fill8_table : forallb (fun k => forallb (fun t =>
    Bool.eqb (N.testbit (msb_fill8 (N.of_nat k)) (N.of_nat t)) (7 - t <? k)%nat) (seq 0 8)) (seq 0 9) = true.
Proof. vm_compute. reflexivity. Qed.
Lemma msb_fill8_spec : forall k t, (k <= 8)%nat -> (t < 8)%nat ->
  N.testbit (msb_fill8 (N.of_nat k)) (N.of_nat t) = (7 - t <? k)%nat.
Proof.
  intros k t K T. pose proof msb_fill8_table as H. rewrite forallb_forall in H.
  specialize (H k ltac:(apply in_seq; lia)). rewrite forallb_forall in H.
  specialize (H t ltac:(apply in_seq; lia)). now apply eqb_prop in H.
Qed.

Lemma share_cons : forall x xs y ys k, x < 256 -> y < 256 -> (8 <= k)%nat ->
  share k (x :: xs) (y :: ys) <-> x = y /\ share (k - 8) xs ys.
Proof.
  intros x xs y ys k X Y K. split.
  - intros H. split.
    + apply byte_ext; auto. intros t T. specialize (H (8 * 0 + (7 - t))%nat ltac:(lia)). now rewrite !abit_8 in H.
    + intros i I. specialize (H (i + 8)%nat ltac:(lia)). destruct (abit_split i) as (j & t & T & ->).
      replace (8 * j + (7 - t) + 8)%nat with (8 * S j + (7 - t))%nat in H by lia. rewrite !abit_8 in * by auto. exact H.
  - intros [<- H] i I. destruct (abit_split i) as (j & t & T & ->). rewrite !abit_8 by auto. destruct j as [|j]; auto.
    cbn [nth]. rewrite <- !abit_8 by auto. apply H. lia.
Qed.

Lemma share_byte : forall x xs y ys k, x < 256 -> y < 256 -> (k <= 8)%nat ->
  share k (x :: xs) (y :: ys) <-> N.land x (msb_fill8 (N.of_nat k)) = N.land y (msb_fill8 (N.of_nat k)).
Proof.
  intros x xs y ys k X Y K. split.
  - intros H. apply byte_ext; try (change 256 with (2 ^ 8) in *; now apply NBits.land_lt).
    intros t T. rewrite !N.land_spec, msb_fill8_spec by auto. destruct (Nat.ltb_spec (7 - t) k) as [Q|Q]; [|now rewrite !andb_false_r].
    specialize (H (8 * 0 + (7 - t))%nat ltac:(lia)). rewrite !abit_8 in H by auto. cbn [nth] in H. now rewrite H.
  - intros E i I. destruct (abit_split i) as (j & t & T & ->). rewrite !abit_8 by auto.
    assert (j = 0%nat) as -> by lia. cbn [nth].
    assert (Q : N.testbit (N.land x (msb_fill8 (N.of_nat k))) (N.of_nat t) = N.testbit (N.land y (msb_fill8 (N.of_nat k))) (N.of_nat t)) by now rewrite E.
    rewrite !N.land_spec, msb_fill8_spec in Q by auto. replace (7 - t <? k)%nat with true in Q by lia. now rewrite !andb_true_r in Q.
Qed.

Lemma compare_loop_spec : forall xs ys k, Forall (fun b => b < 256) xs -> Forall (fun b => b < 256) ys ->
  length xs = length ys -> (0 < k <= 8 * length xs)%nat ->
  exists r, compare_loop xs ys (N.of_nat k) = Some r /\ (r = true <-> share k xs ys).
Proof.
  induction xs as [|x xs IH]; intros [|y ys] k FX FY L K; try discriminate; [cbn in K; lia|].
  inversion FX; subst. inversion FY; subst. cbn [compare_loop length] in *.
  destruct (N.ltb_spec 8 (N.of_nat k)) as [Q|Q].
  - destruct (N.eqb_spec x y) as [->|NE].
    + destruct (IH ys (k - 8)%nat) as (r & E & R); auto; [lia|].
      exists r. replace (N.of_nat k - 8) with (N.of_nat (k - 8)) by lia. split; auto.
      rewrite R, share_cons by (auto; lia). tauto.
    + exists false. split; auto. rewrite share_cons by (auto; lia). split; [discriminate|tauto].
  - eexists. split; [reflexivity|]. rewrite share_byte by (auto; lia). now rewrite N.eqb_eq.
Qed.

Lemma compare_spec : forall a b k, wf a -> wf b -> (0 < k <= 128)%nat ->
  exists r, addr_compare a b (N.of_nat k) = Some r /\ (r = true <-> share k a b).
Proof.
  intros a b k [LA FA] [LB FB] K. unfold addr_compare.
  replace ((0 <? N.of_nat k) && (N.of_nat k <=? 128))%bool with true by lia.
  apply compare_loop_spec; auto; [congruence|]. rewrite LA. lia.
Qed.

(** * IPv4 addresses *)

Lemma v4_prefix_wf : Forall (fun b => b < 256) v4_prefix.
Proof. repeat constructor. Qed.

(** Some IPv4 address. *)
Definition v4_zero : address := v4_prefix ++ [0; 0; 0; 0].
Lemma v4_zero_wf : wf v4_zero.
Proof. split; [reflexivity|]. repeat constructor. Qed.

Lemma share_firstn : forall n a b, wf a -> wf b -> (n <= 16)%nat -> firstn n a = firstn n b <-> share (8 * n) a b.
Proof.
  intros n a b [LA FA] [LB FB] NN. split.
  - intros E i I. destruct (abit_split i) as (j & t & T & ->). rewrite !abit_8 by auto.
    assert (j < n)%nat by lia. rewrite <- (firstn_skipn n a), <- (firstn_skipn n b), E.
    rewrite !app_nth1; auto; rewrite firstn_length; lia.
  - intros H. apply (nth_ext _ _ 0 0); [rewrite !firstn_length; lia|].
    intros j Hj. rewrite firstn_length in Hj.
    assert (NF : forall l : list N, nth j (firstn n l) 0 = nth j l 0).
    { intros l. assert (Q : (j < n)%nat) by lia. clear -Q. revert j n Q. induction l; intros j n Q; destruct n; cbn; auto; try lia.
      - destruct j; auto. apply IHl. lia. }
    rewrite !NF. rewrite Forall_forall in FA, FB.
    apply byte_ext; [apply FA, nth_In; lia|apply FB, nth_In; lia|].
    intros t Ht. rewrite <- !abit_8 by auto. apply H. lia.
Qed.

Lemma is_v4_share : forall a, wf a -> is_v4 a = true <-> share 96 a v4_zero.
Proof.
  intros a W. unfold is_v4. rewrite bytes_eqb_spec. change v4_prefix with (firstn 12 v4_zero).
  rewrite share_firstn; [reflexivity|auto|apply v4_zero_wf|lia].
Qed.

Lemma share_sym : forall k a b, share k a b -> share k b a.
Proof. intros k a b H i I. symmetry. now apply H. Qed.
Lemma share_trans : forall k a b c, share k a b -> share k b c -> share k a c.
Proof. intros k a b c H H' i I. rewrite H; auto. Qed.
Lemma share_le : forall j k a b, (j <= k)%nat -> share k a b -> share j a b.
Proof. intros j k a b L H i I. apply H. lia. Qed.
Lemma share_refl : forall k a, share k a a.
Proof. intros k a i I. reflexivity. Qed.

Lemma v4_share : forall a b k, wf a -> wf b -> (96 <= k)%nat -> share k a b -> is_v4 a = is_v4 b.
Proof.
  intros a b k A B K S. apply eq_true_iff_eq. rewrite !is_v4_share by auto.
  pose proof (share_le 96 k a b K S) as S'. split; intros H; eapply share_trans; eauto. now apply share_sym.
Qed.

(** Masking with at least 96 bits preserves the family; masking an IPv6 address never yields an IPv4 one. *)
Lemma mask_v4 : forall a k, wf a -> (96 <= k <= 128)%nat -> is_v4 (addr_mask a (N.of_nat k)) = is_v4 a.
Proof. intros a k W K. apply (v4_share _ _ k); auto; [now apply mask_wf|lia|apply mask_share; auto; lia]. Qed.
Lemma mask_v6 : forall a k, wf a -> (k <= 128)%nat -> is_v4 a = false -> is_v4 (addr_mask a (N.of_nat k)) = false.
Proof.
  intros a k W K H. destruct (Nat.le_gt_cases 96 k) as [Q|Q]; [rewrite mask_v4; auto; lia|].
  destruct (is_v4 (addr_mask a (N.of_nat k))) eqn:E; auto. exfalso.
  rewrite is_v4_share in E by now apply mask_wf. specialize (E 95%nat ltac:(lia)).
  rewrite abit_mask in E by (auto; lia). replace (95 <? k)%nat with false in E by lia. rewrite andb_false_r in E. discriminate.
Qed.

(** * Subnets *)

(** A subnet built by the constructor. *)
Definition sn_wf (s : subnet) : Prop :=
  wf (sn_net s) /\ sn_bits s <= 128 /\ addr_mask (sn_net s) (sn_bits s) = sn_net s /\
  (is_v4 (sn_net s) = true -> 96 <= sn_bits s).

Lemma zero_wf : wf zero_address.
Proof. split; [reflexivity|]. repeat constructor. Qed.

Lemma sn_make_wf : forall a n, wf a -> sn_wf (sn_make a n).
Proof.
  intros a n W. unfold sn_make.
  assert (Z : sn_wf {| sn_net := zero_address; sn_bits := 0 |}).
  { split; [apply zero_wf|]. cbn [sn_net sn_bits]. split; [lia|]. split; [reflexivity|]. discriminate. }
  destruct (is_v4 a) eqn:V.
  - destruct (N.ltb_spec 32 n) as [H|H]; auto.
    replace (n + 96) with (N.of_nat (N.to_nat (n + 96))) by lia. set (k := N.to_nat (n + 96)).
    assert (K : (96 <= k <= 128)%nat) by lia. split; cbn [sn_net sn_bits]; [now apply mask_wf|].
    split; [lia|]. split; [|lia]. rewrite mask_mask by (auto; lia). now rewrite Nat.min_id.
  - destruct (N.ltb_spec 128 n) as [H|H]; auto.
    replace n with (N.of_nat (N.to_nat n)) by lia. set (k := N.to_nat n).
    assert (K : (k <= 128)%nat) by lia. split; cbn [sn_net sn_bits]; [now apply mask_wf|].
    split; [lia|]. split; [rewrite mask_mask by (auto; lia); now rewrite Nat.min_id|].
    rewrite mask_v6; auto. discriminate.
Qed.

Lemma sn_contains_spec : forall s a, sn_wf s -> wf a -> 0 < sn_bits s ->
  exists r, sn_contains s a = Some r /\ (r = true <-> share (N.to_nat (sn_bits s)) a (sn_net s)).
Proof.
  intros s a (W & B & _) A P. unfold sn_contains.
  destruct (compare_spec a (sn_net s) (N.to_nat (sn_bits s)) A W ltac:(lia)) as (r & E & R).
  rewrite N2Nat.id in E. eauto.
Qed.
