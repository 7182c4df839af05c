(** C38: addresses and subnets. An address is well formed ([wf]) if it has 16
    bytes; [abit a i] is its bit [i] counted from the top and [share k a b] says
    that the top [k] bits agree. *)
From Coq Require Import List ZArith NArith Lia Bool ZifyBool ZifyNat ZifyN.
From Verif Require Import NBits WordProofs CoderModel CoderProofs AddressModel AddressProofs.
Import ListNotations.
Open Scope N_scope.

(** The number of significant bits of the subnet a user writes as [a/n]. *)
Definition prefix_bits (a : address) (n : nat) : nat := if is_v4 a then (96 + n)%nat else n.
Definition valid_length (a : address) (n : nat) : Prop := if is_v4 a then (n <= 32)%nat else (n <= 128)%nat.

(** 10.1.2.3, 10.1.255.255 and 2001:db8::1. *)
Definition ip4_a : address := v4_prefix ++ [10; 1; 2; 3].
Definition ip4_b : address := v4_prefix ++ [10; 1; 255; 255].
Definition ip6_a : address := [32; 1; 13; 184; 0; 0; 0; 0; 0; 0; 0; 0; 0; 0; 0; 1].
Lemma ip4_a_wf : wf ip4_a. Proof. split; [reflexivity|]. repeat constructor. Qed.
Lemma ip4_b_wf : wf ip4_b. Proof. split; [reflexivity|]. repeat constructor. Qed.
Lemma ip6_a_wf : wf ip6_a. Proof. split; [reflexivity|]. repeat constructor. Qed.

Lemma make_bits : forall a n, wf a -> valid_length a n ->
  sn_bits (sn_make a (N.of_nat n)) = N.of_nat (prefix_bits a n) /\
  sn_net (sn_make a (N.of_nat n)) = addr_mask a (N.of_nat (prefix_bits a n)) /\ (prefix_bits a n <= 128)%nat.
Proof.
  intros a n W V. unfold sn_make, prefix_bits, valid_length in *. destruct (is_v4 a).
  - replace (32 <? N.of_nat n) with false by lia. cbn [sn_bits sn_net].
    replace (N.of_nat n + 96) with (N.of_nat (96 + n)) by lia. repeat split; auto. lia.
  - replace (128 <? N.of_nat n) with false by lia. cbn [sn_bits sn_net]. auto.
Qed.

(** Masking clears exactly the bits after the prefix. *)
Theorem C38_mask : forall a k i, wf a -> (k <= 128)%nat -> (i < 128)%nat ->
  wf (addr_mask a (N.of_nat k)) /\
  abit (addr_mask a (N.of_nat k)) i = if (i <? k)%nat then abit a i else false.
Proof.
  intros a k i W K I. split; [now apply mask_wf|]. rewrite abit_mask by auto.
  destruct (i <? k)%nat; [apply andb_true_r|apply andb_false_r].
Qed.

(** Masking is idempotent; the shorter of two masks wins. *)
Theorem C38_mask_mask : forall a j k, wf a -> (j <= 128)%nat -> (k <= 128)%nat ->
  addr_mask (addr_mask a (N.of_nat j)) (N.of_nat k) = addr_mask a (N.of_nat (Nat.min j k)).
Proof. exact mask_mask. Qed.
Example C38_mask_example : addr_mask ip4_a 112 = v4_prefix ++ [10; 1; 0; 0].
Proof. reflexivity. Qed.

(** The subnet [a/n] reports the length [n] and contains exactly the addresses
    whose leading bits agree with those of [a]. *)
Theorem C38_contains : forall a n b, wf a -> wf b -> valid_length a n -> (0 < prefix_bits a n)%nat ->
  sn_length (sn_make a (N.of_nat n)) = N.of_nat n /\
  exists r, sn_contains (sn_make a (N.of_nat n)) b = Some r /\
    (r = true <-> share (prefix_bits a n) a b).
Proof.
  intros a n b A B V P. destruct (make_bits a n A V) as (E1 & E2 & L).
  assert (W : sn_wf (sn_make a (N.of_nat n))) by now apply sn_make_wf.
  split.
  - unfold sn_length. rewrite E1, E2. unfold prefix_bits in *. destruct (is_v4 a) eqn:F.
    + rewrite mask_v4 by (auto; lia). rewrite F. lia.
    + rewrite mask_v6 by auto. reflexivity.
  - destruct (sn_contains_spec _ b W B) as (r & E & R); [rewrite E1; lia|]. exists r. split; auto.
    rewrite R, E1, E2, Nat2N.id. split; intros S.
    + apply share_sym. eapply share_trans; [exact S|]. now apply mask_share.
    + eapply share_trans; [apply share_sym; exact S|]. apply share_sym. now apply mask_share.
Qed.
Example C38_contains_example :
  valid_length ip4_a 16 /\ prefix_bits ip4_a 16 = 112%nat /\
  sn_contains (sn_make ip4_a 16) ip4_b = Some true /\ sn_contains (sn_make ip4_a 17) ip4_b = Some false.
Proof. repeat split; try reflexivity. vm_compute. repeat constructor. Qed.

(** An invalid length yields the empty prefix of the zero address, whose
    containment check fails its assertion, as it does for ::/0. *)
Theorem C38_zero_length_refuted : exists a b, wf a /\ wf b /\
  valid_length a 0 /\ sn_contains (sn_make a 0) b = None /\ share 0 a b.
Proof.
  exists ip6_a, ip4_a. split; [apply ip6_a_wf|]. split; [apply ip4_a_wf|]. split; [cbn; lia|]. split; [reflexivity|].
  intros i I. lia.
Qed.

(** * Containment of subnets *)

(** What a containment check answers. *)
Definition yes (r : option bool) : Prop := r = Some true.

Lemma contains_yes : forall s a, sn_wf s -> wf a -> 0 < sn_bits s ->
  yes (sn_contains s a) <-> share (N.to_nat (sn_bits s)) a (sn_net s).
Proof.
  intros s a W A P. destruct (sn_contains_spec s a W A P) as (r & E & R). unfold yes. rewrite E, <- R.
  split; [intros Q; now injection Q|congruence].
Qed.

Lemma includes_yes : forall s t, sn_wf s -> sn_wf t -> 0 < sn_bits s ->
  yes (sn_includes s t) <-> sn_bits s <= sn_bits t /\ share (N.to_nat (sn_bits s)) (sn_net t) (sn_net s).
Proof.
  intros s t S T P. unfold sn_includes. destruct (N.leb_spec (sn_bits s) (sn_bits t)) as [L|L].
  - rewrite contains_yes; auto; [|apply T]. tauto.
  - unfold yes. split; [discriminate|lia].
Qed.

(** A subnet contains another one exactly if it contains all of its addresses. *)
Theorem C38_includes : forall a m b n, wf a -> wf b -> valid_length a m -> valid_length b n ->
  (0 < prefix_bits a m)%nat -> (0 < prefix_bits b n)%nat ->
  let s := sn_make a (N.of_nat m) in let t := sn_make b (N.of_nat n) in
  sn_includes s t <> None /\
  (sn_includes s t = Some true <-> forall x, wf x -> sn_contains t x = Some true -> sn_contains s x = Some true).
Proof.
  intros a m b n A B VA VB PA PB s t.
  destruct (make_bits a m A VA) as (S1 & S2 & LS). destruct (make_bits b n B VB) as (T1 & T2 & LT).
  fold s in S1, S2. fold t in T1, T2.
  assert (S : sn_wf s) by now apply sn_make_wf. assert (T : sn_wf t) by now apply sn_make_wf.
  assert (PS : 0 < sn_bits s) by lia. assert (PT : 0 < sn_bits t) by lia.
  split.
  { unfold sn_includes. destruct (sn_bits s <=? sn_bits t); [|discriminate].
    destruct (sn_contains_spec s (sn_net t) S (proj1 T) PS) as (r & -> & _). discriminate. }
  fold (yes (sn_includes s t)). rewrite includes_yes by auto. split.
  - intros [L H] x X C. fold (yes (sn_contains t x)) in C. rewrite contains_yes in C by auto.
    fold (yes (sn_contains s x)). rewrite contains_yes by auto.
    eapply share_trans; [|exact H]. eapply share_le; [|exact C]. lia.
  - intros H. assert (C : yes (sn_contains s (sn_net t))).
    { apply H; [apply T|]. fold (yes (sn_contains t (sn_net t))). rewrite contains_yes by (auto; apply T). apply share_refl. }
    rewrite contains_yes in C by (auto; apply T). split; auto.
    destruct (N.le_gt_cases (sn_bits s) (sn_bits t)) as [Q|Q]; auto. exfalso.
    set (k := N.to_nat (sn_bits t)). assert (K : (k < 128)%nat) by (destruct S as (_ & SB & _); lia).
    set (x := addr_of (fun i => if (i =? k)%nat then negb (abit (sn_net t) i) else abit (sn_net t) i)).
    assert (X : wf x) by apply addr_of_wf.
    assert (D : yes (sn_contains s x)).
    { apply H; auto. fold (yes (sn_contains t x)). rewrite contains_yes by auto. fold k. intros i I. unfold x. rewrite abit_addr_of by lia.
      now replace (i =? k)%nat with false by lia. }
    rewrite contains_yes in D by auto. specialize (D k ltac:(lia)). specialize (C k ltac:(lia)).
    unfold x in D. rewrite abit_addr_of, Nat.eqb_refl in D by auto. rewrite <- C in D. destruct (abit (sn_net t) k); discriminate.
Qed.
Example C38_includes_example :
  sn_includes (sn_make ip4_a 16) (sn_make ip4_b 24) = Some true /\ sn_includes (sn_make ip4_a 24) (sn_make ip4_b 16) = Some false.
Proof. split; reflexivity. Qed.

(** Containment is a partial order whose equality is [==]. *)
Theorem C38_order : forall s t u, sn_wf s -> sn_wf t -> sn_wf u -> 0 < sn_bits s -> 0 < sn_bits t ->
  sn_includes s s = Some true /\
  (sn_includes s t = Some true -> sn_includes t u = Some true -> sn_includes s u = Some true) /\
  (sn_includes s t = Some true -> sn_includes t s = Some true -> s = t) /\
  (sn_eqb s t = true <-> s = t).
Proof.
  intros s t u S T U PS PT.
  fold (yes (sn_includes s s)) (yes (sn_includes s t)) (yes (sn_includes t u)) (yes (sn_includes s u)) (yes (sn_includes t s)).
  rewrite !includes_yes by auto. split; [split; [lia|apply share_refl]|]. split; [|split].
  - intros [L1 H1] [L2 H2]. split; [lia|]. eapply share_trans; [|exact H1]. eapply share_le; [|exact H2]. lia.
  - intros [L1 H1] [L2 H2]. assert (E : sn_bits s = sn_bits t) by lia.
    assert (N : sn_net s = sn_net t).
    { destruct S as (WS & BS & MS & _), T as (WT & BT & MT & _). rewrite <- MS, <- MT, E.
      replace (sn_bits t) with (N.of_nat (N.to_nat (sn_bits t))) by lia. apply mask_eq_share; auto. lia. }
    destruct s, t. cbn in *. congruence.
  - unfold sn_eqb. rewrite andb_true_iff, bytes_eqb_spec, N.eqb_eq. destruct s, t. cbn. split; [intros [-> ->]; auto|intros E; now injection E].
Qed.
(** Every constructed subnet is well formed. *)
Theorem C38_constructor : forall a n, wf a -> sn_wf (sn_make a n).
Proof. exact sn_make_wf. Qed.
Example C38_order_example : sn_wf (sn_make ip4_a 8) /\ sn_wf (sn_make ip6_a 32) /\ 0 < sn_bits (sn_make ip4_a 0).
Proof. split; [apply sn_make_wf, ip4_a_wf|]. split; [apply sn_make_wf, ip6_a_wf|]. reflexivity. Qed.

Definition assumptions_address := (C38_mask, C38_mask_mask, C38_contains, C38_zero_length_refuted, C38_includes, C38_order, C38_constructor).
Print Assumptions assumptions_address.
