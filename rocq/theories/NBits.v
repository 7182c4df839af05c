(** Arithmetic facts about bit operations on [N] used by several proofs. *)
From Coq Require Import List ZArith NArith Lia Bool ZifyBool ZifyNat ZifyN.
Import ListNotations.
Open Scope N_scope.

Lemma pow2_pos : forall k, 0 < 2 ^ k.
Proof. intro. apply N.neq_0_lt_0, N.pow_nonzero. lia. Qed.

Lemma testbit_small : forall a k i, a < 2 ^ k -> k <= i -> N.testbit a i = false.
Proof.
  intros a k i Ha Hi. destruct (N.eq_dec a 0) as [->|Hz]; [apply N.bits_0|].
  apply N.bits_above_log2. apply N.log2_lt_pow2; [lia|].
  eapply N.lt_le_trans; [exact Ha|]. apply N.pow_le_mono_r; lia.
Qed.

Lemma land_disjoint_shift : forall a b k, a < 2 ^ k -> N.land a (N.shiftl b k) = 0.
Proof.
  intros. apply N.bits_inj_0. intro i. rewrite N.land_spec.
  destruct (N.ltb_spec i k).
  - rewrite N.shiftl_spec_low by lia. apply andb_false_r.
  - rewrite (testbit_small a k) by lia. reflexivity.
Qed.

Lemma lor_shiftl_add : forall a b k, a < 2 ^ k -> N.lor a (N.shiftl b k) = a + b * 2 ^ k.
Proof.
  intros. rewrite <- N.lxor_lor by now apply land_disjoint_shift.
  rewrite <- N.add_nocarry_lxor by now apply land_disjoint_shift.
  now rewrite N.shiftl_mul_pow2.
Qed.

Lemma land_ones_mod : forall a k, N.land a (N.ones k) = a mod 2 ^ k.
Proof. intros. apply N.land_ones. Qed.

Lemma testbit_lt_pow2 : forall a k,
  (forall i, k <= i -> N.testbit a i = false) -> a < 2 ^ k.
Proof.
  intros a k H. destruct (N.eq_dec a 0) as [->|Hz]; [apply pow2_pos|].
  apply N.log2_lt_pow2; [lia|].
  destruct (N.lt_ge_cases (N.log2 a) k) as [|Hge]; auto.
  specialize (H _ Hge). rewrite N.bit_log2 in H by auto. discriminate.
Qed.

Lemma land_lt : forall a b k, a < 2 ^ k -> N.land a b < 2 ^ k.
Proof.
  intros. apply testbit_lt_pow2. intros i Hi.
  rewrite N.land_spec, (testbit_small a k) by lia. reflexivity.
Qed.

Lemma lor_lt : forall a b k, a < 2 ^ k -> b < 2 ^ k -> N.lor a b < 2 ^ k.
Proof.
  intros. apply testbit_lt_pow2. intros i Hi.
  rewrite N.lor_spec, (testbit_small a k), (testbit_small b k) by lia. reflexivity.
Qed.

Lemma lxor_lt : forall a b k, a < 2 ^ k -> b < 2 ^ k -> N.lxor a b < 2 ^ k.
Proof.
  intros. apply testbit_lt_pow2. intros i Hi.
  rewrite N.lxor_spec, (testbit_small a k), (testbit_small b k) by lia. reflexivity.
Qed.

Lemma ones_lt : forall k, N.ones k < 2 ^ k.
Proof. intro. rewrite N.ones_equiv. pose proof (pow2_pos k). lia. Qed.

(** Equality of two [k]-bit numbers from equality of their low bits. *)
Lemma eq_of_testbit : forall a b k, a < 2 ^ k -> b < 2 ^ k ->
  (forall i, i < k -> N.testbit a i = N.testbit b i) -> a = b.
Proof.
  intros a b k Ha Hb H. apply N.bits_inj. intro i.
  destruct (N.lt_ge_cases i k).
  - now apply H.
  - rewrite (testbit_small a k), (testbit_small b k) by lia. reflexivity.
Qed.

Lemma testbit_mod_pow2 : forall a k i,
  N.testbit (a mod 2 ^ k) i = (i <? k) && N.testbit a i.
Proof.
  intros. destruct (N.ltb_spec i k).
  - now rewrite N.mod_pow2_bits_low.
  - now rewrite N.mod_pow2_bits_high.
Qed.
