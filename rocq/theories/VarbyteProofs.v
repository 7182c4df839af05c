From Coq Require Import List ZArith NArith Lia Bool ZifyBool ZifyNat ZifyN.
From Verif Require Import NBits VarbyteModel.
Import ListNotations.
Open Scope N_scope.

Lemma land_127 : forall x, N.land x 127 = x mod 128.
Proof. intro. change 127 with (N.ones 7). rewrite N.land_ones. reflexivity. Qed.

Lemma cont_byte : forall y, y < 128 -> N.lor y 128 = y + 128.
Proof.
  intros. change 128 with (N.shiftl 1 7). rewrite lor_shiftl_add by (cbn; lia). reflexivity.
Qed.

Lemma byte_split : forall y, y < 128 ->
  N.land (y + 128) 127 = y /\ N.testbit (y + 128) 7 = true.
Proof.
  intros y H. rewrite <- cont_byte by auto. split.
  - apply N.bits_inj. intro i. rewrite N.land_spec, N.lor_spec.
    change 127 with (N.ones 7). change 128 with (2 ^ 7).
    destruct (N.ltb_spec i 7).
    + rewrite N.ones_spec_low, N.pow2_bits_false by lia.
      now rewrite orb_false_r, andb_true_r.
    + rewrite N.ones_spec_high, andb_false_r by lia.
      symmetry. apply (testbit_small y 7); cbn; lia.
  - rewrite N.lor_spec. change 128 with (2 ^ 7). rewrite N.pow2_bits_true. apply orb_true_r.
Qed.

Lemma last_byte : forall y, y < 128 -> N.land y 127 = y /\ N.testbit y 7 = false.
Proof.
  intros y H. split.
  - rewrite land_127. apply N.mod_small; lia.
  - apply (testbit_small y 7); cbn; lia.
Qed.

(** Number of bytes in terms of the value. *)
Lemma dec_enc : forall fuel x w i acc rest,
  x < 2 ^ N.of_nat fuel -> (0 < fuel)%nat ->
  acc < 2 ^ (7 * i) -> acc + x * 2 ^ (7 * i) < 2 ^ w -> 7 * i < w ->
  dec w i acc (enc fuel x ++ rest) =
    Some (acc + x * 2 ^ (7 * i), i + N.of_nat (length (enc fuel x))).
Proof.
  induction fuel as [|f IH]; intros x w i acc rest Hx Hf Ha Hw Hi; [lia|].
  cbn [enc].
  assert (Hs : shift_width w <=? 7 * i = false).
  { unfold shift_width. destruct (N.ltb_spec w 32); lia. }
  destruct (N.ltb_spec 127 x).
  - rewrite land_127, cont_byte by (apply N.mod_lt; lia).
    cbn [app dec]. rewrite Hs.
    destruct (byte_split (x mod 128)) as [-> ->]; [apply N.mod_lt; lia|].
    rewrite lor_shiftl_add by auto.
    rewrite N.shiftr_div_pow2. change (2 ^ 7) with 128.
    assert (E : 2 ^ (7 * (i + 1)) = 128 * 2 ^ (7 * i)).
    { replace (7 * (i + 1)) with (7 + 7 * i) by lia. now rewrite N.pow_add_r. }
    pose proof (N.div_mod' x 128) as D. pose proof (N.mod_lt x 128 ltac:(lia)) as M.
    remember (x mod 128) as lo. remember (x / 128) as hi. 
    set (p := 2 ^ (7 * i)) in *.
    assert (Hp : 0 < p) by apply pow2_pos.
    rewrite N.mod_small by nia.
    rewrite IH.
    + rewrite E. f_equal. f_equal.
      * rewrite D. lia.
      * cbn [length]. lia.
    + rewrite Nat2N.inj_succ, N.pow_succ_r' in Hx. lia.
    + destruct f; [cbn in Hx; lia|lia].
    + rewrite E. nia.
    + rewrite E. rewrite D in Hw. nia.
    + assert (Hpw : 128 * p <= acc + x * p) by nia.
      assert (2 ^ (7 * (i + 1)) < 2 ^ w) by (rewrite E; lia).
      apply N.pow_lt_mono_r_iff in H0; lia.
  - destruct (last_byte x) as [L1 L2]; [lia|]. rewrite L1.
    cbn [app dec length]. rewrite Hs, L1, L2, lor_shiftl_add by auto.
    rewrite N.mod_small by lia. reflexivity.
Qed.

Lemma size_nat_N : forall n, N.of_nat (N.size_nat n) = N.size n.
Proof.
  destruct n as [|p]; auto. cbn [N.size N.size_nat].
  induction p as [p IH|p IH|]; cbn [Pos.size Pos.size_nat]; auto;
    rewrite Nat2N.inj_succ, IH; reflexivity.
Qed.

Lemma enc_fuel : forall x, x < 2 ^ N.of_nat (S (N.size_nat x)).
Proof.
  intro. rewrite Nat2N.inj_succ, size_nat_N, N.pow_succ_r'.
  pose proof (N.size_gt x). lia.
Qed.

Lemma decode_encode : forall w x rest, 0 < w -> x < 2 ^ w ->
  decode w (encode x ++ rest) = Some (x, N.of_nat (length (encode x))).
Proof.
  intros. unfold decode, encode.
  rewrite dec_enc; rewrite ?N.mul_0_r, ?N.pow_0_r; try lia; auto using enc_fuel.
  - f_equal. f_equal. lia.
Qed.

(** Length of the encoding, by value ranges. *)
Lemma enc_len : forall fuel x k,
  x < 2 ^ N.of_nat fuel -> (0 < fuel)%nat ->
  (k = 1 /\ x < 128) \/ (1 < k /\ 2 ^ (7 * (k - 1)) <= x /\ x < 2 ^ (7 * k)) ->
  N.of_nat (length (enc fuel x)) = k.
Proof.
  induction fuel as [|f IH]; intros x k Hx Hf Hk; [lia|].
  cbn [enc]. destruct (N.ltb_spec 127 x).
  - destruct Hk as [[-> Hk]|[Hk [Lo Hi]]]; [lia|].
    cbn [length]. rewrite Nat2N.inj_succ.
    rewrite N.shiftr_div_pow2. change (2 ^ 7) with 128.
    rewrite IH with (k := k - 1); [lia| | |].
    + rewrite Nat2N.inj_succ, N.pow_succ_r' in Hx.
      assert (x / 128 <= x / 2) by (apply N.div_le_compat_l; lia).
      assert (x / 2 < 2 ^ N.of_nat f) by (apply N.div_lt_upper_bound; lia). lia.
    + destruct f; [cbn in Hx; lia|lia].
    + replace (7 * k) with (7 + 7 * (k - 1)) in Hi by lia.
      rewrite N.pow_add_r in Hi. change (2 ^ 7) with 128 in Hi.
      assert (x / 128 < 2 ^ (7 * (k - 1))) by (apply N.div_lt_upper_bound; lia).
      destruct (N.eq_dec k 2) as [->|].
      * left. split; [lia|]. exact H0.
      * right. split; [lia|]. split; auto.
        replace (7 * (k - 1)) with (7 + 7 * (k - 1 - 1)) in Lo by lia.
        rewrite N.pow_add_r in Lo. change (2 ^ 7) with 128 in Lo.
        apply N.div_le_lower_bound; lia.
  - destruct Hk as [[-> Hk]|[Hk [Lo Hi]]]; [reflexivity|].
    assert (2 ^ 7 <= 2 ^ (7 * (k - 1))) by (apply N.pow_le_mono_r; lia).
    change (2 ^ 7) with 128 in H0. lia.
Qed.

Ltac size_case k :=
  unfold encode; rewrite (enc_len _ _ k); [reflexivity|apply enc_fuel|lia|];
  try (right; split; [lia|split; cbn in *; lia]);
  try (left; split; cbn in *; lia).

Lemma size_encode : forall w x, In w [8; 16; 32; 64] -> x < 2 ^ w ->
  size w x = N.of_nat (length (encode x)).
Proof.
  intros w x Hw Hx.
  assert (C : forall k, 1 < k -> 2 ^ (7 * (k - 1)) <= x -> x < 2 ^ (7 * k) ->
              N.of_nat (length (encode x)) = k).
  { intros. unfold encode. apply enc_len; auto using enc_fuel; lia. }
  assert (C1 : x < 2 ^ 7 -> N.of_nat (length (encode x)) = 1).
  { intros. unfold encode. apply enc_len; auto using enc_fuel; try lia. }
  destruct Hw as [<-|[<-|[<-|[<-|[]]]]]; unfold size; cbn [N.eqb Pos.eqb];
  repeat match goal with
  | |- context [if ?a <=? x then _ else _] => destruct (N.leb_spec a x)
  end; symmetry;
  first [ now apply C1
        | apply C; [lia|assumption|];
          first [assumption
                | eapply N.lt_le_trans; [exact Hx|]; apply N.pow_le_mono_r; lia]].
Qed.

Lemma size_max : forall w x, In w [8; 16; 32; 64] -> x < 2 ^ w ->
  size w x <= max_size w.
Proof.
  intros w x Hw Hx.
  destruct Hw as [<-|[<-|[<-|[<-|[]]]]]; unfold size; cbn [N.eqb Pos.eqb];
  repeat match goal with
  | |- context [if ?a <=? x then _ else _] => destruct (N.leb_spec a x)
  end; vm_compute; discriminate.
Qed.
