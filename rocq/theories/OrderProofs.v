(** Proofs about the order transformation and the binners. *)
From Coq Require Import ZArith NArith Lia Bool ZifyBool ZifyNat ZifyN.
From Verif Require Import OrderModel.
Open Scope N_scope.

Definition i64 (x : Z) : Prop := (- 2 ^ 63 <= x < 2 ^ 63)%Z.

Lemma order_signed_value : forall x, i64 x -> Z.of_N (order_signed x) = (x + 2 ^ 63)%Z.
Proof.
  intros x H. unfold i64 in H. unfold order_signed, to_u64.
  rewrite N2Z.inj_mod, N2Z.inj_add, Z2N.id by (apply Z.mod_pos_bound; lia).
  change (Z.of_N (2 ^ 63)) with (2 ^ 63)%Z. change (Z.of_N (2 ^ 64)) with (2 ^ 64)%Z.
  rewrite Zplus_mod_idemp_l. apply Z.mod_small. lia.
Qed.

Lemma order_signed_bound : forall x, order_signed x < 2 ^ 64.
Proof. intros x. unfold order_signed. apply N.mod_lt. lia. Qed.

Lemma some_inj : forall {A} (a b : A), Some a = Some b -> a = b.
Proof. intros A a b H. now injection H. Qed.

(** * Doubles *)

(** The pattern without its sign. *)
Definition d_abs (p : N) : N := p mod 2 ^ 63.

Definition mag (w : N) : Z :=
  if w / 2 ^ 52 =? 0 then Z.of_N (w mod 2 ^ 52)
  else (Z.of_N (2 ^ 52 + w mod 2 ^ 52) * 2 ^ (Z.of_N (w / 2 ^ 52) - 1))%Z.

Lemma mag_mono : forall a b, a < b -> (mag a < mag b)%Z.
Proof.
  intros a b H. unfold mag.
  pose proof (N.div_mod' a (2 ^ 52)) as EA. pose proof (N.div_mod' b (2 ^ 52)) as EB.
  pose proof (N.mod_lt a (2 ^ 52) ltac:(lia)) as MA. pose proof (N.mod_lt b (2 ^ 52) ltac:(lia)) as MB.
  set (ea := a / 2 ^ 52) in *. set (ma := a mod 2 ^ 52) in *. set (eb := b / 2 ^ 52) in *. set (mb := b mod 2 ^ 52) in *.
  assert (C : ea < eb \/ (ea = eb /\ ma < mb)) by (clearbody ea ma eb mb; nia).
  clearbody ea ma eb mb. clear EA EB H a b.
  destruct C as [C|[-> C]].
  - replace (eb =? 0) with false by lia.
    assert (Q : (2 ^ 52 * 2 ^ (Z.of_N eb - 1) <= Z.of_N (2 ^ 52 + mb) * 2 ^ (Z.of_N eb - 1))%Z).
    { apply Z.mul_le_mono_nonneg_r; [apply Z.pow_nonneg; lia|]. lia. }
    destruct (N.eqb_spec ea 0) as [->|NE].
    + assert (1 <= 2 ^ (Z.of_N eb - 1))%Z by (pose proof (Z.pow_pos_nonneg 2 (Z.of_N eb - 1)); lia).
      assert (2 ^ 52 * 1 <= 2 ^ 52 * 2 ^ (Z.of_N eb - 1))%Z by (apply Z.mul_le_mono_nonneg_l; lia).
      change (2 ^ 52)%Z with 4503599627370496%Z in *. change (2 ^ 52)%N with 4503599627370496 in *. lia.
    + assert (Z.of_N (2 ^ 52 + ma) * 2 ^ (Z.of_N ea - 1) < 2 ^ 53 * 2 ^ (Z.of_N ea - 1))%Z.
      { apply Z.mul_lt_mono_pos_r; [apply Z.pow_pos_nonneg; lia|].
        change (2 ^ 53)%Z with (Z.of_N (2 ^ 52 + 2 ^ 52)). lia. }
      assert (2 ^ 53 * 2 ^ (Z.of_N ea - 1) <= 2 ^ 52 * 2 ^ (Z.of_N eb - 1))%Z.
      { rewrite <- !Z.pow_add_r by lia. apply Z.pow_le_mono_r; lia. }
      eapply Z.lt_le_trans; [eassumption|]. eapply Z.le_trans; [eassumption|]. exact Q.
  - destruct (N.eqb_spec eb 0) as [->|NE]; [lia|].
    apply Z.mul_lt_mono_pos_r; [apply Z.pow_pos_nonneg; lia|]. lia.
Qed.

Lemma mag_nonneg : forall w, (0 <= mag w)%Z.
Proof.
  intros w. unfold mag. destruct (w / 2 ^ 52 =? 0); [lia|].
  apply Z.mul_nonneg_nonneg; [lia|apply Z.pow_nonneg; lia].
Qed.
Lemma mag_0 : mag 0 = 0%Z.
Proof. reflexivity. Qed.

Lemma mag_le : forall a b, a <= b -> (mag a <= mag b)%Z.
Proof. intros a b H. destruct (N.eq_dec a b) as [->|N]; [lia|]. pose proof (mag_mono a b). lia. Qed.
Lemma mag_le_inv : forall a b, (mag a <= mag b)%Z -> a <= b.
Proof. intros a b H. destruct (N.le_gt_cases a b) as [L|L]; auto. pose proof (mag_mono b a). lia. Qed.
Lemma mag_lt_inv : forall a b, (mag a < mag b)%Z -> a < b.
Proof. intros a b H. destruct (N.le_gt_cases b a) as [L|L]; auto. pose proof (mag_le b a). lia. Qed.

Lemma d_exp_abs : forall p, p < 2 ^ 64 -> d_exp p = d_abs p / 2 ^ 52.
Proof.
  intros p H. unfold d_exp, d_abs. change (2 ^ 63) with (2 ^ 52 * 2 ^ 11).
  rewrite N.mod_mul_r by lia. rewrite N.mul_comm, N.div_add by lia.
  rewrite (N.div_small (p mod 2 ^ 52)) by (apply N.mod_lt; lia). lia.
Qed.
Lemma d_sig_abs : forall p, d_sig p = d_abs p mod 2 ^ 52.
Proof.
  intros p. unfold d_sig, d_abs. change (2 ^ 63) with (2 ^ 52 * 2 ^ 11).
  rewrite N.mod_mul_r by lia. rewrite N.mul_comm, N.mod_add by lia. now rewrite N.mod_mod by lia.
Qed.
Lemma d_value_abs : forall p, p < 2 ^ 64 -> d_value p = (if d_neg p then - mag (d_abs p) else mag (d_abs p))%Z.
Proof. intros p H. unfold d_value, mag. now rewrite (d_exp_abs p H), d_sig_abs. Qed.
Lemma d_abs_split : forall p, p < 2 ^ 64 -> p = d_abs p + (if d_neg p then 2 ^ 63 else 0).
Proof.
  intros p H. unfold d_abs, d_neg. change (2 ^ 64) with (2 ^ 63 + 2 ^ 63) in H.
  destruct (N.leb_spec (2 ^ 63) p).
  - replace p with (p - 2 ^ 63 + 1 * 2 ^ 63) at 2 by lia. rewrite N.mod_add by lia. rewrite N.mod_small by lia. lia.
  - rewrite N.mod_small by lia. lia.
Qed.
Lemma d_abs_bound : forall p, d_abs p < 2 ^ 63.
Proof. intros p. apply N.mod_lt. lia. Qed.

(** [order] as a function of sign and magnitude. *)
Definition order_by (neg : bool) (w : N) : option N :=
  if 2047 * 2 ^ 52 <? w then None
  else if w =? 0 then Some (2 ^ 63 - 1)
  else if w =? 2047 * 2 ^ 52 then Some (if neg then 0 else 2 ^ 64 - 1)
  else if w <? 2 ^ 52 then Some (if neg then 2 ^ 63 - 2 else 2 ^ 63)
  else Some (if neg then 2 ^ 63 - 2 - w else w + 2 ^ 63 + 1).

Lemma order_double_by : forall p, p < 2 ^ 64 -> order_double p = order_by (d_neg p) (d_abs p).
Proof.
  intros p H. unfold order_double, d_nan. rewrite (d_exp_abs p H), d_sig_abs.
  pose proof (d_abs_bound p) as B. set (w := d_abs p) in *. clearbody w. unfold order_by.
  pose proof (N.div_mod' w (2 ^ 52)) as E. pose proof (N.mod_lt w (2 ^ 52) ltac:(lia)) as M.
  set (e := w / 2 ^ 52) in *. set (m := w mod 2 ^ 52) in *. clearbody e m. subst w.
  change (2 ^ 63) with 9223372036854775808 in *. change (2 ^ 52) with 4503599627370496 in *.
  destruct (d_neg p).
  all: destruct (N.eqb_spec e 2047) as [->|E1]; cbn [andb].
  all: try (destruct (N.eqb_spec m 0) as [->|E2]; cbn [andb negb]).
  all: try (destruct (N.eqb_spec e 0) as [->|E3]; cbn [andb negb]).
  all: repeat match goal with |- context [if ?c then _ else _] => destruct c eqn:? end; try reflexivity; try lia; f_equal; lia.
Qed.

Lemma d_nan_by : forall p, p < 2 ^ 64 -> d_nan p = (2047 * 2 ^ 52 <? d_abs p).
Proof.
  intros p H. unfold d_nan. rewrite (d_exp_abs p H), d_sig_abs. pose proof (d_abs_bound p) as B.
  set (w := d_abs p) in *. clearbody w.
  pose proof (N.div_mod' w (2 ^ 52)) as E. pose proof (N.mod_lt w (2 ^ 52) ltac:(lia)) as M.
  set (e := w / 2 ^ 52) in *. set (m := w mod 2 ^ 52) in *. clearbody e m. subst w.
  change (2 ^ 63) with 9223372036854775808 in *. change (2 ^ 52) with 4503599627370496 in *. lia.
Qed.

Lemma order_double_some : forall p, p < 2 ^ 64 -> d_nan p = false -> exists k, order_double p = Some k /\ k < 2 ^ 64.
Proof.
  intros p H N. rewrite (order_double_by p H). rewrite (d_nan_by p H) in N. unfold order_by. rewrite N.
  pose proof (d_abs_bound p) as B. set (w := d_abs p) in *. clearbody w.
  destruct (w =? 0); [eexists; split; [reflexivity|reflexivity]|].
  destruct (w =? _); [eexists; split; [reflexivity|now destruct (d_neg p)]|].
  destruct (w <? 2 ^ 52); [eexists; split; [reflexivity|now destruct (d_neg p)]|].
  eexists. split; [reflexivity|]. change (2 ^ 64) with (2 ^ 63 + 2 ^ 63). apply N.ltb_ge in N.
  change (2 ^ 63) with 9223372036854775808 in *. change (2 ^ 52) with 4503599627370496 in *. destruct (d_neg p); lia.
Qed.

(** Subnormal numbers. *)
Definition d_subnormal (p : N) : bool := (d_exp p =? 0) && negb (d_sig p =? 0).
Lemma d_subnormal_by : forall p, p < 2 ^ 64 -> d_subnormal p = (0 <? d_abs p) && (d_abs p <? 2 ^ 52).
Proof.
  intros p H. unfold d_subnormal. rewrite (d_exp_abs p H), d_sig_abs.
  set (w := d_abs p) in *. clearbody w.
  pose proof (N.div_mod' w (2 ^ 52)) as E. pose proof (N.mod_lt w (2 ^ 52) ltac:(lia)) as M.
  set (e := w / 2 ^ 52) in *. set (m := w mod 2 ^ 52) in *. clearbody e m. subst w.
  change (2 ^ 52) with 4503599627370496 in *. lia.
Qed.

Lemma order_double_mono : forall p q a b, p < 2 ^ 64 -> q < 2 ^ 64 ->
  order_double p = Some a -> order_double q = Some b ->
  ((d_value p <= d_value q)%Z -> a <= b) /\
  ((d_value p < d_value q)%Z -> d_subnormal p && d_subnormal q && Bool.eqb (d_neg p) (d_neg q) = false -> a < b).
Proof.
  intros p q a b HP HQ. rewrite (order_double_by p HP), (order_double_by q HQ), (d_value_abs p HP), (d_value_abs q HQ),
    (d_subnormal_by p HP), (d_subnormal_by q HQ).
  pose proof (d_abs_bound p) as BP. pose proof (d_abs_bound q) as BQ.
  set (v := d_abs p) in *. set (w := d_abs q) in *. clearbody v w. unfold order_by.
  pose proof (mag_nonneg v) as NV. pose proof (mag_nonneg w) as NW.
  pose proof (mag_le_inv v w) as I1. pose proof (mag_le_inv w v) as I2.
  pose proof (mag_lt_inv v w) as J1. pose proof (mag_lt_inv w v) as J2.
  pose proof (mag_mono 0 v) as Z1. pose proof (mag_mono 0 w) as Z2. rewrite mag_0 in Z1, Z2.
  set (mv := mag v) in *. set (mw := mag w) in *.
  assert (ZV : v = 0 -> mv = 0%Z) by (intros ->; reflexivity). assert (ZW : w = 0 -> mw = 0%Z) by (intros ->; reflexivity).
  clearbody mv mw.
  change (2 ^ 64) with 18446744073709551616. change (2 ^ 63) with 9223372036854775808 in *. change (2 ^ 52) with 4503599627370496 in *.
  destruct (2047 * 4503599627370496 <? v) eqn:T1; [discriminate|].
  destruct (2047 * 4503599627370496 <? w) eqn:T2; [discriminate|].
  destruct (v =? 0) eqn:T3; destruct (w =? 0) eqn:T4;
  destruct (v =? 2047 * 4503599627370496) eqn:T5; destruct (w =? 2047 * 4503599627370496) eqn:T6;
  destruct (v <? 4503599627370496) eqn:T7; destruct (w <? 4503599627370496) eqn:T8;
  intros EA EB; apply some_inj in EA; apply some_inj in EB; subst a b; destruct (d_neg p); destruct (d_neg q); cbn [Bool.eqb]; lia.
Qed.

(** * Decimal binning *)

Lemma to_u64_nonneg : forall x, i64 x -> (0 <= x)%Z -> to_u64 x = Z.to_N x.
Proof. intros x [H1 H2] H. unfold to_u64. rewrite Z.mod_small; auto. lia. Qed.

Lemma decimal_bin_nonneg : forall bucket x, 0 < bucket -> i64 x -> (0 <= x)%Z ->
  decimal_bin bucket x = (x / Z.of_N bucket)%Z.
Proof.
  intros bucket x B I H. unfold decimal_bin. rewrite (to_u64_nonneg x I H). unfold to_i64, i64 in *.
  assert (Q : Z.to_N x / bucket <= Z.to_N x) by (apply N.div_le_upper_bound; nia).
  replace (Z.to_N x / bucket <? 2 ^ 63) with true.
  2:{ symmetry. apply N.ltb_lt. change (2 ^ 63) with (Z.to_N (2 ^ 63)). lia. }
  rewrite N2Z.inj_div, Z2N.id by lia. reflexivity.
Qed.

(** * Precision binning *)

Definition pbin (v : Z) (neg : bool) : Z :=
  let i := (Z.abs v / 2 ^ 1074)%Z in
  let b := if (integral_max <=? i)%Z then integral_max
           else (i + (if (2 ^ 1074 <=? 2 * (Z.abs v mod 2 ^ 1074))%Z then 1 else 0))%Z in
  if neg then (- b)%Z else b.

Definition unit1074 : Z := (2 ^ 1074)%Z.
Lemma unit_pos : (0 < unit1074)%Z.
Proof. apply Z.pow_pos_nonneg; lia. Qed.

Definition rnd (u m : Z) : Z :=
  if (integral_max <=? m / u)%Z then integral_max else (m / u + (if (u <=? 2 * (m mod u))%Z then 1 else 0))%Z.

Lemma rnd_mono : forall u a b, (0 < u)%Z -> (0 <= a <= b)%Z -> (0 <= rnd u a <= rnd u b)%Z /\ (rnd u b <= integral_max)%Z.
Proof.
  intros u a b U H. unfold rnd. assert (IM : (0 < integral_max)%Z) by reflexivity. set (im := integral_max) in *. clearbody im.
  pose proof (Z.div_mod a u ltac:(lia)) as EA. pose proof (Z.div_mod b u ltac:(lia)) as EB.
  pose proof (Z.mod_pos_bound a u U) as MA. pose proof (Z.mod_pos_bound b u U) as MB.
  pose proof (Z.div_le_mono a b u U ltac:(lia)) as D. pose proof (Z.div_pos a u ltac:(lia) U) as PA.
  set (qa := (a / u)%Z) in *. set (qb := (b / u)%Z) in *. set (ra := (a mod u)%Z) in *. set (rb := (b mod u)%Z) in *.
  clearbody qa qb ra rb.
  assert (qa = qb -> ra <= rb)%Z by (intros ->; lia).
  destruct (Z.leb_spec im qa); destruct (Z.leb_spec im qb); destruct (Z.leb_spec u (2 * ra)); destruct (Z.leb_spec u (2 * rb)); lia.
Qed.

Lemma precision_bin_by : forall p, p < 2 ^ 64 -> d_nan p = false ->
  precision_bin p = Some (if d_neg p then - rnd unit1074 (mag (d_abs p)) else rnd unit1074 (mag (d_abs p)))%Z.
Proof.
  intros p H N. unfold precision_bin. rewrite N, (d_value_abs p H). fold unit1074.
  replace (Z.abs (if d_neg p then - mag (d_abs p) else mag (d_abs p))) with (mag (d_abs p)).
  2:{ pose proof (mag_nonneg (d_abs p)). destruct (d_neg p); lia. }
  reflexivity.
Qed.

Lemma rnd_0 : rnd unit1074 0 = 0%Z.
Proof. reflexivity. Qed.

Lemma precision_bin_mono : forall p q a b, p < 2 ^ 64 -> q < 2 ^ 64 ->
  precision_bin p = Some a -> precision_bin q = Some b -> (d_value p <= d_value q)%Z -> (a <= b)%Z.
Proof.
  intros p q a b HP HQ EP EQ.
  assert (NP : d_nan p = false) by (unfold precision_bin in EP; destruct (d_nan p); congruence).
  assert (NQ : d_nan q = false) by (unfold precision_bin in EQ; destruct (d_nan q); congruence).
  rewrite (precision_bin_by p HP NP) in EP. rewrite (precision_bin_by q HQ NQ) in EQ.
  injection EP as <-. injection EQ as <-. rewrite (d_value_abs p HP), (d_value_abs q HQ).
  pose proof (mag_nonneg (d_abs p)) as N1. pose proof (mag_nonneg (d_abs q)) as N2.
  pose proof unit_pos as U.
  set (v := mag (d_abs p)) in *. set (w := mag (d_abs q)) in *. clearbody v w.
  pose proof (rnd_mono unit1074 v w U) as M1. pose proof (rnd_mono unit1074 w v U) as M2.
  pose proof (rnd_mono unit1074 v v U) as M3. pose proof (rnd_mono unit1074 w w U) as M4. pose proof rnd_0 as R0.
  destruct (d_neg p), (d_neg q); intros H; try lia.
  assert (v = 0%Z /\ w = 0%Z) as [-> ->] by lia. lia.
Qed.

Lemma precision_bin_bound : forall p b, p < 2 ^ 64 -> precision_bin p = Some b -> (Z.abs b <= integral_max)%Z.
Proof.
  intros p b HP EP.
  assert (NP : d_nan p = false) by (unfold precision_bin in EP; destruct (d_nan p); congruence).
  rewrite (precision_bin_by p HP NP) in EP. injection EP as <-.
  pose proof (rnd_mono unit1074 (mag (d_abs p)) (mag (d_abs p)) unit_pos) as M. pose proof (mag_nonneg (d_abs p)).
  destruct (d_neg p); lia.
Qed.

(** * Keys of integral doubles *)

(** The pattern of a positive integer without its sign, divided by [2^18]. *)
Definition gkey (m : N) : N := (1023 + N.log2 m) * 2 ^ 34 + (m - 2 ^ N.log2 m) * 2 ^ (34 - N.log2 m).

Lemma gkey_mono : forall a b, 0 < a -> a < b -> b < 2 ^ 34 -> gkey a < gkey b.
Proof.
  intros a b A H B. unfold gkey.
  pose proof (N.log2_spec a A) as [A1 A2]. pose proof (N.log2_spec b ltac:(lia)) as [B1 B2].
  pose proof (N.log2_le_mono a b ltac:(lia)) as L.
  assert (LB : N.log2 b < 34) by (apply N.log2_lt_pow2; lia).
  set (ka := N.log2 a) in *. set (kb := N.log2 b) in *. clearbody ka kb.
  destruct (N.eq_dec ka kb) as [->|NE].
  - apply N.add_lt_mono_l. apply N.mul_lt_mono_pos_r; [|lia].
    apply N.neq_0_lt_0, N.pow_nonzero. lia.
  - assert ((a - 2 ^ ka) * 2 ^ (34 - ka) < 2 ^ 34).
    { replace (2 ^ 34) with (2 ^ ka * 2 ^ (34 - ka)) by (rewrite <- N.pow_add_r; f_equal; lia).
      apply N.mul_lt_mono_pos_r; [apply N.neq_0_lt_0, N.pow_nonzero; lia|].
      rewrite N.pow_succ_r' in A2. lia. }
    assert ((1023 + ka + 1) * 2 ^ 34 <= (1023 + kb) * 2 ^ 34) by (apply N.mul_le_mono_r; lia).
    set (ra := (a - 2 ^ ka) * 2 ^ (34 - ka)) in *. set (rb := (b - 2 ^ kb) * 2 ^ (34 - kb)) in *. clearbody ra rb.
    change (2 ^ 34) with 17179869184 in *. clear A1 A2 B1 B2. lia.
Qed.

Lemma gkey_bounds : forall m, 0 < m -> m < 2 ^ 34 -> 1023 * 2 ^ 34 <= gkey m < 1058 * 2 ^ 34.
Proof.
  intros m M B. unfold gkey. pose proof (N.log2_spec m M) as [A1 A2].
  assert (LB : N.log2 m < 34) by (apply N.log2_lt_pow2; lia).
  set (k := N.log2 m) in *. clearbody k.
  assert ((m - 2 ^ k) * 2 ^ (34 - k) < 2 ^ 34).
  { replace (2 ^ 34) with (2 ^ k * 2 ^ (34 - k)) by (rewrite <- N.pow_add_r; f_equal; lia).
    apply N.mul_lt_mono_pos_r; [apply N.neq_0_lt_0, N.pow_nonzero; lia|].
    rewrite N.pow_succ_r' in A2. lia. }
  assert ((1023 + k) * 2 ^ 34 <= 1056 * 2 ^ 34) by (apply N.mul_le_mono_r; lia).
  assert (1023 * 2 ^ 34 <= (1023 + k) * 2 ^ 34) by (apply N.mul_le_mono_r; lia).
  set (ra := (m - 2 ^ k) * 2 ^ (34 - k)) in *. clearbody ra. clear A1 A2.
  change (2 ^ 34) with 17179869184 in *. lia.
Qed.

Definition int_key (n : Z) : N :=
  if (n =? 0)%Z then 2 ^ 45 - 1
  else if (n <? 0)%Z then 2 ^ 45 - 1 - gkey (Z.to_N (- n))
  else 2 ^ 45 + gkey (Z.to_N n).

Lemma int_key_mono : forall a b, (Z.abs a < 2 ^ 34)%Z -> (Z.abs b < 2 ^ 34)%Z -> (a < b)%Z -> int_key a < int_key b.
Proof.
  intros a b A B H. unfold int_key.
  assert (A' : Z.to_N (Z.abs a) < 2 ^ 34) by (change (2 ^ 34) with (Z.to_N (2 ^ 34)); lia).
  assert (B' : Z.to_N (Z.abs b) < 2 ^ 34) by (change (2 ^ 34) with (Z.to_N (2 ^ 34)); lia).
  destruct (Z.eqb_spec a 0) as [->|A0].
  - replace (b =? 0)%Z with false by lia. replace (b <? 0)%Z with false by lia. lia.
  - destruct (Z.ltb_spec a 0) as [AN|AN].
    + pose proof (gkey_bounds (Z.to_N (- a)) ltac:(lia) ltac:(lia)) as GA.
      destruct (Z.eqb_spec b 0) as [->|B0].
      * change (2 ^ 34) with 17179869184 in *. change (2 ^ 45) with 35184372088832. lia.
      * destruct (Z.ltb_spec b 0) as [BN|BN].
        -- pose proof (gkey_bounds (Z.to_N (- b)) ltac:(lia) ltac:(lia)) as GB.
           pose proof (gkey_mono (Z.to_N (- b)) (Z.to_N (- a)) ltac:(lia) ltac:(lia) ltac:(lia)).
           change (2 ^ 34) with 17179869184 in *. change (2 ^ 45) with 35184372088832. lia.
        -- change (2 ^ 34) with 17179869184 in *. change (2 ^ 45) with 35184372088832. lia.
    + replace (b =? 0)%Z with false by lia. replace (b <? 0)%Z with false by lia.
      pose proof (gkey_mono (Z.to_N a) (Z.to_N b) ltac:(lia) ltac:(lia) ltac:(lia)). lia.
Qed.

Lemma int_key_bound : forall a, (Z.abs a < 2 ^ 34)%Z -> int_key a < 2 ^ 64.
Proof.
  intros a A. unfold int_key. destruct (Z.eqb_spec a 0); [reflexivity|].
  assert (A' : Z.to_N (Z.abs a) < 2 ^ 34) by (change (2 ^ 34) with (Z.to_N (2 ^ 34)); lia).
  pose proof (gkey_bounds (Z.to_N (Z.abs a)) ltac:(lia) ltac:(lia)) as GA.
  change (2 ^ 34) with 17179869184 in *. change (2 ^ 45) with 35184372088832. change (2 ^ 64) with 18446744073709551616.
  destruct (Z.ltb_spec a 0).
  - lia.
  - replace (Z.to_N (Z.abs a)) with (Z.to_N a) in GA by lia. lia.
Qed.

Lemma int_key_order : forall n, (Z.abs n < 2 ^ 34)%Z -> exists k,
  order_double (double_of_int n) = Some k /\ k / 2 ^ 18 = int_key n.
Proof.
  intros n H. unfold double_of_int, int_key. destruct (Z.eqb_spec n 0) as [->|NZ].
  - eexists. split; [reflexivity|reflexivity].
  - set (m := Z.to_N (Z.abs n)).
    assert (M : 0 < m < 2 ^ 34) by (subst m; change (2 ^ 34) with (Z.to_N (2 ^ 34)); lia).
    pose proof (gkey_bounds m ltac:(lia) ltac:(lia)) as G.
    assert (LB : N.log2 m < 34) by (apply N.log2_lt_pow2; lia).
    assert (W : (1023 + N.log2 m) * 2 ^ 52 + (m - 2 ^ N.log2 m) * 2 ^ (52 - N.log2 m) = gkey m * 2 ^ 18).
    { unfold gkey. rewrite (N.mul_add_distr_r (_ * 2 ^ 34)), <- !N.mul_assoc.
      change (2 ^ 34 * 2 ^ 18) with (2 ^ 52). f_equal. f_equal. rewrite <- N.pow_add_r. f_equal. lia. }
    rewrite <- N.add_assoc, W.
    assert (K : gkey m = if (n <? 0)%Z then gkey (Z.to_N (- n)) else gkey (Z.to_N n)).
    { subst m. destruct (Z.ltb_spec n 0); f_equal; lia. }
    set (g := gkey m) in *. clearbody g. clearbody m.
    set (neg := (n <? 0)%Z) in *.
    assert (HP : (if neg then 2 ^ 63 else 0) + g * 2 ^ 18 < 2 ^ 64).
    { change (2 ^ 64) with 18446744073709551616. change (2 ^ 63) with 9223372036854775808. change (2 ^ 34) with 17179869184 in *.
      change (2 ^ 18) with 262144. destruct neg; lia. }
    rewrite (order_double_by _ HP).
    assert (DN : d_neg ((if neg then 2 ^ 63 else 0) + g * 2 ^ 18) = neg).
    { unfold d_neg. change (2 ^ 63) with 9223372036854775808. change (2 ^ 34) with 17179869184 in *.
      change (2 ^ 18) with 262144. destruct neg; lia. }
    pose proof (d_abs_split _ HP) as SP. rewrite DN in *. clearbody neg.
    assert (DA : d_abs ((if neg then 2 ^ 63 else 0) + g * 2 ^ 18) = g * 2 ^ 18) by (destruct neg; lia).
    rewrite DA. unfold order_by.
    replace (2047 * 2 ^ 52 <? g * 2 ^ 18) with false by (change (2 ^ 52) with 4503599627370496; change (2 ^ 34) with 17179869184 in *; change (2 ^ 18) with 262144; lia).
    replace (g * 2 ^ 18 =? 0) with false by (change (2 ^ 34) with 17179869184 in *; change (2 ^ 18) with 262144; lia).
    replace (g * 2 ^ 18 =? 2047 * 2 ^ 52) with false by (change (2 ^ 52) with 4503599627370496; change (2 ^ 34) with 17179869184 in *; change (2 ^ 18) with 262144; lia).
    replace (g * 2 ^ 18 <? 2 ^ 52) with false by (change (2 ^ 52) with 4503599627370496; change (2 ^ 34) with 17179869184 in *; change (2 ^ 18) with 262144; lia).
    eexists. split; [reflexivity|]. destruct neg.
    + rewrite <- K. symmetry. apply (N.div_unique _ _ _ (2 ^ 18 - 2)); [reflexivity|].
      change (2 ^ 63) with 9223372036854775808. change (2 ^ 45) with 35184372088832. change (2 ^ 34) with 17179869184 in *.
      change (2 ^ 18) with 262144. lia.
    + rewrite <- K. symmetry. apply (N.div_unique _ _ _ 1); [reflexivity|].
      change (2 ^ 63) with 9223372036854775808. change (2 ^ 45) with 35184372088832.
      change (2 ^ 18) with 262144. lia.
Qed.
