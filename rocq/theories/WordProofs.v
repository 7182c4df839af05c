From Coq Require Import List ZArith NArith Lia Bool ZifyBool ZifyNat ZifyN.
From Verif Require Import NBits WordModel.
Import ListNotations.
Open Scope N_scope.

(** * Specification: words and bit sequences as lists of booleans *)

(** The [n] least significant bits of [w], LSB first. *)
Definition wbits (n : nat) (w : N) : list bool :=
  map (fun i => N.testbit w (N.of_nat i)) (seq 0 n).

(** The bits denoted by a bit sequence. *)
Definition blist (b : bits) : list bool :=
  if 64 <? bsize b then repeat (negb (bdata b =? 0)) (N.to_nat (bsize b))
  else wbits (N.to_nat (bsize b)) (bdata b).

(** Well-formed bit sequences (bits.hpp:17-21). *)
Definition bwf (b : bits) : Prop :=
  if 64 <? bsize b then bdata b = 0 \/ bdata b = all else bdata b < 2 ^ bsize b.

(** * Lists of bits *)

Lemma wbits_length : forall n w, length (wbits n w) = n.
Proof. intros. unfold wbits. now rewrite map_length, seq_length. Qed.

Lemma nth_wbits : forall n w i d, (i < n)%nat -> nth i (wbits n w) d = N.testbit w (N.of_nat i).
Proof.
  intros. unfold wbits.
  rewrite nth_indep with (d' := N.testbit w (N.of_nat 0)) by (rewrite map_length, seq_length; auto).
  rewrite map_nth with (f := fun i => N.testbit w (N.of_nat i)). now rewrite seq_nth.
Qed.

Lemma list_ext : forall (a b : list bool), length a = length b ->
  (forall i, (i < length a)%nat -> nth i a false = nth i b false) -> a = b.
Proof. intros. apply nth_ext with (d := false) (d' := false); auto. Qed.

Lemma wbits_ext : forall n a b, (forall i, i < N.of_nat n -> N.testbit a i = N.testbit b i) ->
  wbits n a = wbits n b.
Proof.
  intros n a b H. unfold wbits. apply map_ext_in. intros i Hi. apply in_seq in Hi. apply H. lia.
Qed.

Lemma wbits_inj : forall n a b, a < 2 ^ N.of_nat n -> b < 2 ^ N.of_nat n ->
  wbits n a = wbits n b -> a = b.
Proof.
  intros n a b Ha Hb H. apply (eq_of_testbit a b (N.of_nat n)); auto. intros i Hi.
  assert (E : nth (N.to_nat i) (wbits n a) false = nth (N.to_nat i) (wbits n b) false) by now rewrite H.
  rewrite !nth_wbits in E by lia. now rewrite N2Nat.id in E.
Qed.

Lemma wbits_app : forall n m w, wbits (n + m) w = wbits n w ++ wbits m (N.shiftr w (N.of_nat n)).
Proof.
  intros. apply list_ext.
  - rewrite app_length, !wbits_length. auto.
  - intros i Hi. rewrite wbits_length in Hi. rewrite nth_wbits by auto.
    destruct (Nat.lt_ge_cases i n).
    + rewrite app_nth1 by (rewrite wbits_length; auto). now rewrite nth_wbits.
    + rewrite app_nth2 by (rewrite wbits_length; auto). rewrite wbits_length, nth_wbits by lia.
      rewrite N.shiftr_spec by lia. f_equal. lia.
Qed.

Lemma wbits_lor_shift : forall p n a v, (p <= n)%nat -> a < 2 ^ N.of_nat p ->
  wbits n (N.lor a (N.shiftl v (N.of_nat p))) = wbits p a ++ wbits (n - p) v.
Proof.
  intros p n a v Hp Ha. replace n with (p + (n - p))%nat at 1 by lia. rewrite wbits_app. f_equal.
  - apply wbits_ext. intros i Hi. rewrite N.lor_spec, N.shiftl_spec_low by lia.
    apply orb_false_r.
  - apply wbits_ext. intros i Hi. rewrite N.shiftr_spec, N.lor_spec by lia.
    rewrite (testbit_small a (N.of_nat p)) by lia. cbn [orb].
    rewrite N.shiftl_spec_high by lia. f_equal. lia.
Qed.

Lemma wbits_0 : forall n, wbits n 0 = repeat false n.
Proof.
  intros. apply list_ext; [now rewrite wbits_length, repeat_length|].
  intros i Hi. rewrite wbits_length in Hi. rewrite nth_wbits by auto. rewrite N.bits_0.
  symmetry. apply nth_repeat.
Qed.

Lemma nth_repeat_lt : forall {A} (a d : A) n i, (i < n)%nat -> nth i (repeat a n) d = a.
Proof. induction n; intros i Hi; [lia|]. destruct i; cbn; auto. apply IHn. lia. Qed.

Lemma wbits_ones : forall n k, N.of_nat n <= k -> wbits n (N.ones k) = repeat true n.
Proof.
  intros. apply list_ext; [now rewrite wbits_length, repeat_length|].
  intros i Hi. rewrite wbits_length in Hi. rewrite nth_wbits by auto.
  rewrite N.ones_spec_low by lia. symmetry. now apply nth_repeat_lt.
Qed.

Lemma wbits_lxor_ones : forall n w k, N.of_nat n <= k ->
  wbits n (N.lxor w (N.ones k)) = map negb (wbits n w).
Proof.
  intros. unfold wbits. rewrite map_map. apply map_ext_in. intros i Hi. apply in_seq in Hi.
  rewrite N.lxor_spec, N.ones_spec_low by lia. now rewrite xorb_true_r.
Qed.

Lemma wbits_land_ones : forall n w k, N.of_nat n <= k ->
  wbits n (N.land w (N.ones k)) = wbits n w.
Proof.
  intros. apply wbits_ext. intros i Hi. rewrite N.land_spec, N.ones_spec_low by lia.
  apply andb_true_r.
Qed.

Lemma wbits_S : forall n w, wbits (S n) w = wbits n w ++ [N.testbit w (N.of_nat n)].
Proof.
  intros. replace (S n) with (n + 1)%nat by lia. rewrite wbits_app. f_equal.
  unfold wbits. cbn. rewrite N.shiftr_spec by lia. f_equal.
Qed.

(** * Word constants and masks *)

Lemma testbit_wrap : forall x i, N.testbit (wrap x) i = (i <? 64) && N.testbit x i.
Proof. intros. apply testbit_mod_pow2. Qed.

Lemma wrap_small : forall x, x < 2 ^ 64 -> wrap x = x.
Proof. intros. now apply N.mod_small. Qed.

Lemma wrap_lt : forall x, wrap x < 2 ^ 64.
Proof. intros. apply N.mod_lt. discriminate. Qed.

Lemma testbit_all : forall i, N.testbit all i = (i <? 64).
Proof.
  intros. unfold all. destruct (N.ltb_spec i 64); [apply N.ones_spec_low|apply N.ones_spec_high]; lia.
Qed.

Lemma testbit_wnot : forall x i, N.testbit (wnot x) i = xorb (N.testbit x i) (i <? 64).
Proof. intros. unfold wnot. now rewrite N.lxor_spec, testbit_all. Qed.

Lemma wnot_lt : forall x, x < 2 ^ 64 -> wnot x < 2 ^ 64.
Proof. intros. apply lxor_lt; auto. apply ones_lt. Qed.

Lemma testbit_wshl : forall x i j, N.testbit (wshl x i) j = (j <? 64) && ((i <=? j) && N.testbit x (j - i)).
Proof.
  intros. unfold wshl. rewrite testbit_wrap. f_equal.
  destruct (N.leb_spec i j); [rewrite N.shiftl_spec_high by lia; reflexivity|].
  now rewrite N.shiftl_spec_low.
Qed.

Lemma testbit_wshr : forall x i j, N.testbit (wshr x i) j = N.testbit x (j + i).
Proof. intros. unfold wshr. now rewrite N.shiftr_spec by lia. Qed.

Lemma testbit_ones : forall k i, N.testbit (N.ones k) i = (i <? k).
Proof.
  intros. destruct (N.ltb_spec i k); [apply N.ones_spec_low|apply N.ones_spec_high]; lia.
Qed.

Lemma lsb_mask_ones : forall i, i <= 64 -> lsb_mask i = N.ones i.
Proof.
  intros i Hi. apply N.bits_inj. intro j. unfold lsb_mask.
  rewrite testbit_wnot, testbit_wshl, testbit_all, testbit_ones.
  destruct (N.ltb_spec j 64), (N.leb_spec i j), (N.ltb_spec (j - i) 64), (N.ltb_spec j i); try lia; reflexivity.
Qed.

Lemma lsb_fill_ones : forall i, 0 < i <= 64 -> lsb_fill i = N.ones i.
Proof.
  intros i Hi. apply N.bits_inj. intro j. unfold lsb_fill, width.
  rewrite testbit_wshr, testbit_all, testbit_ones.
  destruct (N.ltb_spec (j + (64 - i)) 64), (N.ltb_spec j i); try lia; reflexivity.
Qed.

Lemma mask_pow2 : forall i, i < 64 -> mask i = 2 ^ i.
Proof.
  intros i Hi. unfold mask, wshl, lsb1. rewrite wrap_small; rewrite N.shiftl_1_l; auto.
  apply N.pow_lt_mono_r; lia.
Qed.

Lemma test_testbit : forall x i, i < 64 -> test x i = N.testbit x i.
Proof.
  intros x i Hi. unfold test. rewrite mask_pow2 by auto.
  destruct (N.testbit x i) eqn:E.
  - apply N.eqb_eq. apply N.bits_inj. intro j. rewrite N.land_spec.
    destruct (N.eq_dec j i) as [->|].
    + now rewrite E.
    + rewrite N.pow2_bits_false by lia. apply andb_false_r.
  - apply N.eqb_neq. intro H.
    assert (K : N.testbit (N.land x (2 ^ i)) i = true) by (rewrite H; apply N.pow2_bits_true).
    rewrite N.land_spec, E in K. discriminate.
Qed.

Lemma land_mask_0 : forall x i, i < 64 -> negb (N.land x (mask i) =? 0) = N.testbit x i.
Proof.
  intros x i Hi. rewrite mask_pow2 by auto.
  destruct (N.testbit x i) eqn:E.
  - destruct (N.eqb_spec (N.land x (2 ^ i)) 0) as [H|]; auto.
    assert (K : N.testbit (N.land x (2 ^ i)) i = true)
      by (rewrite N.land_spec, E, N.pow2_bits_true; reflexivity).
    rewrite H, N.bits_0 in K. discriminate.
  - destruct (N.eqb_spec (N.land x (2 ^ i)) 0) as [|H]; auto. exfalso. apply H.
    apply N.bits_inj_0. intro j. rewrite N.land_spec.
    destruct (N.eq_dec j i) as [->|]; [now rewrite E|].
    rewrite N.pow2_bits_false by lia. apply andb_false_r.
Qed.

Lemma all_val : all = 2 ^ 64 - 1.
Proof. reflexivity. Qed.

Lemma land_lsb0 : forall y, y < 2 ^ 64 -> N.land y lsb0 = 2 * (y / 2).
Proof.
  intros y Hy. replace (2 * (y / 2)) with (N.shiftl (N.shiftr y 1) 1)
    by (rewrite N.shiftl_mul_pow2, N.shiftr_div_pow2; change (2 ^ 1) with 2; lia).
  apply N.bits_inj. intro j. rewrite N.land_spec. unfold lsb0. rewrite testbit_wnot.
  destruct (N.eq_dec j 0) as [->|].
  - rewrite N.shiftl_spec_low by lia. apply andb_false_r.
  - rewrite N.shiftl_spec_high, N.shiftr_spec by lia. replace (j - 1 + 1) with j by lia.
    assert (N.testbit lsb1 j = false) as -> by (apply (testbit_small 1 1); lia).
    cbn [xorb]. destruct (N.ltb_spec j 64); [apply andb_true_r|].
    rewrite (testbit_small y 64) by lia. reflexivity.
Qed.

Lemma all_or_none_spec : forall x, x < 2 ^ 64 -> (all_or_none x = true <-> x = 0 \/ x = all).
Proof.
  intros x Hx. unfold all_or_none. rewrite land_lsb0 by apply wrap_lt.
  unfold wrap. rewrite all_val. rewrite N.leb_le.
  assert (C : x + 1 < 2 ^ 64 \/ x = 2 ^ 64 - 1) by lia.
  destruct C as [C|C].
  - rewrite N.mod_small by auto. pose proof (N.div_mod' (x + 1) 2).
    pose proof (N.mod_lt (x + 1) 2 ltac:(lia)). lia.
  - subst x. split; auto. intros _. vm_compute. discriminate.
Qed.

(** * Population count *)

Fixpoint count_true (l : list bool) : nat :=
  match l with [] => 0 | true :: l => S (count_true l) | false :: l => count_true l end.

Lemma count_true_app : forall a b, count_true (a ++ b) = (count_true a + count_true b)%nat.
Proof. induction a as [|[|] a IH]; intros; cbn; rewrite ?IH; auto. Qed.

Lemma count_true_repeat : forall n b, count_true (repeat b n) = if b then n else O.
Proof. induction n; intros [|]; cbn; rewrite ?IHn; auto. Qed.

Lemma count_true_le : forall l, (count_true l <= length l)%nat.
Proof. induction l as [|[|] l IH]; cbn; lia. Qed.

Lemma count_true_negb : forall l, (count_true (map negb l) + count_true l)%nat = length l.
Proof. induction l as [|[|] l IH]; cbn; lia. Qed.

Lemma wbits_cons : forall n w, wbits (S n) w = N.testbit w 0 :: wbits n (N.shiftr w 1).
Proof. intros. change (S n) with (1 + n)%nat. now rewrite wbits_app. Qed.

Lemma popcount_wbits : forall n x, x < 2 ^ N.of_nat n -> popcount x = N.of_nat (count_true (wbits n x)).
Proof.
  induction n as [|n IH]; intros x Hx.
  - cbn in Hx. assert (x = 0) by lia. subst. reflexivity.
  - rewrite wbits_cons. rewrite <- N.div2_spec.
    assert (Hd : N.div2 x < 2 ^ N.of_nat n).
    { rewrite Nat2N.inj_succ, N.pow_succ_r' in Hx. rewrite N.div2_div.
      apply N.div_lt_upper_bound; lia. }
    specialize (IH _ Hd).
    destruct x as [|[p|p|]]; cbn [N.testbit Pos.testbit N.div2 popcount pos_popcount count_true] in *.
    + cbn in IH. lia.
    + rewrite IH. lia.
    + rewrite IH. lia.
    + cbn in IH. lia.
Qed.

(** * Searching *)

Lemma pos_ctz_spec : forall p,
  N.testbit (Npos p) (pos_ctz p) = true /\ (forall j, j < pos_ctz p -> N.testbit (Npos p) j = false).
Proof.
  induction p as [p IH|p IH|]; cbn [pos_ctz].
  - split; [reflexivity|]. intros; lia.
  - destruct IH as [I1 I2]. replace (1 + pos_ctz p) with (N.succ (pos_ctz p)) by lia.
    change (Npos (xO p)) with (2 * Npos p). split.
    + now rewrite N.testbit_even_succ by lia.
    + intros j Hj. destruct (N.eq_dec j 0) as [->|]; [reflexivity|].
      replace j with (N.succ (N.pred j)) by lia. rewrite N.testbit_even_succ by lia. apply I2. lia.
  - split; [reflexivity|]. intros; lia.
Qed.

Lemma ctz_spec : forall x, x <> 0 ->
  N.testbit x (count_trailing_zeros x) = true /\
  (forall j, j < count_trailing_zeros x -> N.testbit x j = false).
Proof. intros [|p] H; [lia|]. apply pos_ctz_spec. Qed.

Lemma ctz_lt : forall x, x <> 0 -> x < 2 ^ 64 -> count_trailing_zeros x < 64.
Proof.
  intros x Hx Hl. destruct (ctz_spec x Hx) as [H _].
  destruct (N.lt_ge_cases (count_trailing_zeros x) 64); auto.
  rewrite (testbit_small x 64) in H by auto. discriminate.
Qed.

Lemma ctz_64 : forall x, x < 2 ^ 64 -> (count_trailing_zeros x = 64 <-> x = 0).
Proof.
  intros x Hx. split; [|intros ->; reflexivity]. intro H.
  destruct (N.eq_dec x 0); auto. pose proof (ctz_lt x n Hx). lia.
Qed.

Lemma clz_spec : forall x, x <> 0 -> x < 2 ^ 64 ->
  count_leading_zeros x < 64 /\
  N.testbit x (64 - count_leading_zeros x - 1) = true /\
  (forall j, 64 - count_leading_zeros x - 1 < j -> N.testbit x j = false).
Proof.
  intros x Hx Hl. unfold count_leading_zeros, width.
  assert (S : N.size x = N.succ (N.log2 x)) by (apply N.size_log2; auto).
  assert (L : N.log2 x < 64) by (apply N.log2_lt_pow2; lia).
  rewrite S. split; [lia|].
  replace (64 - (64 - N.succ (N.log2 x)) - 1) with (N.log2 x) by lia. split.
  - now apply N.bit_log2.
  - intros. now apply N.bits_above_log2.
Qed.

(** * Bit sequences *)

Lemma blist_length : forall b, length (blist b) = N.to_nat (bsize b).
Proof. intros. unfold blist. destruct (64 <? bsize b); [apply repeat_length|apply wbits_length]. Qed.

Lemma mk_bits_blist : forall x n, n <= 64 -> blist (mk_bits x n) = wbits (N.to_nat n) x.
Proof.
  intros x n Hn. unfold blist, mk_bits. cbn [bsize bdata].
  assert (64 <? n = false) as -> by lia. unfold width.
  destruct (N.ltb_spec n 64); auto.
  rewrite lsb_mask_ones by lia. apply wbits_land_ones. lia.
Qed.

Lemma mk_bits_wf : forall x n, x < 2 ^ 64 -> (64 < n -> x = 0 \/ x = all) -> bwf (mk_bits x n).
Proof.
  intros x n Hx H. unfold bwf, mk_bits. cbn [bsize bdata]. unfold width.
  destruct (N.ltb_spec 64 n).
  - assert (n <? 64 = false) as -> by lia. auto.
  - destruct (N.ltb_spec n 64).
    + rewrite lsb_mask_ones by lia. rewrite N.land_comm. apply land_lt, ones_lt.
    + assert (n = 64) by lia. subst. auto.
Qed.

Lemma bwf_lt : forall b, bwf b -> bdata b < 2 ^ 64.
Proof.
  intros b H. unfold bwf in H. destruct (N.ltb_spec 64 (bsize b)).
  - destruct H as [->| ->]; [apply pow2_pos|apply ones_lt].
  - eapply N.lt_le_trans; [exact H|]. apply N.pow_le_mono_r; lia.
Qed.

Lemma bits_at_spec : forall b i, i < bsize b -> bits_at b i = nth (N.to_nat i) (blist b) false.
Proof.
  intros b i Hi. unfold bits_at, is_run, blist, width.
  destruct (N.ltb_spec 64 (bsize b)).
  - rewrite nth_repeat_lt by lia. reflexivity.
  - rewrite land_mask_0 by lia. rewrite nth_wbits by lia. now rewrite N2Nat.id.
Qed.

Lemma skipn_repeat : forall {A} (a : A) n m, skipn n (repeat a m) = repeat a (m - n).
Proof. induction n; intros [|m]; cbn; auto. Qed.
Lemma firstn_repeat : forall {A} (a : A) n m, firstn n (repeat a m) = repeat a (Nat.min n m).
Proof. induction n; intros [|m]; cbn; f_equal; auto. Qed.

Lemma skipn_wbits : forall n m w, skipn n (wbits m w) = wbits (m - n) (N.shiftr w (N.of_nat n)).
Proof.
  intros. destruct (Nat.le_ge_cases n m).
  - replace m with (n + (m - n))%nat at 1 by lia. rewrite wbits_app.
    rewrite skipn_app, skipn_all2 by (rewrite wbits_length; lia). rewrite wbits_length.
    now replace (n - n)%nat with 0%nat by lia.
  - rewrite skipn_all2 by (rewrite wbits_length; lia). now replace (m - n)%nat with 0%nat by lia.
Qed.

Lemma firstn_wbits : forall n m w, (n <= m)%nat -> firstn n (wbits m w) = wbits n w.
Proof.
  intros. replace m with (n + (m - n))%nat by lia. rewrite wbits_app.
  rewrite firstn_app, firstn_all2 by (rewrite wbits_length; lia). rewrite wbits_length.
  replace (n - n)%nat with 0%nat by lia. now rewrite firstn_O, app_nil_r.
Qed.

Lemma wbits_run : forall n x, x = 0 \/ x = all -> (n <= 64)%nat -> wbits n x = repeat (negb (x =? 0)) n.
Proof.
  intros n x [->| ->] Hn.
  - apply wbits_0.
  - apply wbits_ones. lia.
Qed.

Lemma slice_blist : forall b o n, bwf b -> o + n <= bsize b ->
  blist (slice b o n) = firstn (N.to_nat n) (skipn (N.to_nat o) (blist b)) /\ bwf (slice b o n).
Proof.
  intros b o n W H. pose proof (bwf_lt b W) as Hd. unfold slice.
  unfold bwf in W. unfold is_run, width. unfold blist at 2.
  destruct (N.ltb_spec 64 (bsize b)).
  - split; [|apply mk_bits_wf; auto].
    rewrite skipn_repeat, firstn_repeat. 
    replace (Nat.min (N.to_nat n) (N.to_nat (bsize b) - N.to_nat o)) with (N.to_nat n) by lia.
    destruct (N.ltb_spec 64 n).
    + unfold blist, mk_bits. cbn [bsize bdata]. unfold width.
      assert (64 <? n = true) as -> by lia. assert (n <? 64 = false) as -> by lia. reflexivity.
    + rewrite mk_bits_blist by lia. apply wbits_run; auto. lia.
  - split.
    + rewrite mk_bits_blist by lia. rewrite skipn_wbits, firstn_wbits by lia.
      now rewrite N2Nat.id.
    + apply mk_bits_wf; [|lia]. unfold wshr. rewrite N.shiftr_div_pow2.
      eapply N.le_lt_trans; [|exact Hd]. apply N.div_le_upper_bound; [apply N.pow_nonzero; lia|].
      pose proof (pow2_pos o). nia.
Qed.

Lemma drop_blist : forall b n, bwf b ->
  blist (drop b n) = skipn (N.to_nat n) (blist b) /\ bwf (drop b n).
Proof.
  intros b n W. unfold drop, slice_from. destruct (N.ltb_spec n (bsize b)).
  - destruct (slice_blist b n (bsize b - n) W) as [-> H1]; [lia|]. split; auto.
    rewrite firstn_all2; auto. rewrite skipn_length, blist_length. lia.
  - split; [|reflexivity]. rewrite skipn_all2; [reflexivity|]. rewrite blist_length. lia.
Qed.

Lemma drop_size : forall b n, bsize (drop b n) = bsize b - n.
Proof.
  intros. unfold drop, slice_from, slice, mk_bits.
  destruct (N.ltb_spec n (bsize b)); cbn [bsize empty_bits]; lia.
Qed.

Lemma take_blist : forall b n, bwf b ->
  blist (take b n) = firstn (N.to_nat n) (blist b) /\ bwf (take b n).
Proof.
  intros b n W. unfold take. destruct (N.ltb_spec n (bsize b)).
  - apply (slice_blist b 0 n W). lia.
  - split; auto. rewrite firstn_all2; auto. rewrite blist_length. lia.
Qed.
