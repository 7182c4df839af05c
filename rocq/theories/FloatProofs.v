(** What the floating point operations of [CalendarModel] compute, over the real numbers. *)
From Coq Require Import ZArith NArith List Bool Arith Lia Reals Lra Floats.SpecFloat.
From Flocq Require Import Core IEEE754.BinarySingleNaN IEEE754.PrimFloat.
From Verif Require Import LiteralModel LiteralProofs CalendarModel.
Import ListNotations.
Open Scope R_scope.

Local Instance Hp : Prec_gt_0 53 := eq_refl.
Local Instance He : Prec_lt_emax 53 1024 := eq_refl.
Definition b64 := binary_float 53 1024.
(** Rounding to the nearest [double], ties to even. *)
Definition rnd (v : R) : R := round radix2 (SpecFloat.fexp 53 1024) ZnearestE v.
(** The finite number [x] has the value [v]. *)
Definition rep (x : double) (v : R) : Prop := exists b : b64, B2SF b = x /\ is_finite b = true /\ B2R b = v.

Lemma fexp_flt : forall e, SpecFloat.fexp 53 1024 e = FLT_exp (-1074) 53 e.
Proof. reflexivity. Qed.
Local Instance fexp_valid : Valid_exp (SpecFloat.fexp 53 1024).
Proof. exact (@FLT_exp_valid (-1074) 53 Hp). Qed.
Local Instance fexp_mono : Monotone_exp (SpecFloat.fexp 53 1024).
Proof. exact (FLT_exp_monotone (-1074) 53). Qed.

Lemma rnd_le : forall v e, (-1000 <= e)%Z -> Rabs v <= bpow radix2 e -> Rabs (rnd v) <= bpow radix2 e.
Proof.
  intros v e He' H. unfold rnd. apply abs_round_le_generic; [exact fexp_valid|apply valid_rnd_N| |exact H]. apply generic_format_bpow. rewrite fexp_flt. unfold FLT_exp. lia.
Qed.
Lemma rnd_small : forall v, Rabs v <= bpow radix2 100 -> Rlt_bool (Rabs (rnd v)) (bpow radix2 1024) = true.
Proof. intros v H. apply Rlt_bool_true. eapply Rle_lt_trans; [apply rnd_le with (e := 100%Z); [lia|exact H]|apply bpow_lt; lia]. Qed.
Lemma rnd_err : forall v e, (-1000 <= e)%Z -> Rabs v < bpow radix2 e -> Rabs (rnd v - v) <= bpow radix2 (e - 54).
Proof.
  intros v e He' H. destruct (Req_dec v 0) as [->|NZ].
  - unfold rnd. rewrite round_0 by apply valid_rnd_N. rewrite Rminus_0_r, Rabs_R0. apply bpow_ge_0.
  - eapply Rle_trans; [apply error_le_half_ulp; exact fexp_valid|]. rewrite ulp_neq_0 by exact NZ. replace (e - 54)%Z with (-1 + (e - 53))%Z by lia. rewrite bpow_plus. change (bpow radix2 (-1)) with (/ 2). apply Rmult_le_compat_l; [lra|].
    apply bpow_le. unfold cexp. rewrite fexp_flt. unfold FLT_exp. assert (mag radix2 v <= e)%Z by (apply mag_le_bpow; assumption). lia.
Qed.
Lemma rnd_int : forall z, (Z.abs z < 2 ^ 53)%Z -> rnd (IZR z) = IZR z.
Proof.
  intros z H. apply round_generic; [apply valid_rnd_N|]. apply (generic_format_FLT radix2 (-1074) 53). exists (Float radix2 z 0); [unfold F2R; cbn; lra|exact H|cbn; lia].
Qed.
Lemma rnd_mono : forall a b, a <= b -> rnd a <= rnd b.
Proof. intros a b H. apply round_le; [exact fexp_valid|apply valid_rnd_N|exact H]. Qed.

Lemma rep_Z : forall z, (Z.abs z < 2 ^ 53)%Z -> rep (of_Z z) (IZR z).
Proof.
  intros z H. unfold of_Z. exists (BinarySingleNaN.binary_normalize 53 1024 Hp He mode_NE z 0 false).
  split; [symmetry; apply binary_normalize_equiv|]. pose proof (binary_normalize_correct 53 1024 Hp He mode_NE z 0 false) as C. cbv zeta in C.
  assert (V : F2R (Float radix2 z 0) = IZR z) by (unfold F2R; cbn; lra). rewrite V in C. change (round_mode mode_NE) with ZnearestE in C. fold (rnd (IZR z)) in C.
  assert (B : Rabs (IZR z) <= bpow radix2 100). { rewrite <- abs_IZR. replace (bpow radix2 100) with (IZR (2 ^ 100)) by (rewrite <- (IZR_Zpower radix2) by lia; reflexivity). apply IZR_le. assert (2 ^ 53 < 2 ^ 100)%Z by reflexivity. lia. }
  rewrite (rnd_small _ B) in C. destruct C as (C1 & C2 & _). split; [exact C2|]. now rewrite C1, rnd_int.
Qed.
Lemma rep_add : forall x y a b, rep x a -> rep y b -> Rabs (a + b) <= bpow radix2 100 -> rep (dadd x y) (rnd (a + b)).
Proof.
  intros x y a b (bx & X1 & X2 & X3) (by' & Y1 & Y2 & Y3) B. exists (@Bplus 53 1024 Hp He mode_NE bx by').
  pose proof (Bplus_correct 53 1024 Hp He mode_NE bx by' X2 Y2) as C. rewrite X3, Y3 in C. change (round_mode mode_NE) with ZnearestE in C. fold (rnd (a + b)) in C. rewrite (rnd_small _ B) in C. destruct C as (C1 & C2 & _).
  split; [|split; [exact C2|exact C1] ]. subst x y. unfold dadd.
  destruct bx as [sx|sx| |sx mx ex Bx]; destruct by' as [sy|sy| |sy my ey By]; try (cbn; destruct sx, sy; reflexivity); try discriminate; try reflexivity.
  symmetry. cbn [B2SF SFadd]. apply binary_normalize_equiv.
Qed.
Lemma rep_mul : forall x y a b, rep x a -> rep y b -> Rabs (a * b) <= bpow radix2 100 -> rep (dmul x y) (rnd (a * b)).
Proof.
  intros x y a b (bx & X1 & X2 & X3) (by' & Y1 & Y2 & Y3) B. exists (@Bmult 53 1024 Hp He mode_NE bx by').
  pose proof (Bmult_correct 53 1024 Hp He mode_NE bx by') as C. rewrite X3, Y3 in C. change (round_mode mode_NE) with ZnearestE in C. fold (rnd (a * b)) in C. rewrite (rnd_small _ B) in C. destruct C as (C1 & C2 & _).
  split; [|split; [rewrite C2, X2, Y2; reflexivity|exact C1] ]. subst x y. unfold dmul.
  destruct bx as [sx|sx| |sx mx ex Bx]; destruct by' as [sy|sy| |sy my ey By]; try discriminate; try reflexivity.
  cbn [B2SF SFmul Bmult]. rewrite B2SF_SF2B. symmetry. apply binary_round_aux_equiv.
Qed.
Lemma rep_div : forall x y a b, rep x a -> rep y b -> b <> 0 -> Rabs (a / b) <= bpow radix2 100 -> rep (ddiv x y) (rnd (a / b)).
Proof.
  intros x y a b (bx & X1 & X2 & X3) (by' & Y1 & Y2 & Y3) NZ B. exists (@Bdiv 53 1024 Hp He mode_NE bx by').
  assert (NZ' : B2R by' <> 0) by now rewrite Y3. pose proof (Bdiv_correct 53 1024 Hp He mode_NE bx by' NZ') as C. rewrite X3, Y3 in C. change (round_mode mode_NE) with ZnearestE in C. fold (rnd (a / b)) in C. rewrite (rnd_small _ B) in C. destruct C as (C1 & C2 & _).
  split; [|split; [rewrite C2, X2; reflexivity|exact C1] ]. subst x y. unfold ddiv.
  destruct bx as [sx|sx| |sx mx ex Bx]; destruct by' as [sy|sy| |sy my ey By]; try discriminate; try reflexivity.
  cbn [B2SF SFdiv Bdiv]. rewrite B2SF_SF2B. destruct (SFdiv_core_binary 53 1024 (Z.pos mx) ex (Z.pos my) ey) as [ [mz ez] lz]. symmetry. apply binary_round_aux_equiv.
Qed.
Lemma rep_compare : forall x y a b, rep x a -> rep y b -> dle x y = Rle_bool a b.
Proof.
  intros x y a b (bx & X1 & X2 & X3) (by' & Y1 & Y2 & Y3). subst x y. unfold dle. pose proof (Bcompare_correct 53 1024 bx by' X2 Y2) as C. unfold Bcompare in C. rewrite C, X3, Y3.
  destruct (Rcompare_spec a b); symmetry; [apply Rle_bool_true; lra|apply Rle_bool_true; lra|apply Rle_bool_false; lra].
Qed.
Lemma trunc_floor : forall x v, rep x v -> 0 <= v -> trunc x = Zfloor v.
Proof.
  intros x v (b & X1 & X2 & X3) P. subst x. destruct b as [s|s| |s m e Hb]; try discriminate; cbn [B2SF trunc].
  - cbn in X3. subst v. symmetry. apply (Zfloor_IZR 0).
  - cbn [B2R] in X3. destruct s.
    + exfalso. subst v. cbn [cond_Zopp] in P. pose proof (F2R_lt_0 radix2 (Float radix2 (- Z.pos m) e) ltac:(cbn; lia)) as Q. lra.
    + cbn [cond_Zopp] in X3. destruct (Z.leb_spec 0 e) as [He'|He'].
      * subst v. unfold F2R. cbn [Fnum Fexp]. rewrite <- (IZR_Zpower radix2) by lia. rewrite <- mult_IZR, Zfloor_IZR. reflexivity.
      * subst v. unfold F2R. cbn [Fnum Fexp]. symmetry. replace (bpow radix2 e) with (/ IZR (2 ^ (- e))) by (rewrite (IZR_Zpower radix2) by lia; rewrite <- bpow_opp; f_equal; lia).
        change (IZR (Z.pos m) * / IZR (2 ^ (- e)))%R with (IZR (Z.pos m) / IZR (2 ^ (- e)))%R. apply Zfloor_div. assert (0 < 2 ^ (- e))%Z by (apply Z.pow_pos_nonneg; lia). lia.
Qed.

(** * Numbers read from digits *)

Lemma rep_digits : forall ds, forallb isdigit ds = true -> (length ds <= 15)%nat -> rep (dnum ds) (IZR (Z.of_N (num ds))).
Proof.
  intros ds. induction ds as [|c ds IH] using rev_ind; intros D L; [apply (rep_Z 0); reflexivity|].
  rewrite forallb_app in D. apply andb_true_iff in D. destruct D as [D1 D2]. cbn [forallb] in D2. rewrite andb_true_r in D2. rewrite app_length in L. cbn [length] in L.
  specialize (IH D1 ltac:(lia)). unfold dnum in *. rewrite fold_left_app. cbn [fold_left]. rewrite num_app. cbn [fold_left].
  pose proof (num_bound _ D1) as B. assert (B2 : (num ds < 10 ^ 14)%N) by (eapply N.lt_le_trans; [exact B|apply N.pow_le_mono_r; lia]). change (10 ^ 14)%N with 100000000000000%N in B2.
  unfold isdigit in D2. assert (C : (0 <= Z.of_N (c - 48) <= 9)%Z) by lia. set (n := num ds) in *.
  assert (P100 : bpow radix2 100 = IZR (2 ^ 100)) by (rewrite <- (IZR_Zpower radix2) by lia; reflexivity).
  assert (BD : forall z, (Z.abs z < 2 ^ 53)%Z -> Rabs (IZR z) <= bpow radix2 100).
  { intros z H. rewrite P100, <- abs_IZR. apply IZR_le. assert (2 ^ 53 < 2 ^ 100)%Z by reflexivity. lia. }
  assert (S1 : (2 ^ 53 = 9007199254740992)%Z) by reflexivity.
  assert (M : rep (dmul (fold_left (fun x c => dadd (dmul x (of_Z 10)) (of_Z (Z.of_N (c - 48)))) ds (of_Z 0)) (of_Z 10)) (IZR (Z.of_N n * 10))).
  { rewrite <- (rnd_int (Z.of_N n * 10)) by lia. rewrite mult_IZR. apply rep_mul; [exact IH|apply rep_Z; reflexivity|]. rewrite <- mult_IZR. apply BD. lia. }
  replace (Z.of_N (n * 10 + (c - 48))) with (Z.of_N n * 10 + Z.of_N (c - 48))%Z by lia. rewrite <- (rnd_int (Z.of_N n * 10 + Z.of_N (c - 48))) by lia. rewrite plus_IZR. apply rep_add; [exact M|apply rep_Z; lia|]. rewrite <- plus_IZR. apply BD. lia.
Qed.

(** * The nanoseconds of a day *)

Lemma bp : forall e, (0 <= e)%Z -> bpow radix2 e = IZR (2 ^ e).
Proof. intros e H. rewrite <- (IZR_Zpower radix2) by exact H. reflexivity. Qed.
Lemma bpn : forall e, (0 <= e)%Z -> bpow radix2 (- e) = / IZR (2 ^ e).
Proof. intros e H. rewrite bpow_opp, bp by exact H. reflexivity. Qed.
Lemma near_secs : forall s ds, (0 <= s < 60)%Z -> num (pad 2 s) = Z.to_N s -> forallb isdigit (pad 2 s) = true -> length (pad 2 s) = 2%nat -> forallb isdigit ds = true -> (length ds <= 9)%nat ->
  exists v, rep (dreal {| d_neg := false; d_int := pad 2 s; d_frac := ds |}) v /\ 0 <= v <= 60 /\ Rabs (v - (IZR s + IZR (Z.of_N (num ds)) / IZR (10 ^ Z.of_nat (length ds)))) <= bpow radix2 (-47).
Proof.
  intros s ds Hs PN PD PL D L. pose proof (num_bound _ D) as NB.
  assert (K : (0 < 10 ^ Z.of_nat (length ds) <= 1000000000)%Z). { split; [apply Z.pow_pos_nonneg; lia|]. change 1000000000%Z with (10 ^ 9)%Z. apply Z.pow_le_mono_r; lia. }
  assert (NB' : (0 <= Z.of_N (num ds) < 10 ^ Z.of_nat (length ds))%Z). { split; [lia|]. apply N2Z.inj_lt in NB. rewrite N2Z.inj_pow, nat_N_Z in NB. exact NB. }
  set (k := (10 ^ Z.of_nat (length ds))%Z) in *. set (n := Z.of_N (num ds)) in *.
  assert (KR : 0 < IZR k) by (apply IZR_lt; lia). assert (Q0 : 0 <= IZR n / IZR k). { apply Rmult_le_pos; [apply IZR_le; lia|left; now apply Rinv_0_lt_compat]. }
  assert (Q1 : IZR n / IZR k < 1). { apply Rmult_lt_reg_r with (IZR k); [exact KR|]. unfold Rdiv. rewrite Rmult_assoc, Rinv_l, Rmult_1_l, Rmult_1_r by lra. apply IZR_lt. lia. }
  assert (P100 : bpow radix2 100 = IZR (2 ^ 100)) by (apply bp; lia). assert (P100' : 1000 <= IZR (2 ^ 100)) by (apply (IZR_le 1000); discriminate).
  set (f := match ds with [] => of_Z 0 | c :: es => ddiv (dnum (c :: es)) (of_Z (10 ^ Z.of_nat (length (c :: es)))) end).
  assert (FR : exists u, rep f u /\ 0 <= u <= 1 /\ Rabs (u - IZR n / IZR k) <= bpow radix2 (-54)).
  { unfold f. destruct ds as [|c ds].
    - exists 0. split; [apply (rep_Z 0); reflexivity|]. split; [lra|]. unfold n. cbn. replace (0 - 0 / 1) with 0 by lra. rewrite Rabs_R0. apply (bpow_ge_0 radix2 (-54)).
    - exists (rnd (IZR n / IZR k)). split; [|split].
      + apply rep_div; [apply rep_digits; [exact D|lia]|apply rep_Z; change (2 ^ 53)%Z with 9007199254740992%Z; fold k; lia|lra|]. rewrite P100, Rabs_pos_eq by exact Q0. lra.
      + split; [rewrite <- (rnd_int 0) by reflexivity; apply rnd_mono; exact Q0|rewrite <- (rnd_int 1) by reflexivity; apply rnd_mono; lra].
      + apply (rnd_err _ 0); [lia|]. cbn [bpow]. rewrite Rabs_pos_eq by exact Q0. exact Q1. }
  destruct FR as (u & FU & U1 & U2). exists (rnd (IZR s + u)). assert (S1 : 0 <= IZR s <= 59) by (split; apply IZR_le; lia).
  split; [|split].
  - change (dreal {| d_neg := false; d_int := pad 2 s; d_frac := ds |}) with (dadd (dnum (pad 2 s)) f). apply rep_add; [|exact FU|rewrite P100, Rabs_pos_eq by lra; lra].
    replace s with (Z.of_N (num (pad 2 s))) at 2 by (rewrite PN; lia). apply rep_digits; [exact PD|lia].
  - split; [rewrite <- (rnd_int 0) by reflexivity; apply rnd_mono; lra|rewrite <- (rnd_int 60) by reflexivity; apply rnd_mono; lra].
  - assert (E : Rabs (rnd (IZR s + u) - (IZR s + u)) <= bpow radix2 (6 - 54)). { apply rnd_err; [lia|]. rewrite (bp 6) by lia. change (2 ^ 6)%Z with 64%Z. rewrite Rabs_pos_eq by lra. lra. }
    replace (rnd (IZR s + u) - (IZR s + IZR n / IZR k)) with ((rnd (IZR s + u) - (IZR s + u)) + (u - IZR n / IZR k)) by ring. eapply Rle_trans; [apply Rabs_triang|].
    change (6 - 54)%Z with (-48)%Z in E. assert (bpow radix2 (-54) <= bpow radix2 (-48)) by (apply bpow_le; lia). replace (bpow radix2 (-47)) with (2 * bpow radix2 (-48)) by (change (-47)%Z with (1 + -48)%Z; rewrite bpow_plus; reflexivity). lra.
Qed.
(** The time of the day is read up to one nanosecond less. *)
Lemma near_day : forall hm s ds, (0 <= hm < 1440)%Z -> (0 <= s < 60)%Z -> num (pad 2 s) = Z.to_N s -> forallb isdigit (pad 2 s) = true -> length (pad 2 s) = 2%nat -> forallb isdigit ds = true -> (length ds <= 9)%nat ->
  let x := {| d_neg := false; d_int := pad 2 s; d_frac := ds |} in
  let t := ((hm * 60 + s) * 1000000000 + Z.of_N (num ds) * 10 ^ (9 - Z.of_nat (length ds)))%Z in
  secs_ok x = true /\ (t - 1 <= trunc (dmul (dadd (dmul (of_Z hm) (of_Z 60)) (dreal x)) (of_Z 1000000000)) <= t)%Z.
Proof.
  intros hm s ds Hh Hs PN PD PL D L x t. destruct (near_secs s ds Hs PN PD PL D L) as (v & V & VB & VE). fold x in V.
  assert (P100 : bpow radix2 100 = IZR (2 ^ 100)) by (apply bp; lia). assert (P100' : 1000000000000000000 <= IZR (2 ^ 100)) by (apply (IZR_le 1000000000000000000); discriminate).
  assert (S53 : (2 ^ 53 = 9007199254740992)%Z) by reflexivity.
  split.
  { unfold secs_ok. rewrite (rep_compare _ _ _ _ (rep_Z 0 eq_refl) V), (rep_compare _ _ _ _ V (rep_Z 60 eq_refl)). rewrite !Rle_bool_true by lra. reflexivity. }
  assert (M : rep (dmul (of_Z hm) (of_Z 60)) (IZR (hm * 60))).
  { rewrite <- (rnd_int (hm * 60)) by lia. rewrite mult_IZR. apply rep_mul; [apply rep_Z; lia|apply rep_Z; reflexivity|]. rewrite P100, <- mult_IZR, Rabs_pos_eq by (apply IZR_le; lia). apply Rle_trans with 86400; [apply IZR_le; lia|lra]. }
  assert (HB : 0 <= IZR (hm * 60) <= 86340) by (split; apply IZR_le; lia).
  set (a := IZR (hm * 60) + v). assert (AB : 0 <= a <= 86400) by (unfold a; lra).
  assert (A : rep (dadd (dmul (of_Z hm) (of_Z 60)) (dreal x)) (rnd a)) by (apply rep_add; [exact M|exact V|rewrite P100, Rabs_pos_eq by (fold a; lra); fold a; lra]).
  assert (RB : 0 <= rnd a <= 86400). { split; [rewrite <- (rnd_int 0) by reflexivity; apply rnd_mono; lra|rewrite <- (rnd_int 86400) by reflexivity; apply rnd_mono; lra]. }
  assert (E1 : Rabs (rnd a - a) <= bpow radix2 (17 - 54)). { apply rnd_err; [lia|]. rewrite (bp 17) by lia. change (2 ^ 17)%Z with 131072%Z. rewrite Rabs_pos_eq by lra. lra. }
  set (b := rnd a * 1000000000). assert (BB : 0 <= b <= 86400000000000) by (unfold b; nra).
  assert (B : rep (dmul (dadd (dmul (of_Z hm) (of_Z 60)) (dreal x)) (of_Z 1000000000)) (rnd b)) by (apply rep_mul; [exact A|apply rep_Z; reflexivity|fold b; rewrite P100, Rabs_pos_eq by lra; lra]).
  assert (E2 : Rabs (rnd b - b) <= bpow radix2 (47 - 54)). { apply rnd_err; [lia|]. rewrite (bp 47) by lia. change (2 ^ 47)%Z with 140737488355328%Z. rewrite Rabs_pos_eq by lra. lra. }
  assert (B0 : 0 <= rnd b) by (rewrite <- (rnd_int 0) by reflexivity; apply rnd_mono; lra).
  rewrite (trunc_floor _ _ B B0).
  (* the exact value *)
  assert (T : IZR t = (IZR (hm * 60) + (IZR s + IZR (Z.of_N (num ds)) / IZR (10 ^ Z.of_nat (length ds)))) * 1000000000).
  { unfold t. rewrite plus_IZR, !mult_IZR, plus_IZR, mult_IZR. assert (K : (0 < 10 ^ Z.of_nat (length ds))%Z) by (apply Z.pow_pos_nonneg; lia). assert (KR : 0 < IZR (10 ^ Z.of_nat (length ds))) by (apply IZR_lt; exact K).
    assert (PW : IZR (10 ^ (9 - Z.of_nat (length ds))) * IZR (10 ^ Z.of_nat (length ds)) = 1000000000). { rewrite <- mult_IZR, <- Z.pow_add_r by lia. replace (9 - Z.of_nat (length ds) + Z.of_nat (length ds))%Z with 9%Z by lia. reflexivity. }
    assert (PW2 : 1000000000 / IZR (10 ^ Z.of_nat (length ds)) = IZR (10 ^ (9 - Z.of_nat (length ds)))) by (rewrite <- PW; field; lra).
    unfold Rdiv in *. rewrite <- PW2. ring. }
  set (w := IZR s + IZR (Z.of_N (num ds)) / IZR (10 ^ Z.of_nat (length ds))) in *.
  change (17 - 54)%Z with (- (37))%Z in E1. change (47 - 54)%Z with (- (7))%Z in E2. change (-47)%Z with (- (47))%Z in VE. rewrite (bpn 37) in E1 by lia. rewrite (bpn 7) in E2 by lia. rewrite (bpn 47) in VE by lia.
  change (2 ^ 37)%Z with 137438953472%Z in E1. change (2 ^ 7)%Z with 128%Z in E2. change (2 ^ 47)%Z with 140737488355328%Z in VE.
  assert (N : IZR t - 1 / 2 < rnd b < IZR t + 1 / 2).
  { apply Rabs_le_inv in E1. apply Rabs_le_inv in E2. apply Rabs_le_inv in VE. rewrite T. unfold b in *. unfold a in *. lra. }
  split.
  - apply Zfloor_lub. rewrite minus_IZR. lra.
  - assert (Zfloor (rnd b) < t + 1)%Z; [|lia]. apply lt_IZR. rewrite plus_IZR. pose proof (Zfloor_lb (rnd b)). lra.
Qed.
