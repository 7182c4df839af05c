(** Sums and products of small natural numbers are exact in [double]. *)
From Coq Require Import ZArith NArith List Bool Arith Lia Floats.SpecFloat.
From Verif Require Import CalendarModel.
Open Scope Z_scope.

Fixpoint rept {A} (n : nat) (f : A -> A) (x : A) : A := match n with O => x | S n' => f (rept n' f x) end.
Definition shl (k : nat) (p : positive) : positive := rept k xO p.
Definition dg (p : positive) : Z := Z.pos (digits2_pos p).

Lemma iter_swap {A} (f : A -> A) n x : rept n f (f x) = f (rept n f x).
Proof. induction n as [|n IH]; cbn; [reflexivity | now rewrite IH]. Qed.
Lemma iter_add {A} (f : A -> A) n m x : rept (n + m) f x = rept n f (rept m f x).
Proof. induction n as [|n IH]; cbn; [reflexivity | now rewrite IH]. Qed.
Lemma shl_add a b p : shl a (shl b p) = shl (a + b) p.
Proof. unfold shl. now rewrite iter_add. Qed.
Lemma dg_shl k p : dg (shl k p) = dg p + Z.of_nat k.
Proof.
  induction k as [|k IH]; [cbn [shl rept]; change (shl 0 p) with p; lia|].
  unfold dg in *. change (shl (S k) p) with (xO (shl k p)). cbn [digits2_pos]. lia.
Qed.
Lemma iter_pos_nat {A} (f : A -> A) p : forall x, iter_pos f p x = rept (Pos.to_nat p) f x.
Proof.
  induction p as [p IH|p IH|]; intros x; cbn [iter_pos].
  - rewrite !IH. rewrite <- iter_add. rewrite iter_swap. rewrite Pos2Nat.inj_xI. cbn [rept]. f_equal. f_equal. lia.
  - rewrite !IH. rewrite <- iter_add. rewrite Pos2Nat.inj_xO. f_equal. lia.
  - reflexivity.
Qed.
Lemma shr_shl k p : rept k shr_1 {| shr_m := Z.pos (shl k p); shr_r := false; shr_s := false |} = {| shr_m := Z.pos p; shr_r := false; shr_s := false |}.
Proof.
  induction k as [|k IH]; [reflexivity|]. change (shl (S k) p) with (xO (shl k p)). cbn [rept]. rewrite <- iter_swap. exact IH.
Qed.
Lemma shift_shl d m : shift_pos d m = shl (Pos.to_nat d) m.
Proof. unfold shift_pos, shl. rewrite Pos2Nat.inj_iter. induction (Pos.to_nat d) as [|n IH]; [reflexivity|]. cbn [rept]. rewrite <- IH. reflexivity. Qed.

Lemma round_aux_exact k p e : dg p = 53 -> -1074 <= e + Z.of_nat k <= 971 ->
  binary_round_aux 53 1024 false (Z.pos (shl k p)) e loc_Exact = S754_finite false p (e + Z.of_nat k).
Proof.
  intros D R. unfold binary_round_aux, shr_fexp. cbn [shr_record_of_loc Zdigits2]. fold (dg (shl k p)). rewrite dg_shl, D.
  assert (F : fexp 53 1024 (53 + Z.of_nat k + e) - e = Z.of_nat k) by (unfold fexp, emin; lia). rewrite F.
  assert (S1 : shr {| shr_m := Z.pos (shl k p); shr_r := false; shr_s := false |} e (Z.of_nat k) = ({| shr_m := Z.pos p; shr_r := false; shr_s := false |}, e + Z.of_nat k)).
  { destruct k as [|k]; [cbn; f_equal; lia|]. cbn [Z.of_nat]. unfold shr. rewrite iter_pos_nat, SuccNat2Pos.id_succ, shr_shl. reflexivity. }
  rewrite S1. cbn [shr_m loc_of_shr_record round_nearest_even shr_record_of_loc Zdigits2]. fold (dg p). rewrite D.
  assert (F2 : fexp 53 1024 (53 + (e + Z.of_nat k)) - (e + Z.of_nat k) = 0) by (unfold fexp, emin; lia). rewrite F2. cbn [shr shr_m].
  destruct (Z.leb_spec (e + Z.of_nat k) (1024 - 53)); [reflexivity | lia].
Qed.

(** The number [p * 2 ^ e]. *)
Definition canon (p : positive) (e : Z) : double := S754_finite false (shl (Z.to_nat (53 - dg p)) p) (e + dg p - 53).

Lemma dg_pos p : 1 <= dg p.
Proof. unfold dg. lia. Qed.
Lemma aux_canon j p e : dg p <= 53 -> 53 <= dg p + Z.of_nat j -> -1000 <= e + Z.of_nat j <= 900 ->
  binary_round_aux 53 1024 false (Z.pos (shl j p)) e loc_Exact = canon p (e + Z.of_nat j).
Proof.
  intros D J R. pose proof (dg_pos p). set (k := Z.to_nat (dg p + Z.of_nat j - 53)).
  replace (shl j p) with (shl k (shl (Z.to_nat (53 - dg p)) p)) by (rewrite shl_add; f_equal; lia).
  rewrite round_aux_exact; [unfold canon; f_equal; lia | rewrite dg_shl; lia | lia].
Qed.
Lemma round_canon j p e : dg p <= 53 -> -1000 <= e + Z.of_nat j <= 900 ->
  binary_round 53 1024 false (shl j p) e = canon p (e + Z.of_nat j).
Proof.
  intros D R. pose proof (dg_pos p). unfold binary_round. fold (dg (shl j p)). rewrite dg_shl. unfold shl_align.
  replace (fexp 53 1024 (dg p + Z.of_nat j + e)) with (dg p + Z.of_nat j + e - 53) by (unfold fexp, emin; lia).
  destruct (dg p + Z.of_nat j + e - 53 - e) as [|q|q] eqn:E.
  - apply aux_canon; lia.
  - apply aux_canon; lia.
  - rewrite shift_shl, shl_add.
    replace (Z.pos (shl (Pos.to_nat q + j) p)) with (Z.pos (shl (Pos.to_nat q + j) p)) by reflexivity.
    rewrite aux_canon by lia. f_equal. lia.
Qed.

Lemma dg_bound p : 2 ^ (dg p - 1) <= Z.pos p < 2 ^ dg p.
Proof.
  unfold dg. induction p as [p IH|p IH|]; cbn [digits2_pos]; [| |cbn; lia];
    rewrite Pos2Z.inj_succ, Z.pow_succ_r by lia; replace (Z.succ (Z.pos (digits2_pos p)) - 1) with (Z.succ (Z.pos (digits2_pos p) - 1)) by lia;
    rewrite Z.pow_succ_r by lia; lia.
Qed.
Lemma dg_small p : Z.pos p < 2 ^ 53 -> dg p <= 53.
Proof.
  intros H. pose proof (dg_bound p) as [B _]. destruct (Z_le_gt_dec (dg p) 53) as [L|L]; [exact L|].
  exfalso. pose proof (Z.pow_le_mono_r 2 53 (dg p - 1) ltac:(lia) ltac:(lia)). lia.
Qed.
Lemma of_pos p : Z.pos p < 2 ^ 53 -> of_Z (Z.pos p) = canon p 0.
Proof. intros H. unfold of_Z, binary_normalize. change p with (shl 0 p) at 1. rewrite round_canon; [reflexivity | now apply dg_small | cbn; lia]. Qed.

Lemma shl_val k p : Z.pos (shl k p) = Z.pos p * 2 ^ Z.of_nat k.
Proof.
  induction k as [|k IH]; [change (shl 0 p) with p; cbn; lia|]. change (shl (S k) p) with (xO (shl k p)).
  rewrite Pos2Z.inj_xO, IH, Nat2Z.inj_succ, Z.pow_succ_r by lia. lia.
Qed.
Lemma shl_mul a b p q : (shl a p * shl b q)%positive = shl (a + b) (p * q).
Proof.
  apply Pos2Z.inj. rewrite Pos2Z.inj_mul, !shl_val, Pos2Z.inj_mul, Nat2Z.inj_add, Z.pow_add_r by lia. lia.
Qed.
Lemma shl_plus k p q : (shl k p + shl k q)%positive = shl k (p + q).
Proof. apply Pos2Z.inj. rewrite Pos2Z.inj_add, !shl_val, Pos2Z.inj_add. lia. Qed.

Lemma of_Z_mul x y : 0 <= x < 2 ^ 53 -> 0 <= y < 2 ^ 53 -> x * y < 2 ^ 53 -> dmul (of_Z x) (of_Z y) = of_Z (x * y).
Proof.
  intros X Y XY. destruct x as [|p|p]; [destruct y as [|q|q]; [reflexivity | rewrite of_pos by apply Y; reflexivity | lia] | | lia].
  destruct y as [|q|q]; [rewrite of_pos by apply X; reflexivity | | lia].
  rewrite <- Pos2Z.inj_mul in *. rewrite !of_pos by tauto. unfold canon at 1 2. unfold dmul, SFmul. cbn [xorb].
  pose proof (dg_small p (proj2 X)). pose proof (dg_small q (proj2 Y)). pose proof (dg_small (p * q) XY). pose proof (dg_pos p). pose proof (dg_pos q). pose proof (dg_pos (p * q)).
  rewrite shl_mul.
  assert (L : dg p <= dg (p * q)).
  { pose proof (dg_bound p) as [B1 _]. pose proof (dg_bound (p * q)) as [_ B2]. destruct (Z_le_gt_dec (dg p) (dg (p * q))) as [L|L]; [exact L|].
    exfalso. pose proof (Z.pow_le_mono_r 2 (dg (p * q)) (dg p - 1) ltac:(lia) ltac:(lia)). rewrite Pos2Z.inj_mul in B2. nia. }
  rewrite aux_canon; [f_equal; lia | assumption | lia | lia].
Qed.

Lemma of_Z_add x y : 0 <= x -> 0 <= y -> x + y < 2 ^ 53 -> dadd (of_Z x) (of_Z y) = of_Z (x + y).
Proof.
  intros X Y XY. destruct x as [|p|p]; [destruct y as [|q|q]; [reflexivity | rewrite Z.add_0_l, of_pos by lia; reflexivity | lia] | | lia].
  destruct y as [|q|q]; [rewrite Z.add_0_r, of_pos by lia; reflexivity | | lia].
  rewrite (of_pos p), (of_pos q) by lia. rewrite <- Pos2Z.inj_add in *. rewrite (of_pos (p + q)) by exact XY. unfold canon at 1 2. unfold dadd, SFadd.
  assert (dg p <= 53) by (apply dg_small; lia). assert (dg q <= 53) by (apply dg_small; lia). pose proof (dg_pos p). pose proof (dg_pos q).
  set (ez := Z.min (0 + dg p - 53) (0 + dg q - 53)).
  assert (AL : forall r, dg r <= 53 -> ez <= 0 + dg r - 53 -> fst (shl_align (shl (Z.to_nat (53 - dg r)) r) (0 + dg r - 53) ez) = shl (Z.to_nat (- ez)) r).
  { intros r R1 R2. unfold shl_align. destruct (ez - (0 + dg r - 53)) as [|d|d] eqn:E; [|lia|].
    - cbn [fst]. f_equal. lia.
    - cbn [fst]. rewrite shift_shl, shl_add. f_equal. lia. }
  cbn [cond_Zopp]. rewrite (AL p), (AL q) by lia. rewrite <- Pos2Z.inj_add, shl_plus. cbn [binary_normalize].
  rewrite round_canon; [f_equal; lia | now apply dg_small | lia].
Qed.

Lemma trunc_of_Z z : 0 <= z < 2 ^ 53 -> trunc (of_Z z) = z.
Proof.
  intros H. destruct z as [|p|p]; [reflexivity | | lia]. rewrite of_pos by apply H. unfold canon, trunc.
  pose proof (dg_small p (proj2 H)). pose proof (dg_pos p).
  destruct (Z.leb_spec 0 (0 + dg p - 53)) as [L|L].
  - replace (Z.to_nat (53 - dg p)) with 0%nat by lia. replace (0 + dg p - 53) with 0 by lia. change (shl 0 p) with p. lia.
  - rewrite shl_val. replace (Z.of_nat (Z.to_nat (53 - dg p))) with (- (0 + dg p - 53)) by lia. apply Z.div_mul. apply Z.pow_nonzero; lia.
Qed.
Lemma trunc_canon : forall p e, dg p <= 53 -> 0 <= e -> trunc (canon p e) = Z.pos p * 2 ^ e.
Proof.
  intros p e D E. pose proof (dg_pos p). unfold canon, trunc. rewrite shl_val. destruct (Z.leb_spec 0 (e + dg p - 53)) as [L|L].
  - rewrite <- Z.mul_assoc, <- Z.pow_add_r by lia. do 2 f_equal. lia.
  - replace (Z.pos p * 2 ^ Z.of_nat (Z.to_nat (53 - dg p))) with (Z.pos p * 2 ^ e * 2 ^ (- (e + dg p - 53))); [apply Z.div_mul, Z.pow_nonzero; lia|]. rewrite <- Z.mul_assoc, <- Z.pow_add_r by lia. do 2 f_equal. lia.
Qed.
Lemma whole_seconds : forall z, 0 <= z <= 4611686018 -> trunc (dmul (of_Z z) (of_Z 1000000000)) = z * 1000000000.
Proof.
  intros z H. destruct z as [|p|p]; [reflexivity| |lia]. rewrite of_pos by lia. replace (of_Z 1000000000) with (canon 1953125 9) by (vm_compute; reflexivity).
  assert (B : Z.pos (p * 1953125) < 2 ^ 53) by lia. pose proof (dg_small (p * 1953125) B) as D. assert (D1 : dg p <= 53) by (apply dg_small; lia). pose proof (dg_pos p). assert (Q : dg 1953125 = 21) by reflexivity.
  assert (L : dg p <= dg (p * 1953125)).
  { pose proof (dg_bound p) as [B1 _]. pose proof (dg_bound (p * 1953125)) as [_ B2]. pose proof (dg_pos (p * 1953125)). destruct (Z_le_gt_dec (dg p) (dg (p * 1953125))) as [L|L]; [exact L|].
    exfalso. pose proof (Z.pow_le_mono_r 2 (dg (p * 1953125)) (dg p - 1) ltac:(lia) ltac:(lia)). rewrite Pos2Z.inj_mul in B2. lia. }
  unfold canon. unfold dmul, SFmul. cbn [xorb]. rewrite shl_mul. rewrite aux_canon; [| exact D | lia | lia].
  match goal with |- trunc (canon _ ?e) = _ => replace e with 9 by lia end. rewrite trunc_canon by lia. lia.
Qed.
