(** Proofs about the calendar and about times as text. *)
From Coq Require Import String Ascii List ZArith NArith Bool Arith Lia.
From Coq Require Import ZifyBool ZifyNat ZifyN.
From Coq Require Import Floats.SpecFloat.
From Coq Require Import Init.Datatypes.
From Verif Require Import EscapeModel AddressModel DataModel LiteralModel LiteralProofs CalendarModel.
Import ListNotations.
Open Scope Z_scope.

(** * The Gregorian calendar *)

Definition leap (y : Z) : bool := (y mod 4 =? 0) && negb (y mod 100 =? 0) || (y mod 400 =? 0).
Definition month_days (y m : Z) : Z :=
  if m =? 2 then (if leap y then 29 else 28) else if (m =? 4) || (m =? 6) || (m =? 9) || (m =? 11) then 30 else 31.
Definition valid (x : Z * Z * Z) : Prop := let '(y, m, d) := x in 1 <= m <= 12 /\ 1 <= d <= month_days y m.
(** The day after a day. *)
Definition next (x : Z * Z * Z) : Z * Z * Z :=
  let '(y, m, d) := x in
  if d <? month_days y m then (y, m, d + 1) else if m <? 12 then (y, m + 1, 1) else (y + 1, 1, 1).

(** * Checking a range *)

Fixpoint check_range (f : Z -> bool) (lo : Z) (k : nat) : bool :=
  match k with O => f lo | S k' => check_range f lo k' && check_range f (lo + 2 ^ Z.of_nat k') k' end.
Lemma check_range_ok : forall f k lo, check_range f lo k = true -> forall z, lo <= z < lo + 2 ^ Z.of_nat k -> f z = true.
Proof.
  induction k as [|k IH]; intros lo H z Hz; [cbn in *; assert (z = lo) by lia; now subst|]. cbn [check_range] in H. apply andb_true_iff in H. destruct H as [H1 H2].
  rewrite Nat2Z.inj_succ, Z.pow_succ_r in Hz by lia. destruct (Z_lt_le_dec z (lo + 2 ^ Z.of_nat k)); [apply (IH lo H1); lia|apply (IH _ H2); lia].
Qed.

(** * One era of 400 years *)

Definition civil (doe : Z) : Z * Z * Z :=
  let yoe := (doe - doe / 1460 + doe / 36524 - doe / 146096) / 365 in
  let doy := doe - (365 * yoe + yoe / 4 - yoe / 100) in
  let mp := (5 * doy + 2) / 153 in
  let d := doy - (153 * mp + 2) / 5 + 1 in
  let m := if mp <? 10 then mp + 3 else mp - 9 in
  (yoe + (if m <=? 2 then 1 else 0), m, d).
Definition day_of (y m d : Z) : Z :=
  let yoe := y - (if m <=? 2 then 1 else 0) in
  yoe * 365 + yoe / 4 - yoe / 100 + ((153 * (if 2 <? m then m - 3 else m + 9) + 2) / 5 + d - 1).
Definition eqb3 (x y : Z * Z * Z) : bool := let '(a, b, c) := x in let '(a', b', c') := y in (a =? a') && (b =? b') && (c =? c').
Lemma eqb3_eq : forall x y, eqb3 x y = true -> x = y.
Proof. intros [ [a b] c] [ [a' b'] c'] H. unfold eqb3 in H. f_equal; [f_equal|]; lia. Qed.
Definition check_doe (doe : Z) : bool :=
  if 146097 <=? doe then true
  else
    let yoe := (doe - doe / 1460 + doe / 36524 - doe / 146096) / 365 in
    let doy := doe - (365 * yoe + yoe / 4 - yoe / 100) in
    let mp := (5 * doy + 2) / 153 in
    let '(y, m, d) := civil doe in
    (0 <=? yoe) && (yoe <? 400) && (0 <=? doy) && (doy <? 366) && (0 <=? mp) && (mp <? 12) && (1 <=? m) && (m <=? 12) && (1 <=? d) && (d <=? month_days y m) &&
    (day_of y m d =? doe) && (0 <=? y) && (y <=? 400) && (y - (if m <=? 2 then 1 else 0) =? yoe) &&
    eqb3 (next (y, m, d)) (if doe =? 146096 then (400, 3, 1) else civil (doe + 1)).
(** Years that begin in March: the first day, and whether the year ends with a leap day. *)
Definition day0 (y : Z) : Z := 365 * y + y / 4 - y / 100.
Definition year_end (y : Z) : Z := if y =? 399 then 146097 else day0 (y + 1).
Definition extra (y : Z) : Z := if leap (y + 1) then 1 else 0.
Definition year_of (doe : Z) : Z := doe - doe / 1460 + doe / 36524 - doe / 146096.
Definition check_year (y : Z) : bool :=
  if 400 <=? y then true
  else (365 * y <=? year_of (day0 y)) && (year_of (year_end y - 1) <? 365 * (y + 1)) && (year_end y - day0 y =? 365 + extra y).
Lemma years_checked : check_range check_year 0 9 = true.
Proof. vm_compute. reflexivity. Qed.
Lemma year_of_mono : forall a b, 0 <= a -> a <= b -> b < 146097 -> year_of a <= year_of b.
Proof.
  assert (S : forall a, 0 <= a -> a + 1 < 146097 -> year_of a <= year_of (a + 1)).
  { intros a H1 H2. unfold year_of. destruct (Z.eq_dec a 146095) as [->|N]; [vm_compute; discriminate|].
    rewrite (Z.div_small a 146096), (Z.div_small (a + 1) 146096) by lia.
    assert (a / 36524 <= (a + 1) / 36524) by (apply Z.div_le_mono; lia).
    assert ((a + 1) / 1460 <= a / 1460 + 1) by (rewrite <- Z.div_add by lia; apply Z.div_le_mono; lia). lia. }
  intros a b H1 H2 H3. replace b with (a + Z.of_nat (Z.to_nat (b - a))) in * by lia. generalize dependent (Z.to_nat (b - a)). intros n _ H3.
  induction n as [|n IH]; [rewrite Z.add_0_r; lia|]. rewrite Nat2Z.inj_succ in *. specialize (IH ltac:(lia)).
  etransitivity; [exact IH|]. replace (a + Z.succ (Z.of_nat n)) with (a + Z.of_nat n + 1) by lia. apply S; lia.
Qed.
Lemma year_ok : forall y, 0 <= y < 400 -> 365 * y <= year_of (day0 y) /\ year_of (year_end y - 1) < 365 * (y + 1) /\ year_end y = day0 y + 365 + extra y.
Proof.
  intros y H. pose proof (check_range_ok _ _ _ years_checked y) as C. change (2 ^ Z.of_nat 9) with 512 in C. specialize (C ltac:(lia)). unfold check_year in C.
  rewrite (proj2 (Z.leb_gt 400 y)) in C by lia. lia.
Qed.
Lemma day0_bounds : forall y, 0 <= y -> 0 <= day0 y /\ day0 y + 365 <= day0 (y + 1).
Proof.
  intros y H. unfold day0. pose proof (Z.div_pos y 4 H ltac:(lia)). assert (y / 100 <= y / 4) by (apply Z.div_le_compat_l; lia).
  split; [lia|]. replace (y / 100) with (y / 4 / 25) by (rewrite Z.div_div by lia; reflexivity). replace ((y + 1) / 100) with ((y + 1) / 4 / 25) by (rewrite Z.div_div by lia; reflexivity).
  assert ((y + 1) / 4 = y / 4 \/ (y + 1) / 4 = y / 4 + 1) as [-> | ->] by (pose proof (Z.div_mod y 4 ltac:(lia)); pose proof (Z.div_mod (y + 1) 4 ltac:(lia)); pose proof (Z.mod_pos_bound y 4 ltac:(lia)); pose proof (Z.mod_pos_bound (y + 1) 4 ltac:(lia)); lia); [lia|].
  generalize (y / 4). intros q. assert ((q + 1) / 25 <= q / 25 + 1) by (rewrite <- Z.div_add by lia; apply Z.div_le_mono; lia). lia.
Qed.
Lemma day0_mono : forall a b, 0 <= a -> a <= b -> day0 a <= day0 b.
Proof.
  intros a b H1 H2. replace b with (a + Z.of_nat (Z.to_nat (b - a))) by lia. generalize (Z.to_nat (b - a)). intros n.
  induction n as [|n IH]; [rewrite Z.add_0_r; lia|]. rewrite Nat2Z.inj_succ. replace (a + Z.succ (Z.of_nat n)) with (a + Z.of_nat n + 1) by lia.
  pose proof (day0_bounds (a + Z.of_nat n) ltac:(lia)). lia.
Qed.
Lemma year_end_bounds : forall y, 0 <= y < 400 -> 0 <= day0 y /\ day0 y < year_end y /\ year_end y <= 146097.
Proof.
  intros y H. pose proof (day0_bounds y ltac:(lia)). pose proof (year_ok y H) as (_ & _ & E). assert (0 <= extra y) by (unfold extra; destruct (leap _); lia).
  split; [lia|]. split; [lia|]. unfold year_end. destruct (Z.eqb_spec y 399); [lia|]. pose proof (day0_mono (y + 1) 399 ltac:(lia) ltac:(lia)). change (day0 399) with 145731 in *. lia.
Qed.
(** The year of a day of the era. *)
Lemma year_split : forall doe, 0 <= doe < 146097 -> let y := year_of doe / 365 in 0 <= y < 400 /\ day0 y <= doe < year_end y.
Proof.
  intros doe H y. pose proof (year_of_mono 0 doe ltac:(lia) ltac:(lia) ltac:(lia)) as L. pose proof (year_of_mono doe 146096 ltac:(lia) ltac:(lia) ltac:(lia)) as U.
  change (year_of 0) with 0 in L. change (year_of 146096) with 145999 in U.
  assert (Y : 0 <= y < 400) by (split; [apply Z.div_pos; lia|apply Z.div_lt_upper_bound; lia]). split; [exact Y|].
  pose proof (Z.div_mod (year_of doe) 365 ltac:(lia)) as E. pose proof (Z.mod_pos_bound (year_of doe) 365 ltac:(lia)) as B. fold y in E.
  split.
  - destruct (Z_le_gt_dec (day0 y) doe) as [K|K]; [exact K|]. exfalso. destruct (Z.eq_dec y 0) as [E0|N]; [rewrite E0 in K; change (day0 0) with 0 in K; lia|].
    pose proof (year_ok (y - 1) ltac:(lia)) as (_ & Q & _). assert (EE : year_end (y - 1) = day0 y) by (unfold year_end; destruct (Z.eqb_spec (y - 1) 399); [lia|f_equal; lia]). rewrite EE in Q.
    pose proof (year_end_bounds y Y). pose proof (year_of_mono doe (day0 y - 1) ltac:(lia) ltac:(lia) ltac:(lia)). lia.
  - destruct (Z_lt_le_dec doe (year_end y)) as [K|K]; [exact K|]. exfalso. unfold year_end in K. destruct (Z.eqb_spec y 399); [lia|].
    pose proof (year_ok (y + 1) ltac:(lia)) as (Q & _ & _). pose proof (year_end_bounds (y + 1) ltac:(lia)). pose proof (year_of_mono (day0 (y + 1)) doe ltac:(lia) ltac:(lia) ltac:(lia)). lia.
Qed.
Lemma year_unique : forall doe y, 0 <= y < 400 -> day0 y <= doe < year_end y -> year_of doe / 365 = y.
Proof.
  intros doe y Y H. pose proof (year_end_bounds y Y) as B. destruct (year_split doe ltac:(lia)) as [Y' H']. set (y' := year_of doe / 365) in *.
  assert (forall a b, 0 <= a < 400 -> 0 <= b < 400 -> a < b -> year_end a <= day0 b).
  { intros a b A1 B1 L. unfold year_end. destruct (Z.eqb_spec a 399); [lia|]. apply day0_mono; lia. }
  destruct (Z.lt_trichotomy y' y) as [L|[L|L]]; [specialize (H0 y' y); lia|exact L|specialize (H0 y y'); lia].
Qed.

(** Days of such a year. *)
Definition civil_in (y doy : Z) : Z * Z * Z :=
  let mp := (5 * doy + 2) / 153 in let d := doy - (153 * mp + 2) / 5 + 1 in let m := if mp <? 10 then mp + 3 else mp - 9 in
  (y + (if m <=? 2 then 1 else 0), m, d).
Lemma civil_split : forall doe y, 0 <= y < 400 -> day0 y <= doe < year_end y -> civil doe = civil_in y (doe - day0 y).
Proof. intros doe y Y H. unfold civil. fold (year_of doe). rewrite (year_unique doe y Y H). reflexivity. Qed.
Definition mdays (b m : Z) : Z := if m =? 2 then 28 + b else if (m =? 4) || (m =? 6) || (m =? 9) || (m =? 11) then 30 else 31.
Lemma month_mdays : forall y r m, (m = 2 -> r = 1) -> month_days (y + r) m = mdays (extra y) m.
Proof. intros y r m H. unfold month_days, mdays, extra. destruct (Z.eqb_spec m 2) as [E|N]; [|reflexivity]. rewrite (H E). destruct (leap (y + 1)); reflexivity. Qed.
Definition check_doy (b doy : Z) : bool :=
  if 365 + b <=? doy then true
  else
    let mp := (5 * doy + 2) / 153 in
    let '(r, m, d) := civil_in 0 doy in
    (0 <=? mp) && (mp <? 12) && (1 <=? m) && (m <=? 12) && (1 <=? d) && (d <=? mdays b m) && (r =? (if m <=? 2 then 1 else 0)) &&
    ((153 * (if 2 <? m then m - 3 else m + 9) + 2) / 5 + d - 1 =? doy) &&
    eqb3 (if d <? mdays b m then (r, m, d + 1) else if m <? 12 then (r, m + 1, 1) else (r + 1, 1, 1)) (if doy + 1 <? 365 + b then civil_in 0 (doy + 1) else (1, 3, 1)).
Lemma doys_checked : check_range (check_doy 0) 0 9 && check_range (check_doy 1) 0 9 = true.
Proof. vm_compute. reflexivity. Qed.
Lemma extra_cases : forall y, extra y = 0 \/ extra y = 1.
Proof. intros y. unfold extra. destruct (leap (y + 1)); auto. Qed.
Lemma doy_ok : forall y doy, 0 <= doy < 365 + extra y -> check_doy (extra y) doy = true.
Proof.
  intros y doy H. pose proof doys_checked as C. apply andb_true_iff in C as [C0 C1].
  destruct (extra_cases y) as [E|E]; rewrite E in *; [apply (check_range_ok _ _ _ C0)|apply (check_range_ok _ _ _ C1)]; change (2 ^ Z.of_nat 9) with 512; lia.
Qed.
Lemma civil_in_shift : forall y doy, civil_in y doy = let '(r, m, d) := civil_in 0 doy in (y + r, m, d).
Proof. reflexivity. Qed.
Lemma doe_ok : forall doe, 0 <= doe < 146097 -> check_doe doe = true.
Proof.
  intros doe H. unfold check_doe. rewrite (proj2 (Z.leb_gt 146097 doe)) by lia. fold (year_of doe).
  destruct (year_split doe H) as [Y B]. set (y := year_of doe / 365) in *. cbv zeta. rewrite (civil_split doe y Y B). fold (day0 y).
  pose proof (year_ok y Y) as (_ & _ & L). set (doy := doe - day0 y) in *. assert (D : 0 <= doy < 365 + extra y) by lia.
  pose proof (doy_ok y doy D) as C. unfold check_doy in C. rewrite (proj2 (Z.leb_gt _ _)) in C by lia. cbv zeta in C.
  assert (N : (if doe =? 146096 then (400, 3, 1) else civil (doe + 1)) = (let '(r, m, d) := if doy + 1 <? 365 + extra y then civil_in 0 (doy + 1) else (1, 3, 1) in (y + r, m, d))).
  { destruct (Z.ltb_spec (doy + 1) (365 + extra y)) as [K|K].
    - destruct (Z.eqb_spec doe 146096) as [->|Q].
      + exfalso. assert (y = 399) by (vm_compute; reflexivity). unfold year_end in L. rewrite (proj2 (Z.eqb_eq y 399)) in L by assumption. lia.
      + rewrite (civil_split (doe + 1) y Y) by lia. rewrite civil_in_shift. replace (doe + 1 - day0 y) with (doy + 1) by lia. reflexivity.
    - destruct (Z.eqb_spec doe 146096) as [->|Q].
      + assert (y = 399) as -> by (vm_compute; reflexivity). reflexivity.
      + assert (y <> 399) by (intros E; unfold year_end in L; rewrite (proj2 (Z.eqb_eq y 399)) in L by assumption; lia).
        assert (E1 : doe + 1 = day0 (y + 1)) by (unfold year_end in L; rewrite (proj2 (Z.eqb_neq y 399)) in L by assumption; lia).
        pose proof (year_end_bounds (y + 1) ltac:(lia)). rewrite (civil_split (doe + 1) (y + 1)) by lia. rewrite E1, Z.sub_diag, civil_in_shift. change (civil_in 0 0) with (0, 3, 1). cbv beta iota. f_equal. f_equal. lia. }
  rewrite N. clear N. rewrite civil_in_shift. set (mp := (5 * doy + 2) / 153) in *. destruct (civil_in 0 doy) as [ [r m] d].
  rewrite !andb_true_iff in C. destruct C as [ [ [ [ [ [ [ [C1 C2] C3] C4] C5] C6] C7] C8] C9]. apply eqb3_eq in C9. rewrite <- C9. clear C9.
  assert (MD : month_days (y + r) m = mdays (extra y) m) by (apply month_mdays; intros ->; cbn in C7; lia).
  unfold day_of, next. rewrite MD. replace (y + r - (if m <=? 2 then 1 else 0)) with y by lia.
  replace (let '(r0, m0, d0) := if d <? mdays (extra y) m then (r, m, d + 1) else if m <? 12 then (r, m + 1, 1) else (r + 1, 1, 1) in (y + r0, m0, d0))
    with (if d <? mdays (extra y) m then (y + r, m, d + 1) else if m <? 12 then (y + r, m + 1, 1) else (y + r + 1, 1, 1))
    by (destruct (d <? mdays (extra y) m); [reflexivity|]; destruct (m <? 12); [reflexivity|]; f_equal; f_equal; lia).
  assert (R : forall x, eqb3 x x = true) by (intros [ [a b] c]; unfold eqb3; rewrite !Z.eqb_refl; reflexivity). rewrite R.
  assert (EQ : y * 365 + y / 4 - y / 100 + ((153 * (if 2 <? m then m - 3 else m + 9) + 2) / 5 + d - 1) =? doe = true) by (apply Z.eqb_eq in C8; rewrite C8; unfold doy, day0; lia).
  rewrite EQ. assert (r = 0 \/ r = 1) by (destruct (m <=? 2); lia). destruct (extra_cases y); lia.
Qed.
Definition doym (m d : Z) : Z := (153 * (if 2 <? m then m - 3 else m + 9) + 2) / 5 + d - 1.
Definition check_md (b i : Z) : bool :=
  let m := i / 31 + 1 in let d := i mod 31 + 1 in
  if (m <=? 12) && (d <=? mdays b m) then (0 <=? doym m d) && (doym m d <? 365 + b) && eqb3 (civil_in 0 (doym m d)) ((if m <=? 2 then 1 else 0), m, d) else true.
Lemma mds_checked : check_range (check_md 0) 0 9 && check_range (check_md 1) 0 9 = true.
Proof. vm_compute. reflexivity. Qed.
Lemma ymd_ok : forall y m d, 1 <= m <= 12 -> 1 <= d <= month_days y m -> 0 <= y - (if m <=? 2 then 1 else 0) < 400 ->
  0 <= day_of y m d < 146097 /\ civil (day_of y m d) = (y, m, d).
Proof.
  intros y m d Hm Hd HY. set (r := if m <=? 2 then 1 else 0) in *. set (z := y - r) in *.
  assert (MD : month_days y m = mdays (extra z) m) by (replace y with (z + r) by (unfold z; lia); apply month_mdays; intros ->; reflexivity).
  assert (M31 : mdays (extra z) m <= 31) by (unfold mdays; destruct (extra_cases z) as [-> | ->]; destruct (m =? 2); try lia; destruct (_ || _); lia).
  rewrite MD in Hd.
  assert (C : check_md (extra z) ((m - 1) * 31 + (d - 1)) = true).
  { pose proof mds_checked as C. apply andb_true_iff in C as [C0 C1].
    destruct (extra_cases z) as [E|E]; rewrite E in *; [apply (check_range_ok _ _ _ C0)|apply (check_range_ok _ _ _ C1)]; change (2 ^ Z.of_nat 9) with 512; lia. }
  unfold check_md in C.
  assert (I1 : ((m - 1) * 31 + (d - 1)) / 31 = m - 1) by (symmetry; apply (Z.div_unique_pos _ _ _ (d - 1)); lia).
  assert (I2 : ((m - 1) * 31 + (d - 1)) mod 31 = d - 1) by (symmetry; apply (Z.mod_unique_pos _ _ (m - 1)); lia).
  rewrite I1, I2 in C. replace (m - 1 + 1) with m in C by lia. replace (d - 1 + 1) with d in C by lia.
  replace ((m <=? 12) && (d <=? mdays (extra z) m)) with true in C by lia. cbv zeta in C. rewrite !andb_true_iff in C. destruct C as [ [C1 C2] C3]. apply eqb3_eq in C3. fold r in C3.
  assert (DD : day_of y m d = day0 z + doym m d) by (unfold day_of, day0, doym; fold r; fold z; cbv zeta; lia).
  pose proof (year_ok z HY) as (_ & _ & L). pose proof (year_end_bounds z HY) as B. rewrite DD. split; [lia|].
  rewrite (civil_split _ z HY) by lia. replace (day0 z + doym m d - day0 z) with (doym m d) by lia. rewrite civil_in_shift, C3. f_equal. f_equal. unfold z. lia.
Qed.

Lemma leap_era : forall y k, leap (y + 400 * k) = leap y.
Proof.
  intros y k. unfold leap.
  replace ((y + 400 * k) mod 4) with (y mod 4) by (replace (400 * k) with (100 * k * 4) by lia; now rewrite Z.mod_add).
  replace ((y + 400 * k) mod 100) with (y mod 100) by (replace (400 * k) with (4 * k * 100) by lia; now rewrite Z.mod_add).
  replace ((y + 400 * k) mod 400) with (y mod 400) by (replace (400 * k) with (k * 400) by lia; now rewrite Z.mod_add). reflexivity.
Qed.
Lemma month_era : forall y k m, month_days (y + 400 * k) m = month_days y m.
Proof. intros y k m. unfold month_days. now rewrite leap_era. Qed.
Definition shift (k : Z) (x : Z * Z * Z) : Z * Z * Z := let '(y, m, d) := x in (y + 400 * k, m, d).
Lemma next_era : forall k x, next (shift k x) = shift k (next x).
Proof.
  intros k [ [y m] d]. unfold shift, next. rewrite month_era. destruct (d <? month_days y m); [reflexivity|]. destruct (m <? 12); [reflexivity|]. f_equal. f_equal. lia.
Qed.

Lemma era_floor : forall z, Z.quot (if 0 <=? z then z else z - 146096) 146097 = z / 146097.
Proof.
  intros z. destruct (Z.leb_spec 0 z); [now rewrite Z.quot_div_nonneg by lia|].
  rewrite <- (Z.opp_involutive (z - 146096)), Z.quot_opp_l by lia. rewrite Z.quot_div_nonneg by lia.
  pose proof (Z.div_mod z 146097 ltac:(lia)). pose proof (Z.mod_pos_bound z 146097 ltac:(lia)).
  enough ((- (z - 146096)) / 146097 = - (z / 146097)) by lia. symmetry. apply (Z.div_unique_pos _ _ _ (146096 - z mod 146097)); lia.
Qed.
Lemma era_floor400 : forall y, Z.quot (if 0 <=? y then y else y - 399) 400 = y / 400.
Proof.
  intros z. destruct (Z.leb_spec 0 z); [now rewrite Z.quot_div_nonneg by lia|].
  rewrite <- (Z.opp_involutive (z - 399)), Z.quot_opp_l by lia. rewrite Z.quot_div_nonneg by lia.
  pose proof (Z.div_mod z 400 ltac:(lia)). pose proof (Z.mod_pos_bound z 400 ltac:(lia)).
  enough ((- (z - 399)) / 400 = - (z / 400)) by lia. symmetry. apply (Z.div_unique_pos _ _ _ (399 - z mod 400)); lia.
Qed.
(** The date before the year is cut off to 16 bits. *)
Definition date (dp : Z) : Z * Z * Z := let p := dp + 719468 in shift (p / 146097) (civil (p mod 146097)).
Lemma from_days_date : forall dp, from_days dp = let '(y, m, d) := date dp in (u16 y, m, d).
Proof.
  intros dp. unfold from_days, date. set (p := dp + 719468). rewrite era_floor. pose proof (Z.div_mod p 146097 ltac:(lia)) as E. pose proof (Z.mod_pos_bound p 146097 ltac:(lia)) as B.
  replace (p - p / 146097 * 146097) with (p mod 146097) by lia. generalize dependent (p mod 146097). intros doe _ B.
  pose proof (doe_ok doe B) as C. unfold check_doe in C. rewrite (proj2 (Z.leb_gt 146097 doe)) in C by lia. unfold civil in *.
  replace (u32 doe) with doe by (symmetry; apply Z.mod_small; lia).
  assert (Y : u32 (doe - doe / 1460 + doe / 36524 - doe / 146096) = doe - doe / 1460 + doe / 36524 - doe / 146096).
  { apply Z.mod_small. pose proof (Z.div_le_upper_bound doe 1460 doe ltac:(lia)). pose proof (Z.div_pos doe 36524). pose proof (Z.div_pos doe 1460). pose proof (Z.div_pos doe 146096). pose proof (Z.div_le_upper_bound doe 36524 4 ltac:(lia)).
    assert (doe / 146096 <= doe / 36524) by (apply Z.div_le_compat_l; lia). lia. }
  rewrite Y. set (yoe := (doe - doe / 1460 + doe / 36524 - doe / 146096) / 365) in *.
  set (doy := doe - (365 * yoe + yoe / 4 - yoe / 100)) in *.
  assert (D : u32 doy = doy) by (apply Z.mod_small; lia). rewrite D.
  assert (M : u32 (5 * doy + 2) = 5 * doy + 2) by (apply Z.mod_small; lia). rewrite M. set (mp := (5 * doy + 2) / 153) in *.
  assert (M2 : u32 (153 * mp + 2) = 153 * mp + 2) by (apply Z.mod_small; lia). rewrite M2.
  set (d := doy - (153 * mp + 2) / 5 + 1) in *. set (m := if mp <? 10 then mp + 3 else mp - 9) in *.
  assert (MD : month_days (yoe + (if m <=? 2 then 1 else 0)) m <= 31) by (unfold month_days; destruct (m =? 2); [destruct (leap _); lia|destruct (_ || _); lia]).
  assert (Q1 : u32 d = d) by (apply Z.mod_small; lia). rewrite Q1. assert (Q2 : u8 d = d) by (apply Z.mod_small; lia). rewrite Q2.
  assert (Q3 : u8 m = m) by (apply Z.mod_small; lia). rewrite Q3. cbn [shift]. f_equal. f_equal. f_equal. lia.
Qed.
Lemma to_days_eq : forall y m d, 0 <= m <= 255 -> 0 <= d <= 255 -> 1 <= m <= 12 -> 1 <= d ->
  to_days y m d = let q := (y - (if m <=? 2 then 1 else 0)) / 400 in q * 146097 + day_of (y - 400 * q) m d - 719468.
Proof.
  intros y m d Hm Hd M1 D1. unfold to_days, day_of. rewrite era_floor400. set (y' := y - (if m <=? 2 then 1 else 0)). pose proof (Z.div_mod y' 400 ltac:(lia)) as E. pose proof (Z.mod_pos_bound y' 400 ltac:(lia)) as B.
  replace (y' - y' / 400 * 400) with (y' mod 400) by lia. replace (y - 400 * (y' / 400) - (if m <=? 2 then 1 else 0)) with (y' mod 400) by (unfold y' in *; lia).
  generalize dependent (y' mod 400). intros yoe _ B. replace (u32 yoe) with yoe by (symmetry; apply Z.mod_small; lia). set (mm := if 2 <? m then m - 3 else m + 9). assert (MM : 0 <= mm <= 12) by (unfold mm; destruct (Z.ltb_spec 2 m); lia).
  assert (Q : u32 (153 * mm + 2) = 153 * mm + 2) by (apply Z.mod_small; lia). rewrite Q.
  assert (Q5 : 0 <= (153 * mm + 2) / 5 <= 400) by (split; [apply Z.div_pos; lia|apply Z.div_le_upper_bound; lia]).
  assert (Q2 : u32 ((153 * mm + 2) / 5 + d - 1) = (153 * mm + 2) / 5 + d - 1) by (apply Z.mod_small; lia). rewrite Q2.
  assert (Q3 : 0 <= yoe / 4 <= 100) by (split; [apply Z.div_pos; lia|apply Z.div_le_upper_bound; lia]). assert (Q4 : 0 <= yoe / 100 <= 4) by (split; [apply Z.div_pos; lia|apply Z.div_le_upper_bound; lia]).
  assert (Q6 : u32 (yoe * 365 + yoe / 4 - yoe / 100 + ((153 * mm + 2) / 5 + d - 1)) = yoe * 365 + yoe / 4 - yoe / 100 + ((153 * mm + 2) / 5 + d - 1)) by (apply Z.mod_small; lia).
  rewrite Q6. reflexivity.
Qed.

Lemma date_valid : forall z, valid (date z).
Proof.
  intros z. unfold date. set (p := z + 719468). pose proof (doe_ok _ (Z.mod_pos_bound p 146097 ltac:(lia))) as C. pose proof (Z.mod_pos_bound p 146097 ltac:(lia)) as B. unfold check_doe in C. rewrite (proj2 (Z.leb_gt 146097 _)) in C by lia.
  destruct (civil (p mod 146097)) as [ [y m] d]. unfold shift, valid. rewrite month_era. lia.
Qed.
Lemma date_next : forall z, date (z + 1) = next (date z).
Proof.
  intros z. unfold date. replace (z + 1 + 719468) with (z + 719468 + 1) by lia. set (p := z + 719468). rewrite next_era. pose proof (Z.mod_pos_bound p 146097 ltac:(lia)) as B. pose proof (doe_ok _ B) as C. pose proof (Z.div_mod p 146097 ltac:(lia)) as E.
  unfold check_doe in C. rewrite (proj2 (Z.leb_gt 146097 _)) in C by lia. destruct (civil (p mod 146097)) as [ [y m] d] eqn:CV.
  assert (N : next (y, m, d) = if p mod 146097 =? 146096 then (400, 3, 1) else civil (p mod 146097 + 1)) by (apply eqb3_eq; lia). rewrite N. clear C N CV.
  destruct (Z.eqb_spec (p mod 146097) 146096) as [Q|Q].
  - assert (R : (p + 1) / 146097 = p / 146097 + 1) by (symmetry; apply (Z.div_unique_pos _ _ _ 0); lia). assert (R2 : (p + 1) mod 146097 = 0) by (symmetry; apply (Z.mod_unique_pos _ _ (p / 146097 + 1)); lia).
    rewrite R, R2. change (civil 0) with (0, 3, 1). unfold shift. f_equal. f_equal. lia.
  - assert (R : (p + 1) / 146097 = p / 146097) by (symmetry; apply (Z.div_unique_pos _ _ _ (p mod 146097 + 1)); lia). assert (R2 : (p + 1) mod 146097 = p mod 146097 + 1) by (symmetry; apply (Z.mod_unique_pos _ _ (p / 146097)); lia).
    now rewrite R, R2.
Qed.
Lemma to_days_date : forall z y m d, date z = (y, m, d) -> to_days y m d = z.
Proof.
  intros z y m d H. pose proof (date_valid z) as V. rewrite H in V. assert (MD : month_days y m <= 31) by (unfold month_days; destruct (m =? 2); [destruct (leap _); lia|destruct (_ || _); lia]). unfold valid in V.
  rewrite to_days_eq by lia. unfold date in H. set (p := z + 719468) in *. pose proof (Z.mod_pos_bound p 146097 ltac:(lia)) as B. pose proof (doe_ok _ B) as C. pose proof (Z.div_mod p 146097 ltac:(lia)) as E.
  unfold check_doe in C. rewrite (proj2 (Z.leb_gt 146097 _)) in C by lia. cbn zeta in C. set (yoe := (p mod 146097 - p mod 146097 / 1460 + p mod 146097 / 36524 - p mod 146097 / 146096) / 365) in C. generalize dependent yoe. intros yoe C.
  destruct (civil (p mod 146097)) as [ [y0 m0] d0]. unfold shift in H. assert (H1 : y0 + 400 * (p / 146097) = y) by congruence. assert (m0 = m) by congruence. assert (d0 = d) by congruence. subst m0 d0. cbn zeta.
  assert (Q : (y - (if m <=? 2 then 1 else 0)) / 400 = p / 146097).
  { symmetry. apply (Z.div_unique_pos _ _ _ (y0 - (if m <=? 2 then 1 else 0))). all: lia. }
  rewrite Q. replace (y - 400 * (p / 146097)) with y0 by lia. lia.
Qed.
Lemma date_to_days : forall y m d, valid (y, m, d) -> date (to_days y m d) = (y, m, d).
Proof.
  intros y m d V. assert (MD : month_days y m <= 31) by (unfold month_days; destruct (m =? 2); [destruct (leap _); lia|destruct (_ || _); lia]). unfold valid in V. rewrite to_days_eq by lia. cbn zeta.
  set (y' := y - (if m <=? 2 then 1 else 0)). set (q := y' / 400). pose proof (Z.div_mod y' 400 ltac:(lia)) as E. pose proof (Z.mod_pos_bound y' 400 ltac:(lia)) as B. set (y0 := y - 400 * q).
  assert (Y0 : y0 - (if m <=? 2 then 1 else 0) = y' mod 400) by (unfold y0, q, y' in *; lia).
  assert (R : 0 <= y0 <= 400) by (destruct (m <=? 2); lia).
  assert (ME : month_days y0 m = month_days y m). { replace y with (y0 + 400 * q) by (unfold y0; lia). now rewrite month_era. }
  destruct (ymd_ok y0 m d) as [DB CV]; [lia|lia|lia|].
  unfold date. replace (q * 146097 + day_of y0 m d - 719468 + 719468) with (q * 146097 + day_of y0 m d) by lia.
  assert (R1 : (q * 146097 + day_of y0 m d) / 146097 = q) by (symmetry; apply (Z.div_unique_pos _ _ _ (day_of y0 m d)); lia).
  assert (R2 : (q * 146097 + day_of y0 m d) mod 146097 = day_of y0 m d) by (symmetry; apply (Z.mod_unique_pos _ _ q); lia).
  rewrite R1, R2, CV. unfold shift. f_equal. f_equal. unfold y0. lia.
Qed.
(** Days of years from 0 to 65535. *)
Definition first_day : Z := -719528.
Definition last_day : Z := 23217002.
Lemma date_mono : forall z n y m d, date z = (y, m, d) -> exists y' m' d', date (z + Z.of_nat n) = (y', m', d') /\ y <= y'.
Proof.
  intros z n y m d H. induction n as [|n IH]; [exists y, m, d; split; [now rewrite Z.add_0_r|lia]|]. destruct IH as (y' & m' & d' & E & L). rewrite Nat2Z.inj_succ. replace (z + Z.succ (Z.of_nat n)) with (z + Z.of_nat n + 1) by lia.
  rewrite date_next, E. unfold next. destruct (d' <? month_days y' m'); [|destruct (m' <? 12)]; eexists _, _, _; (split; [reflexivity|lia]).
Qed.
Lemma date_years : forall z y m d, first_day <= z <= last_day -> date z = (y, m, d) -> 0 <= y <= 65535.
Proof.
  intros z y m d H E. split.
  - destruct (date_mono first_day (Z.to_nat (z - first_day)) 0 1 1 eq_refl) as (y' & m' & d' & E' & L). replace (first_day + Z.of_nat (Z.to_nat (z - first_day))) with z in E' by lia. rewrite E in E'. injection E' as -> -> ->. exact L.
  - destruct (date_mono z (Z.to_nat (last_day - z)) y m d E) as (y' & m' & d' & E' & L). replace (z + Z.of_nat (Z.to_nat (last_day - z))) with last_day in E' by lia. vm_compute in E'. injection E' as <- _ _. exact L.
Qed.
Lemma from_days_exact : forall z, first_day <= z <= last_day -> from_days z = date z.
Proof.
  intros z H. rewrite from_days_date. destruct (date z) as [ [y m] d] eqn:E. pose proof (date_years z y m d H E). f_equal. f_equal. apply Z.mod_small. lia.
Qed.
