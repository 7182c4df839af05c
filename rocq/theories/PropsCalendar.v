(** C60: times are written and read by the Gregorian calendar. *)
From Coq Require Import String Ascii List ZArith NArith Bool Arith Lia.
From Coq Require Import ZifyBool ZifyNat ZifyN.
From Coq Require Import Floats.SpecFloat.
From Coq Require Import Init.Datatypes.
From Verif Require Import EscapeModel AddressModel DataModel LiteralModel LiteralProofs CalendarModel CalendarProofs CalendarTextProofs FloatProofs.
Import ListNotations.
Open Scope Z_scope.

(** The calendar is [next] (CalendarProofs.v), which says what day comes after a day, and the
    1st of January 1970 as day 0. *)
Definition epoch : Z * Z * Z := (1970, 1, 1).
Definition after (n : nat) (x : Z * Z * Z) : Z * Z * Z := Nat.iter n next x.

(** * Days and dates *)

Lemma date_after : forall n z, date (z + Z.of_nat n) = after n (date z).
Proof.
  induction n as [|n IH]; intros z; [now rewrite Z.add_0_r|]. rewrite Nat2Z.inj_succ. replace (z + Z.succ (Z.of_nat n)) with (z + Z.of_nat n + 1) by lia. rewrite date_next, IH. reflexivity.
Qed.
Lemma date_epoch : date 0 = epoch.
Proof. reflexivity. Qed.
(** The printer's date of a day is found by counting days from the epoch, forwards and backwards,
    for all days of the years 0 to 65535. *)
Theorem C60_forwards : forall n, Z.of_nat n <= last_day -> from_days (Z.of_nat n) = after n epoch.
Proof. intros n H. rewrite from_days_exact by (unfold first_day; lia). rewrite <- date_epoch, <- date_after. f_equal. Qed.
Theorem C60_backwards : forall n, first_day <= - Z.of_nat n -> after n (from_days (- Z.of_nat n)) = epoch /\ valid (from_days (- Z.of_nat n)).
Proof. intros n H. rewrite from_days_exact by (unfold last_day; lia). split; [rewrite <- date_after, <- date_epoch; f_equal; lia|apply date_valid]. Qed.
(** The parser's number of a day is the inverse of it. *)
Theorem C60_days : forall z, first_day <= z <= last_day -> let '(y, m, d) := from_days z in to_days y m d = z.
Proof. intros z H. rewrite from_days_exact by exact H. destruct (date z) as [ [y m] d] eqn:E. now apply to_days_date. Qed.
Theorem C60_dates : forall y m d, 0 <= y <= 65535 -> valid (y, m, d) -> from_days (to_days y m d) = (y, m, d).
Proof. intros y m d Y V. rewrite from_days_date, date_to_days by exact V. f_equal. f_equal. apply Z.mod_small. lia. Qed.

(** * Texts *)

(** The text of a time: the date of its day, and the time of the day with as many decimals as it
    needs, in threes. *)
Theorem C60_text : forall now pton ntop n t, 0 <= t < ns_day -> Z.of_nat n * ns_day + t < 2 ^ 63 ->
  exists y m d, after n epoch = (y, m, d) /\ show (ieee now pton ntop) (DTime (Z.of_nat n * ns_day + t)) =
    Some (pad 4 y ++ chars "-" ++ pad 2 m ++ chars "-" ++ pad 2 d ++ chars "T" ++ pad 2 (t / 3600000000000) ++ chars ":" ++ pad 2 (t / 60000000000 mod 60) ++ chars ":" ++ pad 2 (t / 1000000000 mod 60) ++
          match decimals (t mod 1000000000) with [] => [] | ds => 46%N :: ds end).
Proof.
  intros now pton ntop n t H1 H2. set (tp := Z.of_nat n * ns_day + t). assert (P : printable tp) by (unfold printable, tp, ns_day in *; lia).
  assert (Q1 : tp / ns_day = Z.of_nat n) by (symmetry; apply (Z.div_unique_pos _ _ _ t); unfold tp; lia). assert (Q2 : tp mod ns_day = t) by (symmetry; apply (Z.mod_unique_pos _ _ (Z.of_nat n)); unfold tp; lia).
  destruct (show_split tp P) as (y & m & d & D & _ & X). rewrite Q1 in D. rewrite Q2 in X. exists y, m, d. split; [rewrite <- date_epoch, <- date_after; exact D|]. cbn [show ieee a_show_time]. rewrite X. cbn zeta. unfold stamp, sec_text, hour_of, min_of, sec_of, sub_of. destruct (decimals (t mod 1000000000)); reflexivity.
Qed.

(** From 1900 on, the text of a time is read back as that time or the nanosecond before. The
    printable times are those whose day starts within the range of 64 bits. *)
Definition since_1900 (tp : Z) : Prop := -2208988800 * 1000000000 <= tp < 2 ^ 63.
Lemma near_reads : forall now pton ntop tp r, since_1900 tp -> follow r = true ->
  exists x t, show_time tp = Some x /\ time_p (ieee now pton ntop) (x ++ r) = Ok t r /\ tp - 1 <= t <= tp.
Proof.
  intros now pton ntop tp r P2 F. assert (P : printable tp) by (unfold since_1900, printable, ns_day in *; lia). unfold since_1900 in P2. destruct (show_split tp P) as (y & m & d & D & Y & X). rewrite X. cbn zeta. set (t := tp mod ns_day).
  pose proof (Z.mod_pos_bound tp ns_day ltac:(unfold ns_day; lia)) as B. fold t in B. pose proof (Z.div_mod tp ns_day ltac:(unfold ns_day; lia)) as E. fold t in E. destruct (split_time t B) as (H1 & H2 & H3 & H4 & HT).
  pose proof (date_valid (tp / ns_day)) as V. rewrite D in V. unfold valid in V. pose proof (month_le y m).
  assert (Y2 : 1900 <= y).
  { assert (DB : -25567 <= tp / ns_day) by (unfold ns_day in *; lia). destruct (date_mono (-25567) (Z.to_nat (tp / ns_day - -25567)) 1900 1 1 ltac:(vm_compute; reflexivity)) as (y' & m' & d' & E' & L).
    replace (-25567 + Z.of_nat (Z.to_nat (tp / ns_day - -25567))) with (tp / ns_day) in E' by lia. rewrite D in E'. injection E' as -> -> ->. exact L. }
  destruct (decimals_spec (sub_of t) H4) as (D1 & D2 & D3). destruct (pad_spec 2 (sec_of t) ltac:(lia) ltac:(cbn; lia)) as (PL & PN & PD).
  destruct (near_day (hour_of t * 60 + min_of t) (sec_of t) (decimals (sub_of t)) ltac:(lia) H3 PN PD PL D1 D2) as [K1 K2]. rewrite D3 in K2.
  eexists _, _. split; [reflexivity|]. split.
  - apply stamp_time. apply stamp_reads; try assumption; try lia.
    + apply follow_stops; [exact F|reflexivity].
    + apply follow_stops; [exact F|reflexivity].
    + now apply follow_zone.
  - cbn [ieee a_time]. unfold make_time. rewrite Z.sub_0_r.
    replace (u16 y) with y by (symmetry; apply Z.mod_small; lia). replace (u8 m) with m by (symmetry; apply Z.mod_small; lia). replace (u8 d) with d by (symmetry; apply Z.mod_small; lia). rewrite (to_days_date _ _ _ _ D). lia.
Qed.
Lemma data_time : forall A n s t r, time_p A s = Ok t r -> data_p A (S n) s = Ok (DTime t) r.
Proof. intros A n s t r H. cbn [data_p]. rewrite any_cons. apply alt_ok. now apply act_ok. Qed.
Theorem C60_near : forall now pton ntop tp r n, since_1900 tp -> follow r = true ->
  exists x t, show (ieee now pton ntop) (DTime tp) = Some x /\ data_p (ieee now pton ntop) (S n) (x ++ r) = Ok (DTime t) r /\ tp - 1 <= t <= tp.
Proof.
  intros now pton ntop tp r n P F. destruct (near_reads now pton ntop tp r P F) as (x & t & S1 & S2 & S3). exists x, t. split; [cbn [show ieee a_show_time]; now rewrite S1|]. split; [now apply data_time|exact S3].
Qed.
(** Whole seconds are read back exactly. *)
Theorem C60_whole : forall now pton ntop tp r n, since_1900 tp -> tp mod 1000000000 = 0 -> follow r = true ->
  exists x, show (ieee now pton ntop) (DTime tp) = Some x /\ data_p (ieee now pton ntop) (S n) (x ++ r) = Ok (DTime tp) r.
Proof.
  intros now pton ntop tp r n P W F. assert (P2 : printable tp) by (unfold since_1900, printable, ns_day in *; lia). unfold since_1900 in P. destruct (whole_reads now pton ntop tp r P2 ltac:(lia) W F) as (x & S1 & S2).
  exists x. split; [cbn [show ieee a_show_time]; now rewrite S1|]. now apply data_time.
Qed.
(** Two times never have the same text. *)
Theorem C60_different : forall a b x, printable a -> printable b -> show_time a = Some x -> show_time b = Some x -> a = b.
Proof. exact show_inj. Qed.

(** A leap day, the end of a century without one, and a time with decimals. *)
Example C60_example : from_days 19782 = (2024, 2, 29) /\ after 1 (2024, 2, 29) = (2024, 3, 1) /\ from_days (-25509) = (1900, 2, 28) /\ after 1 (1900, 2, 28) = (1900, 3, 1) /\
  show_time 1709164800000000000 = Some (chars "2024-02-29T00:00:00") /\ show_time 1709164861000250000 = Some (chars "2024-02-29T00:01:01.000250") /\
  since_1900 1709164800000000000 /\ 1709164800000000000 mod 1000000000 = 0 /\ printable 1709164861000250000 /\ valid (2024, 2, 29).
Proof. repeat split; try discriminate; vm_compute; reflexivity. Qed.

(** * Reals *)

(** The digits behind the point of a real number with [max] decimals. *)
Definition decimals (max : nat) (right : Z) : text := lead max right ++ digits (Z.to_N (chop 20 right)).
Lemma chop_spec : forall n x, 0 < x -> exists k, x = chop n x * 10 ^ Z.of_nat k /\ 0 < chop n x.
Proof.
  induction n as [|n IH]; intros x Hx; cbn [chop]; [exists 0%nat; cbn; lia|]. destruct (0 <? x) eqn:E; [|lia]. cbn [andb]. destruct (x mod 10 =? 0) eqn:M; [|exists 0%nat; cbn; lia].
  assert (x = 10 * (x / 10)) by (apply Z.div_exact; lia). destruct (IH (x / 10)) as (k & H1 & H2); [lia|]. exists (S k). split; [|exact H2]. rewrite Nat2Z.inj_succ, Z.pow_succ_r by lia. lia.
Qed.
Lemma lead_zeros : forall max D r, 10 ^ Z.of_nat D <= r < 10 ^ Z.of_nat (S D) -> (S D <= max)%nat -> lead max r = repeat 48%N (max - S D).
Proof.
  intros max D r H L. unfold lead. assert (0 < 10 ^ Z.of_nat D) by (apply Z.pow_pos_nonneg; lia). destruct (r =? 0) eqn:E; [lia|].
  replace (seq 1 max) with (seq 1 (max - S D) ++ seq (1 + (max - S D)) (S D)) by (rewrite <- seq_app; f_equal; lia). rewrite flat_map_app.
  assert (A : forall n s, (s + n <= 1 + (max - S D))%nat -> flat_map (fun i => if r <? 10 ^ (Z.of_nat max - Z.of_nat i) then [48%N] else []) (seq s n) = repeat 48%N n).
  { induction n as [|n IH]; intros s Hs; [reflexivity|]. cbn [seq flat_map repeat]. rewrite IH by lia. assert (10 ^ Z.of_nat (S D) <= 10 ^ (Z.of_nat max - Z.of_nat s)) by (apply Z.pow_le_mono_r; lia). destruct (r <? _) eqn:Q; [reflexivity|lia]. }
  assert (B : forall n s, (max - D <= s)%nat -> flat_map (fun i => if r <? 10 ^ (Z.of_nat max - Z.of_nat i) then [48%N] else []) (seq s n) = []).
  { induction n as [|n IH]; intros s Hs; [reflexivity|]. cbn [seq flat_map]. rewrite IH by lia. destruct (r <? _) eqn:Q; [|reflexivity]. exfalso.
    destruct (Z.lt_ge_cases (Z.of_nat max - Z.of_nat s) 0) as [Neg|Pos]; [rewrite Z.pow_neg_r in Q by lia; lia|]. assert (10 ^ (Z.of_nat max - Z.of_nat s) <= 10 ^ Z.of_nat D) by (apply Z.pow_le_mono_r; lia). lia. }
  rewrite A, B, app_nil_r by lia. reflexivity.
Qed.
Lemma num_zeros : forall k ds, num (repeat 48%N k ++ ds) = num ds.
Proof.
  intros k ds. rewrite num_app. unfold num. f_equal. induction k as [|k IH]; [reflexivity|]. cbn [repeat fold_left]. exact IH.
Qed.
Lemma magnitude : forall x, 0 < x -> forall m, x < 10 ^ Z.of_nat m -> exists D, 10 ^ Z.of_nat D <= x < 10 ^ Z.of_nat (S D) /\ (S D <= m)%nat.
Proof.
  intros x Hx. induction m as [|m IH]; intros H; [cbn in H; lia|]. destruct (Z.lt_ge_cases x (10 ^ Z.of_nat m)) as [L|G]; [|exists m; split; [split; assumption|lia] ].
  destruct (IH L) as (D & H1 & H2). exists D. split; [exact H1|lia].
Qed.
Lemma digits_length : forall x D, 10 ^ Z.of_nat D <= x < 10 ^ Z.of_nat (S D) -> (S D <= 20)%nat -> num (digits (Z.to_N x)) = Z.to_N x /\ length (digits (Z.to_N x)) = S D.
Proof.
  intros x D H L. assert (0 < 10 ^ Z.of_nat D) by (apply Z.pow_pos_nonneg; lia). assert (P : forall n, Z.of_N (10 ^ N.of_nat n) = 10 ^ Z.of_nat n) by (intros n; rewrite N2Z.inj_pow; f_equal; lia).
  assert (U : (Z.to_N x < 10 ^ N.of_nat (S D))%N) by (specialize (P (S D)); lia).
  assert (T : (Z.to_N x < 10 ^ 20)%N). { eapply N.lt_le_trans; [exact U|]. apply N.pow_le_mono_r; lia. }
  destruct (digits_spec _ T) as (S1 & S2 & S3). split; [exact S1|]. pose proof (digits_len _ (S D) U ltac:(lia)) as Up. pose proof (num_bound _ S2) as Lo. rewrite S1 in Lo.
  assert (~ (length (digits (Z.to_N x)) <= D)%nat); [|lia]. intros Y. assert ((10 ^ N.of_nat (length (digits (Z.to_N x))) <= 10 ^ N.of_nat D)%N) by (apply N.pow_le_mono_r; lia). specialize (P D). lia.
Qed.
Lemma decimals_value : forall max right, (1 <= max <= 20)%nat -> 0 <= right < 10 ^ Z.of_nat max ->
  Z.of_N (num (decimals max right)) * 10 ^ Z.of_nat max = right * 10 ^ Z.of_nat (length (decimals max right)).
Proof.
  intros max right M R. destruct (Z.eq_dec right 0) as [->|NZ]; [reflexivity|]. destruct (magnitude right ltac:(lia) max ltac:(lia)) as (D & HD & LD).
  unfold decimals. rewrite (lead_zeros max D) by assumption. rewrite num_zeros, app_length, repeat_length.
  destruct (chop_spec 20 right ltac:(lia)) as (k & Hk & Hc). set (c := chop 20 right) in *.
  assert (KD : (k <= D)%nat). { destruct (Nat.le_gt_cases k D) as [X|X]; [exact X|]. exfalso. assert (10 ^ Z.of_nat (S D) <= 10 ^ Z.of_nat k) by (apply Z.pow_le_mono_r; lia). nia. }
  assert (PK : 0 < 10 ^ Z.of_nat k) by (apply Z.pow_pos_nonneg; lia).
  assert (Hcd : 10 ^ Z.of_nat (D - k) <= c < 10 ^ Z.of_nat (S (D - k))).
  { assert (E1 : 10 ^ Z.of_nat D = 10 ^ Z.of_nat (D - k) * 10 ^ Z.of_nat k) by (rewrite <- Z.pow_add_r by lia; f_equal; lia). assert (E2 : 10 ^ Z.of_nat (S D) = 10 ^ Z.of_nat (S (D - k)) * 10 ^ Z.of_nat k) by (rewrite <- Z.pow_add_r by lia; f_equal; lia). nia. }
  destruct (digits_length c (D - k) Hcd ltac:(lia)) as [N1 N2]. rewrite N1, N2, Z2N.id by lia. rewrite Hk.
  replace (Z.of_nat max) with (Z.of_nat k + Z.of_nat (max - S D + S (D - k))) by lia. rewrite Z.pow_add_r by lia. ring.
Qed.
(** Unless it rounds up to a whole, the decimals that are printed for a real number denote the
    rounded fraction: zeros in front of them are kept, and those at the end are left out. *)
Theorem C60_decimals : forall max x, (1 <= max <= 20)%nat -> dlt x (of_Z 0) = false ->
  let right := nearest (dmul (fst (modf x)) (of_Z (10 ^ Z.of_nat max))) in 0 <= right < 10 ^ Z.of_nat max ->
  exists f, show_real max x = digits (Z.to_N (trunc x)) ++ chr "." :: f /\ Z.of_N (num f) * 10 ^ Z.of_nat max = right * 10 ^ Z.of_nat (length f).
Proof. intros max x M H right R. exists (decimals max right). split; [unfold show_real; rewrite H; reflexivity|now apply decimals_value]. Qed.
(** One and five hundredths. *)
Example C60_decimals_example : show_real 10 (ddiv (of_Z 21) (of_Z 20)) = chars "1.05" /\ nearest (dmul (fst (modf (ddiv (of_Z 21) (of_Z 20)))) (of_Z (10 ^ 10))) = 500000000.
Proof. split; vm_compute; reflexivity. Qed.

(** * What is not so *)

(** The nanosecond is lost: a time of whole milliseconds is read one nanosecond early. *)
Theorem C60_exact_refuted : exists tp t x, since_1900 tp /\ tp mod 1000000 = 0 /\ t = tp - 1 /\ forall now pton ntop,
  show (ieee now pton ntop) (DTime tp) = Some x /\ data_p (ieee now pton ntop) 1 x = Ok (DTime t) [].
Proof.
  exists 1637087300173000000, 1637087300172999999, (chars "2021-11-16T18:28:20.173"). split; [split; [discriminate|reflexivity]|]. split; [reflexivity|]. split; [reflexivity|].
  intros now pton ntop. split; vm_compute; reflexivity.
Qed.
(** Days that do not exist are read as others: the 31st of February as the 3rd of March. *)
Theorem C60_invalid_refuted : exists x y t, x <> y /\ ~ valid (2021, 2, 31) /\ forall now pton ntop,
  data_p (ieee now pton ntop) 1 x = Ok (DTime t) [] /\ data_p (ieee now pton ntop) 1 y = Ok (DTime t) [].
Proof.
  exists (chars "2021-02-31"), (chars "2021-03-03"), 1614729600000000000. split; [discriminate|]. split; [intros [_ [_ H] ]; vm_compute in H; now apply H|]. intros now pton ntop. split; vm_compute; reflexivity.
Qed.
(** Times before 1900 are printed but not read as times. *)
Theorem C60_before_refuted : exists tp x, printable tp /\ forall now pton ntop, show (ieee now pton ntop) (DTime tp) = Some x /\ forall t r, data_p (ieee now pton ntop) 3 x <> Ok (DTime t) r.
Proof.
  exists (-2208988801 * 1000000000), (chars "1899-12-31T23:59:59"). split; [split; [discriminate|reflexivity]|]. intros now pton ntop. split; [vm_compute; reflexivity|]. intros t r.
  assert (E : exists d r', data_p (ieee now pton ntop) 3 (chars "1899-12-31T23:59:59") = Ok d r' /\ forall t, d <> DTime t) by (eexists _, _; split; [vm_compute; reflexivity|discriminate]).
  destruct E as (d & r' & E & Nt). rewrite E. intros H. injection H as -> _. exact (Nt t eq_refl).
Qed.
(** Dates up to the year 9999 are read, but 64 bits of nanoseconds end in 2262. *)
Theorem C60_far_refuted : exists x t, (t <? 2 ^ 63) = false /\ forall now pton ntop, data_p (ieee now pton ntop) 1 x = Ok (DTime t) [].
Proof. exists (chars "2263-01-01"), 9246182400000000000. split; [reflexivity|]. intros now pton ntop. vm_compute. reflexivity. Qed.
(** The earliest times cannot be printed without overflow. *)
Theorem C60_earliest_refuted : exists tp, - 2 ^ 63 <= tp < 2 ^ 63 /\ show_time tp = None.
Proof. exists (- 2 ^ 63). split; [split; [discriminate|reflexivity]|]. vm_compute. reflexivity. Qed.
(** Reals and durations lose the zeros behind the point: when the decimals round up to a whole
    they are printed as a tenth, so that 1.999 days have the text of 1.1 days. *)
Theorem C60_duration_refuted : exists a b x, a <> b /\ forall now pton ntop, show (ieee now pton ntop) (DDuration a) = Some x /\ show (ieee now pton ntop) (DDuration b) = Some x.
Proof. exists 172713600000000, 95040000000000, (chars "1.1d"). split; [discriminate|]. intros now pton ntop. split; vm_compute; reflexivity. Qed.
Theorem C60_seconds_refuted : exists a b x, b + 800000000 < a /\ forall now pton ntop, show (ieee now pton ntop) (DDuration a) = Some x /\ data_p (ieee now pton ntop) 2 x = Ok (DDuration b) [].
Proof. exists 59999000000, 59100000000, (chars "59.1s"). split; [reflexivity|]. intros now pton ntop. split; vm_compute; reflexivity. Qed.
Theorem C60_real_refuted : exists a b x, (a <> b)%N /\ forall now pton ntop, show (ieee now pton ntop) (DReal a) = Some x /\ data_p (ieee now pton ntop) 2 x = Ok (DReal b) [].
Proof.
  exists (bits_of (dreal {| d_neg := false; d_int := chars "0"; d_frac := chars "99999999999" |})), (bits_of (dreal {| d_neg := false; d_int := chars "0"; d_frac := chars "1" |})), (chars "0.1").
  split; [vm_compute; discriminate|]. intros now pton ntop. split; vm_compute; reflexivity.
Qed.

(** Without axioms: *)
Definition assumptions_calendar := (C60_decimals, C60_forwards, C60_backwards, C60_days, C60_dates, C60_text, C60_whole, C60_different, C60_exact_refuted, C60_invalid_refuted, C60_before_refuted, C60_far_refuted, C60_earliest_refuted, C60_duration_refuted, C60_seconds_refuted, C60_real_refuted).
Print Assumptions assumptions_calendar.
(** The rounding errors are bounded over the real numbers of the standard library, whose axioms this
    one uses: classical logic, functional extensionality, and the two of the Dedekind reals. *)
Print Assumptions C60_near.
