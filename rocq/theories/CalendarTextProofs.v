(** Proofs about the text of times: it is read back. *)
From Coq Require Import String Ascii List ZArith NArith Bool Arith Lia.
From Coq Require Import ZifyBool ZifyNat ZifyN.
From Coq Require Import Floats.SpecFloat.
From Coq Require Import Init.Datatypes.
From Verif Require Import EscapeModel AddressModel DataModel LiteralModel LiteralProofs CalendarModel CalendarProofs FloatIntProofs.
Import ListNotations.
Open Scope Z_scope.

(** * Padded numbers *)

Lemma zeros_num : forall k ds, num (repeat 48%N k ++ ds) = num ds.
Proof. induction k as [|k IH]; intros ds; [reflexivity|]. cbn [repeat app]. unfold num in *. cbn [fold_left]. exact (IH ds). Qed.
Lemma zeros_digits : forall k, forallb isdigit (repeat 48%N k) = true.
Proof. induction k as [|k IH]; [reflexivity|]. exact IH. Qed.
Lemma pad_spec : forall n x, (1 <= n <= 20)%nat -> 0 <= x < 10 ^ Z.of_nat n -> length (pad n x) = n /\ num (pad n x) = Z.to_N x /\ forallb isdigit (pad n x) = true.
Proof.
  intros n x Hn Hx. assert (B : (Z.to_N x < 10 ^ N.of_nat n)%N) by (apply N2Z.inj_lt; rewrite N2Z.inj_pow, Z2N.id, nat_N_Z by lia; lia).
  assert (B' : (Z.to_N x < 10 ^ 20)%N) by (eapply N.lt_le_trans; [exact B|apply N.pow_le_mono_r; lia]).
  pose proof (digits_len _ n B Hn) as L. destruct (digits_spec _ B') as (D1 & D2 & D3). unfold pad. rewrite app_length, repeat_length, zeros_num, forallb_app, zeros_digits. split; [lia|]. split; [exact D1|exact D2].
Qed.
Lemma pad_inj : forall n x y, (1 <= n <= 20)%nat -> 0 <= x < 10 ^ Z.of_nat n -> 0 <= y < 10 ^ Z.of_nat n -> pad n x = pad n y -> x = y.
Proof. intros n x y Hn Hx Hy H. destruct (pad_spec n x Hn Hx) as (_ & X & _). destruct (pad_spec n y Hn Hy) as (_ & Y & _). rewrite H, Y in X. lia. Qed.
(** Years of four digits. *)
Lemma year_pad : forall y, 1000 <= y <= 9999 -> digits (Z.to_N y) = pad 4 y.
Proof.
  intros y H. unfold pad. assert (L : (4 <= length (digits (Z.to_N y)))%nat).
  { destruct (digits_spec (Z.to_N y)) as (D1 & D2 & D3); [assert (10000 < 10 ^ 20)%N by reflexivity; lia|]. pose proof (num_bound _ D2) as B. rewrite D1 in B.
    destruct (Nat.le_gt_cases 4 (length (digits (Z.to_N y)))) as [G|G]; [exact G|]. assert ((10 ^ N.of_nat (length (digits (Z.to_N y))) <= 10 ^ 3)%N) by (apply N.pow_le_mono_r; lia). change (10 ^ 3)%N with 1000%N in *. lia. }
  replace (4 - length (digits (Z.to_N y)))%nat with 0%nat by lia. reflexivity.
Qed.

Lemma take_max : forall f k ds r, length ds = k -> forallb f ds = true -> take f k (ds ++ r) = (ds, r).
Proof.
  intros f k ds. revert k. induction ds as [|d ds IH]; intros k r L D; [subst k; cbn; reflexivity|]. destruct k as [|k]; [discriminate|]. cbn [forallb] in D. apply andb_true_iff in D. destruct D as [D1 D2]. cbn [app take]. rewrite D1.
  rewrite IH; [reflexivity|now injection L|exact D2].
Qed.
Lemma sign_none : forall ds r, forallb isdigit ds = true -> (1 <= length ds)%nat -> sign (ds ++ r) = (false, ds ++ r).
Proof.
  intros [|d ds] r D L; [cbn in L; lia|]. cbn [forallb] in D. apply andb_true_iff in D. destruct D as [D _]. unfold isdigit in D. cbn [app sign]. destruct (N.eqb_spec d 45); [lia|]. destruct (N.eqb_spec d 43); [lia|]. reflexivity.
Qed.
Lemma sdec_pad : forall n x r, (1 <= n <= 4)%nat -> 0 <= x < 10 ^ Z.of_nat n -> sdec n n 32 (pad n x ++ r) = Ok x r.
Proof.
  intros n x r Hn Hx. destruct (pad_spec n x ltac:(lia) Hx) as (L & X & D). unfold sdec. rewrite sign_none; [|exact D|lia]. rewrite (take_max _ _ _ _ L D). rewrite L, Nat.ltb_irrefl, X. rewrite Z2N.id by lia.
  assert (10 ^ Z.of_nat n <= 10 ^ 4) by (apply Z.pow_le_mono_r; lia). change (10 ^ 4) with 10000 in *. change (2 ^ (32 - 1)) with 2147483648. destruct ((- (2147483648) <=? x) && (x <? 2147483648)) eqn:Q; [reflexivity|lia].
Qed.
Lemma guard_pad : forall n x f r, (1 <= n <= 4)%nat -> 0 <= x < 10 ^ Z.of_nat n -> f x = true -> guard (sdec n n 32) f (pad n x ++ r) = Ok x r.
Proof. intros n x f r Hn Hx Hf. unfold guard. rewrite (bind_ok _ _ _ _ _ (sdec_pad n x r Hn Hx)). now rewrite Hf. Qed.

(** * Reading a time *)

(** The seconds, with decimals. *)
Definition sec_text (s : Z) (ds : text) : text := pad 2 s ++ match ds with [] => [] | _ => 46%N :: ds end.
Lemma real_sec : forall s ds r, 0 <= s < 60 -> forallb isdigit ds = true -> (length ds <= 20)%nat -> stops isdigit r -> stops (N.eqb 46) r ->
  real_ false (sec_text s ds ++ r) = Ok {| d_neg := false; d_int := pad 2 s; d_frac := ds |} r.
Proof.
  intros s ds r Hs D L S1 S2. destruct (pad_spec 2 s ltac:(lia) ltac:(cbn; lia)) as (PL & _ & PD). unfold real_, sec_text. rewrite <- app_assoc. rewrite sign_none by (try exact PD; lia).
  destruct ds as [|d ds].
  - cbn [app]. rewrite take_fit by (try assumption; lia). destruct (pad 2 s) as [|c cs] eqn:E; [discriminate|]. destruct r as [|c0 r]; [reflexivity|]. cbn [stops] in *. rewrite N.eqb_sym, S2. cbn [negb andb orb take]. rewrite S1. reflexivity.
  - cbn [app]. rewrite take_fit; [|exact PD|reflexivity|lia]. destruct (pad 2 s) as [|c cs] eqn:E; [discriminate|]. change (46 =? 46)%N with true. cbn iota. cbn [negb andb]. change (d :: ds ++ r) with ((d :: ds) ++ r). rewrite take_fit by assumption. reflexivity.
Qed.

Definition stamp (y m d h mi s : Z) (ds : text) : text :=
  pad 4 y ++ chars "-" ++ pad 2 m ++ chars "-" ++ pad 2 d ++ chars "T" ++ pad 2 h ++ chars ":" ++ pad 2 mi ++ chars ":" ++ sec_text s ds.
Lemma maybe_ok : forall {B} (p : parser B) s a r, p s = Ok a r -> maybe p s = Ok (Some a) r.
Proof. intros B p s a r H. unfold maybe. now rewrite H. Qed.
Lemma maybe_no : forall {B} (p : parser B) s, p s = No -> maybe p s = Ok None s.
Proof. intros B p s H. unfold maybe. now rewrite H. Qed.
Lemma zone_none : forall r, stops (fun c => (c =? 90) || (c =? 43) || (c =? 45))%N r -> zone_p r = No.
Proof.
  intros r H. unfold zone_p. rewrite alt_no; [|apply act_no, ch_no; destruct r as [|c r]; [exact Logic.I|]; cbn [stops] in *; change (chr "Z") with 90%N; lia].
  apply bind_no. rewrite alt_no; [apply act_no, ch_no|apply act_no, ch_no]; destruct r as [|c r]; try exact Logic.I; cbn [stops] in *; [change (chr "-") with 45%N|change (chr "+") with 43%N]; lia.
Qed.
Ltac guarded := match goal with |- context [bind (guard (sdec ?n ?n 32) ?f) _ (pad ?n ?x ++ ?r)] =>
  let H := fresh in assert (H : guard (sdec n n 32) f (pad n x ++ r) = Ok x r) by (apply guard_pad; [lia|cbn; lia|unfold between; cbn beta; lia]); rewrite (bind_ok _ _ _ _ _ H); clear H end.
Lemma stamp_reads : forall A y m d h mi s ds r, 1900 <= y <= 9999 -> 1 <= m <= 12 -> 1 <= d <= 31 -> 0 <= h < 24 -> 0 <= mi < 60 -> 0 <= s < 60 ->
  forallb isdigit ds = true -> (length ds <= 20)%nat -> stops isdigit r -> stops (N.eqb 46) r -> stops (fun c => (c =? 90) || (c =? 43) || (c =? 45))%N r ->
  a_secs A {| d_neg := false; d_int := pad 2 s; d_frac := ds |} = true ->
  ymdhms A (stamp y m d h mi s ds ++ r) = Ok (a_time A y m d h mi (Some {| d_neg := false; d_int := pad 2 s; d_frac := ds |}) 0) r.
Proof.
  intros A y m d h mi s ds r Hy Hm Hd Hh Hi Hs D L S1 S2 S3 OK. unfold ymdhms, stamp. rewrite <- !app_assoc.
  guarded.
  change (chars "-" ++ ?x) with (chr "-" :: x). rewrite (then_ok _ _ _ _ _ (ch_ok _ _)).
  guarded.
  erewrite bind_ok; [|apply maybe_ok].
  2: { change (chars "-" ++ ?x) with (chr "-" :: x). rewrite (then_ok _ _ _ _ _ (ch_ok _ _)). guarded.
    erewrite bind_ok; [|apply maybe_ok].
    2: { change (chars "T" ++ ?x) with (chr "T" :: x). erewrite then_ok; [|rewrite alt_no by (apply ch_no; reflexivity); apply alt_ok, ch_ok].
      guarded. erewrite bind_ok; [|apply maybe_ok].
      2: { change (chars ":" ++ ?x) with (chr ":" :: x). rewrite (then_ok _ _ _ _ _ (ch_ok _ _)). guarded.
        erewrite bind_ok; [|apply maybe_ok].
        2: { change (chars ":" ++ ?x) with (chr ":" :: x). rewrite (then_ok _ _ _ _ _ (ch_ok _ _)). unfold guard. rewrite (bind_ok _ _ _ _ _ (real_sec s ds r Hs D L S1 S2)). rewrite OK. reflexivity. }
        erewrite bind_ok; [|apply maybe_no, zone_none, S3]. reflexivity. }
      reflexivity. }
    reflexivity. }
  reflexivity.
Qed.
Lemma stamp_time : forall A y m d h mi s ds r x, ymdhms A (stamp y m d h mi s ds ++ r) = Ok x r -> time_p A (stamp y m d h mi s ds ++ r) = Ok x r.
Proof. intros A y m d h mi s ds r x H. unfold time_p. rewrite any_cons. now apply alt_ok. Qed.

(** * Printing *)

Definition decimals (sub : Z) : text :=
  if sub =? 0 then [] else if Z.rem sub 1000000 =? 0 then pad 3 (Z.quot sub 1000000) else if Z.rem sub 1000 =? 0 then pad 6 (Z.quot sub 1000) else pad 9 sub.
Lemma decimals_spec : forall sub, 0 <= sub < 1000000000 -> forallb isdigit (decimals sub) = true /\ (length (decimals sub) <= 9)%nat /\ Z.of_N (num (decimals sub)) * 10 ^ (9 - Z.of_nat (length (decimals sub))) = sub.
Proof.
  intros sub H. unfold decimals. destruct (Z.eqb_spec sub 0) as [->|H0]; [repeat split; cbn; lia|].
  rewrite !Z.rem_mod_nonneg, !Z.quot_div_nonneg by lia. pose proof (Z.div_mod sub 1000000 ltac:(lia)) as E6. pose proof (Z.div_mod sub 1000 ltac:(lia)) as E3.
  assert (B6 : 0 <= sub / 1000000 < 1000) by (split; [apply Z.div_pos; lia|apply Z.div_lt_upper_bound; lia]). assert (B3 : 0 <= sub / 1000 < 1000000) by (split; [apply Z.div_pos; lia|apply Z.div_lt_upper_bound; lia]).
  destruct (Z.eqb_spec (sub mod 1000000) 0) as [Q|Q].
  - destruct (pad_spec 3 (sub / 1000000) ltac:(lia) ltac:(cbn; lia)) as (L & X & D). rewrite L, X. split; [exact D|]. split; [lia|]. rewrite Z2N.id by lia. change (10 ^ (9 - Z.of_nat 3)) with 1000000. lia.
  - destruct (Z.eqb_spec (sub mod 1000) 0) as [Q3|Q3].
    + destruct (pad_spec 6 (sub / 1000) ltac:(lia) ltac:(cbn; lia)) as (L & X & D). rewrite L, X. split; [exact D|]. split; [lia|]. rewrite Z2N.id by lia. change (10 ^ (9 - Z.of_nat 6)) with 1000. lia.
    + destruct (pad_spec 9 sub ltac:(lia) ltac:(cbn; lia)) as (L & X & D). rewrite L, X. split; [exact D|]. split; [lia|]. rewrite Z2N.id by lia. change (10 ^ (9 - Z.of_nat 9)) with 1. lia.
Qed.
Lemma pad_some : forall n x, (1 <= n)%nat -> pad n x <> [].
Proof. intros n x Hn H. unfold pad in H. apply app_eq_nil in H. destruct H as [_ H]. unfold digits in H. destruct (N.eqb_spec (Z.to_N x) 0); [discriminate|]. cbn [digits_rev] in H. destruct (N.eqb_spec (Z.to_N x) 0); [contradiction|]. cbn [rev] in H. now apply app_eq_nil in H as [_ H]. Qed.
Definition hour_of (t : Z) : Z := t / 3600000000000.
Definition min_of (t : Z) : Z := t / 60000000000 mod 60.
Definition sec_of (t : Z) : Z := t / 1000000000 mod 60.
Definition sub_of (t : Z) : Z := t mod 1000000000.
(** The first and the last day whose nanoseconds fit into 64 bits. *)
Definition printable (tp : Z) : Prop := -106751 * ns_day <= tp < 2 ^ 63.
Lemma split_time : forall t, 0 <= t < ns_day -> 0 <= hour_of t < 24 /\ 0 <= min_of t < 60 /\ 0 <= sec_of t < 60 /\ 0 <= sub_of t < 1000000000 /\
  t = hour_of t * 3600000000000 + min_of t * 60000000000 + sec_of t * 1000000000 + sub_of t.
Proof.
  intros t H. unfold ns_day in H. unfold hour_of, min_of, sec_of, sub_of.
  pose proof (Z.div_mod t 1000000000 ltac:(lia)) as E1. pose proof (Z.mod_pos_bound t 1000000000 ltac:(lia)) as B1. set (a := t / 1000000000) in *.
  assert (E2 : t / 60000000000 = a / 60) by (unfold a; rewrite Z.div_div by lia; reflexivity). assert (E3 : t / 3600000000000 = a / 60 / 60) by (unfold a; rewrite !Z.div_div by lia; reflexivity). rewrite E2, E3.
  pose proof (Z.div_mod a 60 ltac:(lia)) as E4. pose proof (Z.mod_pos_bound a 60 ltac:(lia)) as B4. set (b := a / 60) in *. pose proof (Z.div_mod b 60 ltac:(lia)) as E5. pose proof (Z.mod_pos_bound b 60 ltac:(lia)) as B5. lia.
Qed.
Lemma show_split : forall tp, printable tp -> exists y m d, date (tp / ns_day) = (y, m, d) /\ 1000 <= y <= 9999 /\
  show_time tp = Some (let t := tp mod ns_day in stamp y m d (hour_of t) (min_of t) (sec_of t) (decimals (sub_of t))).
Proof.
  intros tp P. unfold printable in P. unfold ns_day in P. change (2 ^ 63) with 9223372036854775808 in P.
  pose proof (Z.div_mod tp ns_day ltac:(unfold ns_day; lia)) as E. pose proof (Z.mod_pos_bound tp ns_day ltac:(unfold ns_day; lia)) as B.
  assert (DB : -106751 <= tp / ns_day <= 106751) by (unfold ns_day in *; lia).
  destruct (date (tp / ns_day)) as [ [y m] d] eqn:DT. exists y, m, d. split; [reflexivity|].
  assert (YB : 1677 <= y <= 2262).
  { split.
    - destruct (date_mono (-106751) (Z.to_nat (tp / ns_day - -106751)) 1677 9 22 ltac:(vm_compute; reflexivity)) as (y' & m' & d' & E' & L). replace (-106751 + Z.of_nat (Z.to_nat (tp / ns_day - -106751))) with (tp / ns_day) in E' by lia. rewrite DT in E'. injection E' as -> -> ->. exact L.
    - destruct (date_mono (tp / ns_day) (Z.to_nat (106751 - tp / ns_day)) y m d DT) as (y' & m' & d' & E' & L). replace (tp / ns_day + Z.of_nat (Z.to_nat (106751 - tp / ns_day))) with 106751 in E' by lia. vm_compute in E'. injection E' as <- _ _. exact L. }
  split; [lia|]. unfold show_time.
  replace (in_int64 (tp / ns_day * ns_day)) with true by (unfold in_int64, ns_day in *; change (2 ^ 63) with 9223372036854775808; lia). cbn [negb].
  rewrite from_days_exact by (unfold first_day, last_day; lia). rewrite DT. replace (tp - tp / ns_day * ns_day) with (tp mod ns_day) by lia. set (t := tp mod ns_day) in *.
  destruct (split_time t B) as (H1 & H2 & H3 & H4 & HT). set (h := hour_of t) in *. set (mi := min_of t) in *. set (s := sec_of t) in *. set (sub := sub_of t) in *.
  assert (Q1 : Z.quot t 3600000000000 = h) by (rewrite Z.quot_div_nonneg by lia; reflexivity). rewrite Q1.
  assert (Q2 : Z.quot (t - h * 3600000000000) 60000000000 = mi) by (rewrite Z.quot_div_nonneg by lia; symmetry; apply (Z.div_unique_pos _ _ _ (s * 1000000000 + sub)); lia). rewrite Q2.
  assert (Q3 : Z.quot (t - h * 3600000000000 - mi * 60000000000) 1000000000 = s) by (rewrite Z.quot_div_nonneg by lia; symmetry; apply (Z.div_unique_pos _ _ _ sub); lia). rewrite Q3.
  replace (t - h * 3600000000000 - mi * 60000000000 - s * 1000000000) with sub by lia.
  cbn zeta. unfold stamp, sec_text. rewrite year_pad by lia. rewrite <- !app_assoc. f_equal. f_equal. f_equal. f_equal. f_equal. f_equal. f_equal. f_equal. f_equal. f_equal. f_equal. f_equal. unfold decimals.
  destruct (sub =? 0); [reflexivity|]. destruct (Z.rem sub 1000000 =? 0); [|destruct (Z.rem sub 1000 =? 0)]; match goal with |- context [pad ?n ?x] => destruct (pad n x) eqn:PE; [now apply pad_some in PE; [|lia]|reflexivity] end.
Qed.
Lemma app_split : forall (a b c d : text), length a = length b -> a ++ c = b ++ d -> a = b /\ c = d.
Proof. induction a as [|x a IH]; intros [|y b] c d L H; try discriminate; [now split|]. injection H as -> H. destruct (IH b c d ltac:(now injection L) H) as [-> ->]. now split. Qed.
Lemma pad_split : forall n x y c d, (1 <= n <= 20)%nat -> 0 <= x < 10 ^ Z.of_nat n -> 0 <= y < 10 ^ Z.of_nat n -> pad n x ++ c = pad n y ++ d -> x = y /\ c = d.
Proof.
  intros n x y c d Hn Hx Hy H. destruct (app_split (pad n x) (pad n y) c d) as [E1 E2]; [|exact H|].
  - now rewrite (proj1 (pad_spec n x Hn Hx)), (proj1 (pad_spec n y Hn Hy)).
  - split; [now apply (pad_inj n)|exact E2].
Qed.
Lemma stamp_inj : forall y m d h mi s ds y' m' d' h' mi' s' ds', 0 <= y <= 9999 -> 0 <= m <= 99 -> 0 <= d <= 99 -> 0 <= h <= 99 -> 0 <= mi <= 99 -> 0 <= s <= 99 ->
  0 <= y' <= 9999 -> 0 <= m' <= 99 -> 0 <= d' <= 99 -> 0 <= h' <= 99 -> 0 <= mi' <= 99 -> 0 <= s' <= 99 ->
  stamp y m d h mi s ds = stamp y' m' d' h' mi' s' ds' -> (y, m, d, h, mi, s, ds) = (y', m', d', h', mi', s', ds').
Proof.
  intros y m d h mi s ds y' m' d' h' mi' s' ds' ? ? ? ? ? ? ? ? ? ? ? ? H. unfold stamp, sec_text in H.
  apply pad_split in H as [-> H]; [|lia|cbn; lia|cbn; lia]. apply app_split in H as [_ H]; [|reflexivity].
  apply pad_split in H as [-> H]; [|lia|cbn; lia|cbn; lia]. apply app_split in H as [_ H]; [|reflexivity].
  apply pad_split in H as [-> H]; [|lia|cbn; lia|cbn; lia]. apply app_split in H as [_ H]; [|reflexivity].
  apply pad_split in H as [-> H]; [|lia|cbn; lia|cbn; lia]. apply app_split in H as [_ H]; [|reflexivity].
  apply pad_split in H as [-> H]; [|lia|cbn; lia|cbn; lia]. apply app_split in H as [_ H]; [|reflexivity].
  apply pad_split in H as [-> H]; [|lia|cbn; lia|cbn; lia]. destruct ds; destruct ds'; try discriminate; [reflexivity|]. injection H as -> ->. reflexivity.
Qed.
Lemma month_le : forall y m, month_days y m <= 31.
Proof. intros. unfold month_days. destruct (m =? 2); [destruct (leap _); lia|destruct (_ || _); lia]. Qed.
Lemma decimals_inj : forall a b, 0 <= a < 1000000000 -> 0 <= b < 1000000000 -> decimals a = decimals b -> a = b.
Proof. intros a b Ha Hb H. destruct (decimals_spec a Ha) as (_ & _ & EA). destruct (decimals_spec b Hb) as (_ & _ & EB). rewrite H in EA. lia. Qed.
Lemma show_inj : forall a b x, printable a -> printable b -> show_time a = Some x -> show_time b = Some x -> a = b.
Proof.
  intros a b x Pa Pb Ha Hb. destruct (show_split a Pa) as (y & m & d & D & Y & S). destruct (show_split b Pb) as (y' & m' & d' & D' & Y' & S'). rewrite S in Ha. rewrite S' in Hb. cbn zeta in *.
  pose proof (Z.mod_pos_bound a ns_day ltac:(unfold ns_day; lia)) as Ba. pose proof (Z.mod_pos_bound b ns_day ltac:(unfold ns_day; lia)) as Bb.
  destruct (split_time _ Ba) as (H1 & H2 & H3 & H4 & HT). destruct (split_time _ Bb) as (H1' & H2' & H3' & H4' & HT').
  pose proof (date_valid (a / ns_day)) as V. rewrite D in V. unfold valid in V. pose proof (month_le y m). pose proof (date_valid (b / ns_day)) as V'. rewrite D' in V'. unfold valid in V'. pose proof (month_le y' m').
  assert (E : stamp y m d (hour_of (a mod ns_day)) (min_of (a mod ns_day)) (sec_of (a mod ns_day)) (decimals (sub_of (a mod ns_day))) = stamp y' m' d' (hour_of (b mod ns_day)) (min_of (b mod ns_day)) (sec_of (b mod ns_day)) (decimals (sub_of (b mod ns_day)))) by congruence.
  apply stamp_inj in E; try lia. injection E as -> -> -> E1 E2 E3 E4. apply decimals_inj in E4; [|assumption|assumption].
  apply to_days_date in D. apply to_days_date in D'. rewrite D in D'. pose proof (Z.div_mod a ns_day ltac:(unfold ns_day; lia)). pose proof (Z.div_mod b ns_day ltac:(unfold ns_day; lia)). lia.
Qed.

(** * Whole seconds *)

Definition float_eqb (x y : double) : bool :=
  match x, y with
  | S754_zero a, S754_zero b => Bool.eqb a b
  | S754_finite a m e, S754_finite b n f => Bool.eqb a b && (m =? n)%positive && (e =? f)
  | _, _ => false
  end.
Lemma float_eqb_eq : forall x y, float_eqb x y = true -> x = y.
Proof.
  intros [a|a| |a m e] [b|b| |b n f] H; try discriminate; cbn [float_eqb] in H; [f_equal; now apply Bool.eqb_prop|].
  apply andb_true_iff in H. destruct H as [H H3]. apply andb_true_iff in H. destruct H as [H1 H2]. apply Bool.eqb_prop in H1. apply Pos.eqb_eq in H2. apply Z.eqb_eq in H3. now subst.
Qed.
Definition check_sec (i : Z) : bool := if 60 <=? i then true else let x := {| d_neg := false; d_int := pad 2 i; d_frac := [] |} in secs_ok x && float_eqb (dreal x) (of_Z i).
Lemma secs_checked : check_range check_sec 0 6 = true.
Proof. vm_cast_no_check (eq_refl true). Qed.
Lemma second_ok : forall i, 0 <= i < 86400 -> let x := {| d_neg := false; d_int := pad 2 (i mod 60); d_frac := [] |} in
  secs_ok x = true /\ trunc (dmul (dadd (dmul (of_Z (i / 3600 * 60 + i / 60 mod 60 - 0)) (of_Z 60)) (dreal x)) (of_Z 1000000000)) = i * 1000000000.
Proof.
  intros i H x. pose proof (Z.mod_pos_bound i 60 ltac:(lia)) as B. pose proof (Z.div_mod i 60 ltac:(lia)) as E. pose proof (Z.div_mod (i / 60) 60 ltac:(lia)) as E2. rewrite Z.div_div in E2 by lia. change (60 * 60) with 3600 in E2.
  pose proof (check_range_ok _ _ _ secs_checked (i mod 60)) as D. change (2 ^ Z.of_nat 6) with 64 in D. specialize (D ltac:(lia)). unfold check_sec in D. rewrite (proj2 (Z.leb_gt _ _)) in D by lia. fold x in D. cbn zeta in D.
  apply andb_true_iff in D. destruct D as [D1 D2]. split; [exact D1|]. apply float_eqb_eq in D2. rewrite D2.
  replace (i / 3600 * 60 + i / 60 mod 60 - 0) with (i / 60) by lia.
  assert (0 <= i / 60 < 1440) by (split; [apply Z.div_pos; lia|apply Z.div_lt_upper_bound; lia]).
  rewrite of_Z_mul by lia. rewrite of_Z_add by lia. replace (i / 60 * 60 + i mod 60) with i by lia.
  rewrite of_Z_mul by lia. apply trunc_of_Z. lia.
Qed.
Lemma follow_zone : forall r, follow r = true -> stops (fun c => (c =? 90) || (c =? 43) || (c =? 45))%N r.
Proof. intros r F. apply follow_stops; [exact F|reflexivity]. Qed.
Lemma whole_reads : forall now pton ntop tp r, printable tp -> -2208988800 * 1000000000 <= tp -> tp mod 1000000000 = 0 -> follow r = true ->
  exists x, show_time tp = Some x /\ time_p (ieee now pton ntop) (x ++ r) = Ok tp r.
Proof.
  intros now pton ntop tp r P P2 W F. destruct (show_split tp P) as (y & m & d & D & Y & S). rewrite S. eexists. split; [reflexivity|]. cbn zeta. set (t := tp mod ns_day).
  pose proof (Z.mod_pos_bound tp ns_day ltac:(unfold ns_day; lia)) as B. fold t in B. pose proof (Z.div_mod tp ns_day ltac:(unfold ns_day; lia)) as E. fold t in E. destruct (split_time t B) as (H1 & H2 & H3 & H4 & HT).
  assert (SUB : sub_of t = 0). { unfold sub_of. replace t with (tp + (- (tp / ns_day) * 86400) * 1000000000) by (unfold ns_day in *; lia). now rewrite Z.mod_add by lia. }
  rewrite SUB in *. change (decimals 0) with (@nil N). pose proof (date_valid (tp / ns_day)) as V. rewrite D in V. unfold valid in V. pose proof (month_le y m).
  assert (Y2 : 1900 <= y).
  { assert (DB : -25567 <= tp / ns_day) by (unfold ns_day in *; lia). destruct (date_mono (-25567) (Z.to_nat (tp / ns_day - -25567)) 1900 1 1 ltac:(vm_compute; reflexivity)) as (y' & m' & d' & E' & L).
    replace (-25567 + Z.of_nat (Z.to_nat (tp / ns_day - -25567))) with (tp / ns_day) in E' by lia. rewrite D in E'. injection E' as -> -> ->. exact L. }
  set (i := t / 1000000000). assert (Hi : 0 <= i < 86400) by (unfold i, ns_day in *; split; [apply Z.div_pos; lia|apply Z.div_lt_upper_bound; lia]).
  assert (I1 : hour_of t = i / 3600) by (unfold i, hour_of; now rewrite Z.div_div by lia). assert (I2 : min_of t = i / 60 mod 60) by (unfold i, min_of; now rewrite Z.div_div by lia).
  destruct (second_ok i Hi) as [K1 K2]. apply stamp_time. rewrite stamp_reads; try assumption; try lia.
  - f_equal. cbn [ieee a_time]. unfold make_time. unfold sec_of. fold i. rewrite I1, I2, K2.
    replace (u16 y) with y by (symmetry; apply Z.mod_small; lia). replace (u8 m) with m by (symmetry; apply Z.mod_small; lia). replace (u8 d) with d by (symmetry; apply Z.mod_small; lia). rewrite (to_days_date _ _ _ _ D).
    assert (t = i * 1000000000). { pose proof (Z.div_mod t 1000000000 ltac:(lia)) as Q. unfold sub_of in SUB. rewrite SUB in Q. fold i in Q. lia. } lia.
  - reflexivity.
  - cbn; lia.
  - apply follow_stops; [exact F|reflexivity].
  - apply follow_stops; [exact F|reflexivity].
  - now apply follow_zone.
Qed.
