From Coq Require Import List ZArith NArith Lia Bool ZifyBool ZifyNat ZifyN.
From Verif Require Import NBits WordModel WordProofs EwahModel.
Import ListNotations.
Open Scope N_scope.

(** * Marker words *)

Definition mk (t : bool) (c d : N) : N :=
  N.lor (N.lor d (N.shiftl c 31)) (if t then msb1 else 0).

Lemma testbit_msb1 : forall i, N.testbit msb1 i = (i =? 63).
Proof.
  intros. unfold msb1. destruct (N.eqb_spec i 63) as [->|]; [reflexivity|].
  apply N.pow2_bits_false. lia.
Qed.

Lemma testbit_mk : forall t c d i, c < 2 ^ 32 -> d < 2 ^ 31 ->
  N.testbit (mk t c d) i =
    if i <? 31 then N.testbit d i
    else if i <? 63 then N.testbit c (i - 31) else (i =? 63) && t.
Proof.
  intros t c d i Hc Hd. unfold mk. rewrite !N.lor_spec.
  assert (T : N.testbit (if t then msb1 else 0) i = (i =? 63) && t).
  { destruct t; [rewrite testbit_msb1, andb_true_r|rewrite N.bits_0, andb_false_r]; reflexivity. }
  rewrite T. destruct (N.ltb_spec i 31).
  - rewrite N.shiftl_spec_low by lia. assert (i =? 63 = false) as -> by lia.
    now rewrite !orb_false_r.
  - rewrite (testbit_small d 31) by lia. rewrite N.shiftl_spec_high by lia. cbn [orb].
    destruct (N.ltb_spec i 63).
    + assert (i =? 63 = false) as -> by lia. apply orb_false_r.
    + rewrite (testbit_small c 32) by lia. reflexivity.
Qed.

Lemma dirty_mask_bits : forall i, N.testbit marker_dirty_mask i = (i <? 31).
Proof. intros. change marker_dirty_mask with (N.ones 31). apply testbit_ones. Qed.

Lemma clean_mask_bits : forall i, N.testbit marker_clean_mask i = (31 <=? i) && (i <? 63).
Proof.
  intros. unfold marker_clean_mask. rewrite testbit_wnot, N.lor_spec, dirty_mask_bits, testbit_msb1.
  destruct (N.ltb_spec i 31), (N.eqb_spec i 63), (N.ltb_spec i 64), (N.leb_spec 31 i), (N.ltb_spec i 63);
    try lia; reflexivity.
Qed.

Lemma clean_max_val : marker_clean_max = 2 ^ 32 - 1.
Proof. reflexivity. Qed.
Lemma dirty_max_val : marker_dirty_max = 2 ^ 31 - 1.
Proof. reflexivity. Qed.

Ltac bitcase :=
  repeat match goal with
  | |- context [?a <? ?b] => destruct (N.ltb_spec a b)
  | |- context [?a <=? ?b] => destruct (N.leb_spec a b)
  | |- context [?a =? ?b] => destruct (N.eqb_spec a b)
  end.

Ltac finbits := try lia;
  repeat rewrite ?andb_true_r, ?andb_false_r, ?orb_false_r, ?orb_true_r, ?andb_true_l,
    ?andb_false_l, ?orb_false_l, ?xorb_false_r, ?xorb_true_r; cbn; try reflexivity; auto.

Section Mk.
Variables (t : bool) (c d : N).
Hypothesis Hc : c < 2 ^ 32.
Hypothesis Hd : d < 2 ^ 31.

Lemma mk_lt : mk t c d < 2 ^ 64.
Proof.
  apply testbit_lt_pow2. intros i Hi. rewrite testbit_mk by auto. bitcase; finbits.
Qed.

Lemma marker_type_mk : marker_type (mk t c d) = t.
Proof.
  unfold marker_type.
  assert (N.land (mk t c d) msb1 = if t then msb1 else 0) as ->.
  { apply N.bits_inj. intro i. rewrite N.land_spec, testbit_mk, testbit_msb1 by auto.
    assert (T : N.testbit (if t then msb1 else 0) i = (i =? 63) && t).
    { destruct t; [rewrite testbit_msb1, andb_true_r|rewrite N.bits_0, andb_false_r]; reflexivity. }
    rewrite T. bitcase; finbits. }
  destruct t; reflexivity.
Qed.

Lemma marker_num_clean_mk : marker_num_clean (mk t c d) = c.
Proof.
  unfold marker_num_clean. apply N.bits_inj. intro i.
  rewrite testbit_wshr, N.land_spec, testbit_mk, clean_mask_bits by auto. unfold divide.
  replace (i + 31 - 31) with i by lia.
  bitcase; finbits; symmetry; apply (testbit_small c 32); lia.
Qed.

Lemma marker_num_dirty_mk : marker_num_dirty (mk t c d) = d.
Proof.
  unfold marker_num_dirty. apply N.bits_inj. intro i.
  rewrite N.land_spec, testbit_mk, dirty_mask_bits by auto.
  bitcase; finbits; symmetry; apply (testbit_small d 31); lia.
Qed.

Lemma set_marker_type_mk : forall t', set_marker_type (mk t c d) t' = mk t' c d.
Proof.
  intros. unfold set_marker_type. apply N.bits_inj. intro i.
  rewrite N.lor_spec, N.land_spec, testbit_wnot, !testbit_mk, testbit_msb1 by auto.
  assert (T : N.testbit (if t' then msb1 else 0) i = (i =? 63) && t').
  { destruct t'; [rewrite testbit_msb1, andb_true_r|rewrite N.bits_0, andb_false_r]; reflexivity. }
  rewrite T. bitcase; finbits.
Qed.

Lemma set_marker_num_clean_mk : forall c', c' < 2 ^ 32 ->
  set_marker_num_clean (mk t c d) c' = mk t c' d.
Proof.
  intros. unfold set_marker_num_clean, divide. apply N.bits_inj. intro i.
  rewrite N.lor_spec, N.land_spec, testbit_wnot, !testbit_mk, clean_mask_bits, testbit_wshl by auto.
  bitcase; finbits. all: rewrite (testbit_small c' 32) by lia; finbits.
Qed.

Lemma set_marker_num_dirty_mk : forall d', d' < 2 ^ 31 ->
  set_marker_num_dirty (mk t c d) d' = mk t c d'.
Proof.
  intros. unfold set_marker_num_dirty. apply N.bits_inj. intro i.
  rewrite N.lor_spec, N.land_spec, testbit_wnot, !testbit_mk, dirty_mask_bits by auto.
  bitcase; finbits; rewrite (testbit_small d' 31) by lia; finbits.
Qed.

Lemma lxor_msb1_mk : N.lxor (mk t c d) msb1 = mk (negb t) c d.
Proof.
  apply N.bits_inj. intro i. rewrite N.lxor_spec, !testbit_mk, testbit_msb1 by auto.
  bitcase; finbits.
Qed.

Lemma mk_0_inv : mk t c d = 0 -> t = false /\ c = 0 /\ d = 0.
Proof.
  intro H. pose proof marker_type_mk as T. pose proof marker_num_clean_mk as C.
  pose proof marker_num_dirty_mk as D. rewrite H in *. rewrite <- T, <- C, <- D. auto.
Qed.
End Mk.

Lemma mk_0 : mk false 0 0 = 0.
Proof. reflexivity. Qed.
Lemma mk_dirty_1 : marker_num_dirty 1 = mk false 0 1.
Proof. reflexivity. Qed.
Lemma full_marker : forall b, set_marker_type marker_clean_mask b = mk b marker_clean_max 0.
Proof. intros [|]; reflexivity. Qed.

(** * Abstract structure of the block vector *)

Record seg := Seg { st : bool; sc : N; sd : list N }.
Definition seg_marker (s : seg) : N := mk (st s) (sc s) (N.of_nat (length (sd s))).
Definition enc (s : seg) : list N := seg_marker s :: sd s.
Definition seg_ok (s : seg) : Prop :=
  sc s < 2 ^ 32 /\ N.of_nat (length (sd s)) < 2 ^ 31 /\ Forall (fun w => w < 2 ^ 64) (sd s).
Definition seg_bits (s : seg) : list bool :=
  repeat (st s) (N.to_nat (64 * sc s)) ++ flat_map (wbits 64) (sd s).

(** Number of bits, as a multiple of 64. *)
Definition units (segs : list seg) : N :=
  fold_right (fun s n => sc s + N.of_nat (length (sd s)) + n) 0 segs.

Lemma units_app : forall a b, units (a ++ b) = units a + units b.
Proof.
  induction a as [|s a IH]; intros b.
  - reflexivity.
  - change (units ((s :: a) ++ b)) with (sc s + N.of_nat (length (sd s)) + units (a ++ b)).
    change (units (s :: a)) with (sc s + N.of_nat (length (sd s)) + units a). rewrite IH. lia.
Qed.

(** State after [integrate_last_block]: no unintegrated last block. *)
Definition half (e : ewah) (l : list bool) : Prop :=
  exists segs s, Forall seg_ok (segs ++ [s]) /\
    blocks e = flat_map enc segs ++ enc s /\
    last_marker e = length (flat_map enc segs) /\
    num_bits e = 64 * units (segs ++ [s]) /\
    l = flat_map seg_bits (segs ++ [s]).

(** A non-empty bitmap between operations. *)
Definition repr (e : ewah) (l : list bool) : Prop :=
  exists segs s w k, Forall seg_ok (segs ++ [s]) /\ 1 <= k <= 64 /\ w < 2 ^ k /\
    blocks e = flat_map enc segs ++ enc s ++ [w] /\
    last_marker e = length (flat_map enc segs) /\
    num_bits e = 64 * units (segs ++ [s]) + k /\
    l = flat_map seg_bits (segs ++ [s]) ++ wbits (N.to_nat k) w.

Definition rel (e : ewah) (l : list bool) : Prop :=
  (e = ewah_empty /\ l = []) \/ repr e l.

(** Vector helpers on split lists. *)
Lemma at_mid : forall a x b, at_ (a ++ x :: b) (length a) = x.
Proof. intros. unfold at_. now rewrite nth_middle. Qed.
Lemma set_at_mid : forall a x b y, set_at (a ++ x :: b) (length a) y = a ++ y :: b.
Proof. induction a as [|z a IH]; intros; cbn; f_equal; auto. Qed.
Lemma set_at_length : forall l i x, length (set_at l i x) = length l.
Proof. induction l as [|y l IH]; intros [|i] x; cbn; f_equal; auto. Qed.
Lemma back_app : forall a x, back (a ++ [x]) = x.
Proof. intros. apply last_last. Qed.
Lemma set_back_app : forall a x y, set_back (a ++ [x]) y = a ++ [y].
Proof. intros. unfold set_back. now rewrite removelast_last. Qed.

Lemma flat_map_snoc : forall {A B} (f : A -> list B) a x, flat_map f (a ++ [x]) = flat_map f a ++ f x.
Proof. intros. rewrite flat_map_app. cbn. now rewrite app_nil_r. Qed.

Lemma full_iff : forall e u k, num_bits e = 64 * u + k -> 1 <= k <= 64 -> full e = (k =? 64).
Proof.
  intros e u k H Hk. unfold full, width. rewrite H.
  rewrite N.add_comm, N.mul_comm, N.mod_add by lia.
  destruct (N.eqb_spec k 64) as [->|]; [reflexivity|]. rewrite N.mod_small by lia. lia.
Qed.

Lemma partial_val : forall u k, 1 <= k <= 64 -> (64 * u + k) mod width = if k =? 64 then 0 else k.
Proof.
  intros u k Hk. unfold width. rewrite N.add_comm, N.mul_comm, N.mod_add by lia.
  destruct (N.eqb_spec k 64) as [->|]; [reflexivity|]. now rewrite N.mod_small by lia.
Qed.

Lemma seg_bits_snoc_dirty : forall t c ds w,
  seg_bits (Seg t c (ds ++ [w])) = seg_bits (Seg t c ds) ++ wbits 64 w.
Proof. intros. unfold seg_bits. cbn [st sc sd]. now rewrite flat_map_snoc, app_assoc. Qed.

Lemma seg_bits_clean : forall t c, seg_bits (Seg t c []) = repeat t (N.to_nat (64 * c)).
Proof. intros. unfold seg_bits. cbn [st sc sd flat_map]. apply app_nil_r. Qed.

Lemma seg_ok_intro : forall t c ds, c < 2 ^ 32 -> N.of_nat (length ds) < 2 ^ 31 ->
  Forall (fun w => w < 2 ^ 64) ds -> seg_ok (Seg t c ds).
Proof. intros. repeat split; auto. Qed.

Lemma repeat_add : forall {A} (a : A) n m, repeat a (n + m) = repeat a n ++ repeat a m.
Proof. intros. now rewrite repeat_app. Qed.

Lemma wbits_clean : forall w, w = 0 \/ w = all -> wbits 64 w = repeat (negb (w =? 0)) 64.
Proof. intros. apply wbits_run; auto. Qed.

Lemma units_cons_last : forall segs s, units (segs ++ [s]) = units segs + (sc s + N.of_nat (length (sd s))).
Proof. intros. rewrite units_app. cbn. lia. Qed.

Lemma integrate_half : forall e l,
  repr e l -> full e = true ->
  exists e', integrate_last_block e = Some e' /\ half e' l /\ num_bits e' = num_bits e.
Proof.
  intros e l (segs & s & w & k & F & Hk & Hw & B & L & NB & ->) Fu.
  rewrite (full_iff _ _ _ NB Hk) in Fu. apply N.eqb_eq in Fu. subst k.
  change (2 ^ 64) with (2 ^ 64) in Hw.
  pose proof F as F'. apply Forall_app in F' as [Fs F1]. apply Forall_cons_iff in F1 as [(O1 & O2 & O3) _].
  destruct s as [t c ds]. cbn [sc sd st] in *.
  set (A := flat_map enc segs) in *.
  assert (LEN : length (blocks e) = (length A + (length ds + 2))%nat).
  { rewrite B. rewrite !app_length. cbn [enc sd length]. lia. }
  assert (FE : full e = true) by (rewrite (full_iff _ _ _ NB); auto; lia).
  unfold integrate_last_block. rewrite FE.
  assert (Nat.leb 2 (length (blocks e)) = true) as -> by (apply Nat.leb_le; lia).
  assert (Nat.ltb (last_marker e) (length (blocks e) - 1) = true) as -> by (apply Nat.ltb_lt; lia).
  cbn [andb negb].
  replace (length (blocks e) - last_marker e - 1)%nat with (length ds + 1)%nat by lia.
  assert (BK : back (blocks e) = w).
  { rewrite B, app_assoc. apply back_app. }
  rewrite BK.
  assert (AT : at_ (blocks e) (last_marker e) = mk t c (N.of_nat (length ds))).
  { rewrite B, L. cbn [enc app seg_marker st sc sd]. apply at_mid. }
  change (N.to_nat 64) with 64%nat.
  destruct (all_or_none w) eqn:AN.
  - apply all_or_none_spec in AN; auto.
    rewrite AT, marker_num_clean_mk, marker_type_mk by auto.
    destruct (Nat.eqb_spec (length ds + 1) 1) as [Z|NZ]; cbn [andb].
    + assert (ds = []) by (destruct ds; cbn in *; [auto|lia]). subst ds. cbn [length N.of_nat] in *.
      destruct (N.eqb_spec c 0) as [->|Hc0].
      * eexists; split; [reflexivity|]. cbn [num_bits]. split; auto.
        exists segs, (Seg (negb (w =? 0)) 1 []). cbn [blocks last_marker num_bits].
        split; [|split; [|split; [|split]]].
        -- apply Forall_app; split; auto. repeat constructor; cbn; lia.
        -- rewrite B, L. cbn [enc app seg_marker st sc sd]. rewrite set_at_mid.
           rewrite set_marker_type_mk, set_marker_num_clean_mk by lia.
           change (mk (negb (w =? 0)) 1 0 :: [w]) with ([mk (negb (w =? 0)) 1 0] ++ [w]).
           rewrite app_assoc, removelast_last. reflexivity.
        -- auto.
        -- rewrite NB, !units_cons_last. cbn [sc sd length]. lia.
        -- rewrite !flat_map_snoc, !seg_bits_clean. rewrite wbits_clean by auto.
           rewrite <- app_assoc. reflexivity.
      * destruct (Bool.eqb (negb (w =? 0)) t) eqn:ET; cbn [andb].
        -- apply eqb_prop in ET.
           destruct (N.eqb_spec c marker_clean_max) as [CM|CM]; cbn [negb].
           ++ (* new marker *)
              eexists; split; [reflexivity|]. cbn [num_bits]. split; auto.
              exists (segs ++ [Seg t c []]), (Seg (negb (w =? 0)) 1 []). cbn [blocks last_marker num_bits].
              split; [|split; [|split; [|split]]].
              ** apply Forall_app; split; auto. repeat constructor; cbn; lia.
              ** rewrite B, app_assoc, set_back_app. rewrite flat_map_snoc. f_equal.
                 change 0 with (mk false 0 0). rewrite set_marker_type_mk, set_marker_num_clean_mk by lia. reflexivity.
              ** rewrite LEN, flat_map_snoc, app_length. fold A. cbn [enc sd length]. lia.
              ** rewrite NB, !units_cons_last. cbn [sc sd length]. lia.
              ** rewrite (flat_map_snoc _ (segs ++ [_])). f_equal.
                 unfold seg_bits. cbn [st sc sd flat_map]. rewrite !app_nil_r. apply wbits_clean; auto.
           ++ eexists; split; [reflexivity|]. cbn [num_bits]. split; auto.
              rewrite clean_max_val in CM.
              exists segs, (Seg t (c + 1) []). cbn [blocks last_marker num_bits].
              split; [|split; [|split; [|split]]].
              ** apply Forall_app; split; auto. repeat constructor; cbn; lia.
              ** rewrite B, L. cbn [enc app seg_marker st sc sd]. rewrite set_at_mid.
                 rewrite set_marker_num_clean_mk by (cbn; lia).
                 change (mk t (c + 1) (N.of_nat (length (@nil N))) :: [w]) with ([mk t (c + 1) 0] ++ [w]).
                 cbn [length N.of_nat].
                 change (mk t (c + 1) 0 :: [w]) with ([mk t (c + 1) 0] ++ [w]).
                 rewrite app_assoc, removelast_last. reflexivity.
              ** auto.
              ** rewrite NB, !units_cons_last. cbn [sc sd length]. lia.
              ** rewrite !flat_map_snoc. unfold seg_bits. cbn [st sc sd flat_map].
                 rewrite !app_nil_r. rewrite wbits_clean by auto. rewrite ET.
                 rewrite <- app_assoc, <- repeat_app. f_equal. f_equal. lia.
        -- eexists; split; [reflexivity|]. cbn [num_bits]. split; auto.
           exists (segs ++ [Seg t c []]), (Seg (negb (w =? 0)) 1 []). cbn [blocks last_marker num_bits].
           split; [|split; [|split; [|split]]].
           ** apply Forall_app; split; auto. repeat constructor; cbn; lia.
           ** rewrite B, app_assoc, set_back_app. rewrite flat_map_snoc. f_equal.
              change 0 with (mk false 0 0). rewrite set_marker_type_mk, set_marker_num_clean_mk by lia. reflexivity.
           ** rewrite LEN, flat_map_snoc, app_length. fold A. cbn [enc sd length]. lia.
           ** rewrite NB, !units_cons_last. cbn [sc sd length]. lia.
           ** rewrite (flat_map_snoc _ (segs ++ [_])). f_equal.
              unfold seg_bits. cbn [st sc sd flat_map]. rewrite !app_nil_r. apply wbits_clean; auto.
    + eexists; split; [reflexivity|]. cbn [num_bits]. split; auto.
      exists (segs ++ [Seg t c ds]), (Seg (negb (w =? 0)) 1 []). cbn [blocks last_marker num_bits].
      split; [|split; [|split; [|split]]].
      ** apply Forall_app; split; auto. repeat constructor; cbn; lia.
      ** rewrite B, app_assoc, set_back_app. rewrite flat_map_snoc. f_equal.
         change 0 with (mk false 0 0). rewrite set_marker_type_mk, set_marker_num_clean_mk by lia. reflexivity.
      ** rewrite LEN, flat_map_snoc, app_length. fold A. cbn [enc sd length]. lia.
      ** rewrite NB, !units_cons_last. cbn [sc sd length]. lia.
      ** rewrite (flat_map_snoc _ (segs ++ [_])). f_equal.
         unfold seg_bits. cbn [st sc sd flat_map]. rewrite !app_nil_r. apply wbits_clean; auto.
  - unfold bump_dirty_count. rewrite FE.
    assert (Nat.ltb (last_marker e) (length (blocks e)) = true) as -> by (apply Nat.ltb_lt; lia).
    cbn [andb negb]. rewrite AT, marker_num_dirty_mk by auto.
    destruct (N.eqb_spec (N.of_nat (length ds)) marker_dirty_max) as [DM|DM]; rewrite dirty_max_val in DM.
    + eexists; split; [reflexivity|]. cbn [num_bits]. split; auto.
      exists (segs ++ [Seg t c ds]), (Seg false 0 [w]). cbn [blocks last_marker num_bits].
      split; [|split; [|split; [|split]]].
      ** apply Forall_app; split; auto. repeat constructor; cbn; auto; lia.
      ** rewrite BK, B, app_assoc, set_back_app. rewrite flat_map_snoc.
         rewrite <- app_assoc. cbn [enc seg_marker st sc sd length N.of_nat app].
         rewrite mk_dirty_1. fold A. reflexivity.
      ** rewrite LEN, flat_map_snoc, app_length. fold A. cbn [enc sd length]. lia.
      ** rewrite NB, !units_cons_last. cbn [sc sd length]. lia.
      ** rewrite (flat_map_snoc _ (segs ++ [_])). f_equal.

    + eexists; split; [reflexivity|]. cbn [num_bits]. split; auto.
      exists segs, (Seg t c (ds ++ [w])). cbn [blocks last_marker num_bits].
      assert (LD : N.of_nat (length (ds ++ [w])) = N.of_nat (length ds) + 1) by (rewrite app_length; cbn; lia).
      split; [|split; [|split; [|split]]].
      ** apply Forall_app; split; auto. apply Forall_cons; auto. apply seg_ok_intro; auto.
         --- rewrite LD. lia.
         --- apply Forall_app; auto.
      ** rewrite B, L. cbn [enc app seg_marker st sc sd]. rewrite set_at_mid.
         rewrite set_marker_num_dirty_mk by lia. unfold enc, seg_marker. cbn [st sc sd].
         rewrite LD. reflexivity.
      ** auto.
      ** rewrite NB, !units_cons_last. cbn [sc sd]. rewrite LD. lia.
      ** rewrite !flat_map_snoc, seg_bits_snoc_dirty, app_assoc. reflexivity.
Qed.

(** * Appending *)

Definition halfB (bs : list N) (lm : nat) (u : N) (l : list bool) : Prop :=
  exists segs s, Forall seg_ok (segs ++ [s]) /\
    bs = flat_map enc segs ++ enc s /\ lm = length (flat_map enc segs) /\
    u = units (segs ++ [s]) /\ l = flat_map seg_bits (segs ++ [s]).

Lemma half_halfB : forall e l, half e l <->
  exists u, num_bits e = 64 * u /\ halfB (blocks e) (last_marker e) u l.
Proof.
  intros. split.
  - intros (segs & s & H1 & H2 & H3 & H4 & H5). exists (units (segs ++ [s])). split; auto.
    exists segs, s. auto.
  - intros (u & H & segs & s & H1 & H2 & H3 & H4 & H5). exists segs, s. subst u. auto.
Qed.

Lemma halfB_push : forall bs lm u l w k, halfB bs lm u l -> 1 <= k <= 64 -> w < 2 ^ k ->
  repr (Ewah (bs ++ [w]) lm (64 * u + k)) (l ++ wbits (N.to_nat k) w).
Proof.
  intros bs lm u l w k (segs & s & H1 & H2 & H3 & H4 & H5) Hk Hw.
  exists segs, s, w, k. cbn [blocks last_marker num_bits]. subst.
  rewrite app_assoc. auto 10.
Qed.

Lemma half_push : forall e l w k, half e l -> 1 <= k <= 64 -> w < 2 ^ k ->
  repr (Ewah (blocks e ++ [w]) (last_marker e) (num_bits e + k)) (l ++ wbits (N.to_nat k) w).
Proof.
  intros e l w k H Hk Hw. apply half_halfB in H as (u & -> & H). now apply halfB_push.
Qed.

Lemma halfB_init : halfB [0] 0 0 [].
Proof.
  exists [], (Seg false 0 []). repeat split; try reflexivity. repeat constructor.
Qed.

Lemma half_init : half (Ewah [0] 0 0) [].
Proof. apply half_halfB. exists 0. split; auto. apply halfB_init. Qed.

Lemma repr_extend : forall e l v j, repr e l -> full e = false ->
  1 <= j -> num_bits e mod width + j <= 64 -> v < 2 ^ j ->
  repr (Ewah (set_back (blocks e) (N.lor (back (blocks e)) (wshl v (num_bits e mod width))))
             (last_marker e) (num_bits e + j)) (l ++ wbits (N.to_nat j) v).
Proof.
  intros e l v j (segs & s & w & k & F & Hk & Hw & B & L & NB & ->) Fu Hj Hs Hv.
  rewrite (full_iff _ _ _ NB Hk) in Fu. 
  assert (P : num_bits e mod width = k) by (rewrite NB, partial_val by auto; now rewrite Fu).
  rewrite P in *. apply N.eqb_neq in Fu.
  assert (SH : wshl v k = N.shiftl v k).
  { unfold wshl. apply wrap_small. rewrite N.shiftl_mul_pow2.
    apply N.lt_le_trans with (2 ^ j * 2 ^ k); [apply N.mul_lt_mono_pos_r; auto; apply pow2_pos|].
    rewrite <- N.pow_add_r. apply N.pow_le_mono_r; lia. }
  exists segs, s, (N.lor w (N.shiftl v k)), (k + j). cbn [blocks last_marker num_bits].
  split; [auto|]. split; [lia|]. split; [|split; [|split; [|split]]].
  - rewrite lor_shiftl_add by auto. rewrite N.pow_add_r. pose proof (pow2_pos k). nia.
  - rewrite B, SH, !(app_assoc _ (enc s)), back_app, set_back_app. reflexivity.
  - auto.
  - rewrite NB. lia.
  - rewrite <- app_assoc. f_equal.
    replace (N.shiftl v k) with (N.shiftl v (N.of_nat (N.to_nat k))) by now rewrite N2Nat.id.
    rewrite wbits_lor_shift; [|lia|now rewrite N2Nat.id].
    f_equal. f_equal. lia.
Qed.

Lemma halfB_add_segs : forall bs lm u l new, halfB bs lm u l -> new <> [] ->
  Forall seg_ok new -> (forall s, In s new -> sd s = []) ->
  halfB (bs ++ flat_map enc new) (length (bs ++ flat_map enc new) - 1) (u + units new)
        (l ++ flat_map seg_bits new).
Proof.
  intros bs lm u l new (segs & s & H1 & H2 & H3 & H4 & H5) Hn Fn Dn.
  destruct (exists_last Hn) as (front & x & ->).
  exists (segs ++ [s] ++ front), x.
  assert (E : (segs ++ [s] ++ front) ++ [x] = (segs ++ [s]) ++ front ++ [x]) by now rewrite <- !app_assoc.
  rewrite E. split; [apply Forall_app; auto|]. split; [|split; [|split]].
  - subst bs. rewrite !flat_map_app. cbn [flat_map]. rewrite !app_nil_r, <- !app_assoc. reflexivity.
  - subst bs. rewrite !flat_map_app. cbn [flat_map]. rewrite !app_nil_r, !app_length.
    assert (length (enc x) = 1%nat).
    { unfold enc. rewrite (Dn x); auto. apply in_or_app. right. now left. }
    lia.
  - rewrite (units_app (segs ++ [s])). now subst u.
  - rewrite (flat_map_app seg_bits (segs ++ [s])). now subst l.
Qed.

(** Extending the clean run of a final marker without dirty words. *)
Lemma halfB_bump_clean : forall bs lm u l b n,
  halfB bs lm u l -> lm = (length bs - 1)%nat ->
  let m := at_ bs lm in
  marker_type m = b \/ m = 0 ->
  marker_num_clean m + n < 2 ^ 32 ->
  halfB (set_at bs lm (set_marker_type (set_marker_num_clean m (marker_num_clean m + n)) b)) lm
        (u + n) (l ++ repeat b (N.to_nat (64 * n))).
Proof.
  intros bs lm u l b n (segs & [t c ds] & H1 & H2 & H3 & H4 & H5) Hlm m Ht Hn.
  apply Forall_app in H1 as [F1 F2]. apply Forall_cons_iff in F2 as [(O1 & O2 & O3) _].
  cbn [sc sd st] in *.
  assert (ds = []).
  { subst bs lm. rewrite app_length in Hlm. cbn [enc sd length] in Hlm. destruct ds; [auto|cbn in Hlm; lia]. }
  subst ds.
  assert (M : m = mk t c 0). { subst m bs lm. unfold enc, seg_marker. cbn [st sc sd length]. apply at_mid. }
  rewrite M in *. rewrite marker_num_clean_mk, marker_type_mk in * by auto.
  rewrite set_marker_num_clean_mk, set_marker_type_mk by (auto; lia).
  assert (Tb : t = b \/ (c = 0)).
  { destruct Ht as [->|Hm]; auto. apply mk_0_inv in Hm as (_ & -> & _); auto. }
  exists segs, (Seg b (c + n) []). split; [|split; [|split; [|split]]].
  - apply Forall_app. split; auto. apply Forall_cons; auto. apply seg_ok_intro; auto; cbn; lia.
  - subst bs lm. unfold enc, seg_marker. cbn [st sc sd length]. now rewrite set_at_mid.
  - auto.
  - subst u. rewrite !units_cons_last. cbn [sc sd length]. lia.
  - subst l. rewrite !flat_map_snoc, !seg_bits_clean, <- app_assoc. f_equal.
    destruct Tb as [->| ->].
    + rewrite <- repeat_app. f_equal. lia.
    + reflexivity.
Qed.

Lemma flat_map_repeat_bits : forall b c m,
  flat_map seg_bits (repeat (Seg b c []) m) = repeat b (N.to_nat (64 * c) * m).
Proof.
  induction m as [|m IH]; [now rewrite Nat.mul_0_r|].
  cbn [repeat flat_map]. rewrite IH, seg_bits_clean, <- repeat_app. f_equal. lia.
Qed.

Lemma flat_map_repeat_enc : forall b c m,
  flat_map enc (repeat (Seg b c []) m) = repeat (mk b c 0) m.
Proof. induction m as [|m IH]; auto. cbn [repeat flat_map]. now rewrite IH. Qed.

Lemma units_repeat : forall b c m, units (repeat (Seg b c []) m) = c * N.of_nat m.
Proof.
  induction m as [|m IH]; [cbn; lia|]. cbn [repeat].
  change (units (Seg b c [] :: repeat (Seg b c []) m)) with (c + 0 + units (repeat (Seg b c []) m)).
  rewrite IH. lia.
Qed.

Lemma fill_word : forall (b : bool) k, 1 <= k <= 64 ->
  (if b then lsb_fill k else none) < 2 ^ k /\
  wbits (N.to_nat k) (if b then lsb_fill k else none) = repeat b (N.to_nat k).
Proof.
  intros [|] k Hk.
  - rewrite lsb_fill_ones by lia. split; [apply ones_lt|]. apply wbits_ones. lia.
  - split; [apply pow2_pos|]. apply wbits_0.
Qed.

Lemma append_bits_aligned_repr : forall b n e l, half e l -> 0 < n ->
  repr (append_bits_aligned b n e) (l ++ repeat b (N.to_nat n)) /\
  num_bits (append_bits_aligned b n e) = num_bits e + n.
Proof.
  intros b n e l H Hn. unfold append_bits_aligned.
  destruct (N.leb_spec n width) as [Hw|Hw]; unfold width in Hw.
  { split; auto. destruct (fill_word b n ltac:(lia)) as [F1 F2].
    rewrite <- F2. apply half_push; auto. lia. }
  (* decompose n *)
  assert (exists cb rem, (if n mod width =? 0 then (n / width - 1, width) else (n / width, n mod width)) = (cb, rem)
          /\ n = 64 * cb + rem /\ 1 <= rem <= 64 /\ 1 <= cb) as (cb & rem & -> & Hnn & Hrem & Hcb).
  { unfold width. pose proof (N.div_mod' n 64). pose proof (N.mod_lt n 64 ltac:(lia)).
    destruct (N.eqb_spec (n mod 64) 0).
    - exists (n / 64 - 1), 64. repeat split; auto; try lia.
    - exists (n / 64), (n mod 64). repeat split; auto; try lia. }
  apply half_halfB in H as (u & NB & H).
  set (marker := at_ (blocks e) (last_marker e)) in *.
  (* reuse of the last marker *)
  set (reuse := (Nat.eqb (last_marker e) (length (blocks e) - 1) && Bool.eqb (marker_type marker) b)
                || (Nat.eqb (last_marker e) 0 && (marker =? 0))).
  assert (exists marker' cb' nb,
     (if reuse
      then (set_marker_type (set_marker_num_clean marker (marker_num_clean marker +
              N.min (marker_clean_max - marker_num_clean marker) cb)) b,
            cb - N.min (marker_clean_max - marker_num_clean marker) cb)
      else (marker, cb)) = (marker', cb') /\ cb = nb + cb' /\
     halfB (set_at (blocks e) (last_marker e) marker') (last_marker e) (u + nb)
           (l ++ repeat b (N.to_nat (64 * nb)))) as (marker' & cb' & nb & -> & Hcb' & H').
  { destruct H as (segs & [t c ds] & H1 & H2 & H3 & H4 & H5).
    assert (M : marker = mk t c (N.of_nat (length ds))).
    { subst marker. rewrite H2, H3. unfold enc, seg_marker. cbn [st sc sd]. apply at_mid. }
    pose proof H1 as H1'. apply Forall_app in H1' as [F1 F2].
    apply Forall_cons_iff in F2 as [(O1 & O2 & O3) _]. cbn [sc sd st] in *.
    destruct reuse eqn:R.
    - assert (R' : last_marker e = (length (blocks e) - 1)%nat /\ (marker_type marker = b \/ marker = 0)).
      { apply orb_true_iff in R as [R|R]; apply andb_prop in R as [R1 R2].
        - apply Nat.eqb_eq in R1. apply eqb_prop in R2. auto.
        - apply Nat.eqb_eq in R1. apply N.eqb_eq in R2. split; auto.
          rewrite M in R2. apply mk_0_inv in R2 as (_ & _ & R2); auto.
          rewrite H2, app_length, <- H3, R1. cbn [enc sd length]. destruct ds; [reflexivity|cbn in R2; lia]. }
      destruct R' as [R1 R2].
      eexists _, _, _. split; [reflexivity|]. split; cycle 1.
      + apply halfB_bump_clean; auto.
        * exists segs, (Seg t c ds). auto.
        * fold marker. rewrite M, marker_num_clean_mk by auto. rewrite clean_max_val. lia.
      + lia.
    - exists marker, cb, 0. split; auto. split; [lia|].
      rewrite N.add_0_r. change (repeat b (N.to_nat (64 * 0))) with (@nil bool). rewrite app_nil_r.
      exists segs, (Seg t c ds). split; auto. split; auto.
      rewrite H2, H3. unfold enc, seg_marker. cbn [st sc sd]. rewrite set_at_mid.
      rewrite M. reflexivity. }
  clear reuse. clearbody marker.
  destruct (N.ltb_spec 0 cb') as [Hc|Hc].
  - (* new markers *)
    assert (ND : (if Nat.eqb (last_marker e) (length (blocks e) - 1)
                  then set_marker_num_dirty marker' 0 else marker') = marker').
    { destruct (Nat.eqb_spec (last_marker e) (length (blocks e) - 1)) as [Q|]; auto.
      destruct H' as (segs & [t c ds] & G1 & G2 & G3 & G4 & G5).
      apply Forall_app in G1 as [_ G1]. apply Forall_cons_iff in G1 as [(O1 & O2 & O3) _]. cbn [sc sd st] in *.
      assert (LS : length (set_at (blocks e) (last_marker e) marker') = length (blocks e)).
      { apply set_at_length. }
      assert (ds = []).
      { rewrite G2, app_length in LS. cbn [enc sd length] in LS. destruct ds; [auto|cbn in LS; lia]. }
      subst ds.
      assert (M' : at_ (set_at (blocks e) (last_marker e) marker') (last_marker e) = marker').
      { destruct H as (segs0 & s0 & _ & Hb & Hl & _). rewrite Hb, Hl. unfold enc.
        rewrite set_at_mid. apply at_mid. }
      rewrite G2 in M'. rewrite G3 in M'. unfold enc, seg_marker in M'. cbn [st sc sd length] in M'.
      rewrite at_mid in M'. rewrite <- M'. apply set_marker_num_dirty_mk; auto; lia. }
    rewrite ND.
    clear ND.
    set (q := cb' / marker_clean_max). set (r := cb' mod marker_clean_max).
    pose proof (N.div_mod' cb' marker_clean_max) as DM. fold q in DM. fold r in DM.
    assert (Hr : r < marker_clean_max) by (apply N.mod_lt; discriminate).
    clearbody q r.
    set (new := repeat (Seg b marker_clean_max []) (N.to_nat q)
                ++ (if 0 <? r then [Seg b r []] else [])).
    assert (NE : new <> []).
    { subst new. destruct (N.ltb_spec 0 r) as [|Hz].
      - intro E. apply app_eq_nil in E as [_ E]. discriminate.
      - assert (q <> 0) by (intros ->; lia).
        destruct (N.to_nat q) eqn:Q; [lia|]. discriminate. }
    assert (EN : flat_map enc new = repeat (set_marker_type marker_clean_mask b) (N.to_nat q)
                 ++ (if 0 <? r then [set_marker_type (set_marker_num_clean 0 r) b] else [])).
    { subst new. rewrite flat_map_app, flat_map_repeat_enc, full_marker. f_equal.
      destruct (0 <? r); auto. cbn [flat_map enc seg_marker st sc sd length app].
      rewrite clean_max_val in Hr.
      change 0 with (mk false 0 0) at 1. rewrite set_marker_num_clean_mk, set_marker_type_mk by lia. reflexivity. }
    assert (UN : units new = cb').
    { subst new. rewrite units_app, units_repeat, N2Nat.id. 
      destruct (N.ltb_spec 0 r); cbn [units fold_right sc sd length]; lia. }
    assert (BN : flat_map seg_bits new = repeat b (N.to_nat (64 * cb'))).
    { subst new. rewrite flat_map_app, flat_map_repeat_bits.
      destruct (N.ltb_spec 0 r).
      - cbn [flat_map]. rewrite app_nil_r, seg_bits_clean, <- repeat_app. f_equal. lia.
      - cbn [flat_map]. rewrite app_nil_r. f_equal. lia. }
    set (bs0 := set_at (blocks e) (last_marker e) marker') in *.
    assert (BS : (if 0 <? r then (bs0 ++ repeat (set_marker_type marker_clean_mask b) (N.to_nat q))
                   ++ [set_marker_type (set_marker_num_clean 0 r) b]
                  else bs0 ++ repeat (set_marker_type marker_clean_mask b) (N.to_nat q))
                 = bs0 ++ flat_map enc new).
    { rewrite EN. destruct (0 <? r); [now rewrite <- app_assoc|now rewrite app_nil_r]. }
    rewrite BS. cbn [fst snd].
    assert (0 <? rem = true) as -> by lia. split; auto.
    assert (HH : halfB (bs0 ++ flat_map enc new) (length (bs0 ++ flat_map enc new) - 1)
                   (u + nb + units new) ((l ++ repeat b (N.to_nat (64 * nb))) ++ flat_map seg_bits new)).
    { apply halfB_add_segs with (lm := last_marker e); auto.
      - subst new. apply Forall_app. split.
        + apply Forall_forall. intros x Hx. apply repeat_spec in Hx. subst x.
          apply seg_ok_intro; auto; cbn; lia.
        + rewrite clean_max_val in Hr. destruct (0 <? r); auto. apply Forall_cons; auto.
          apply seg_ok_intro; auto; cbn; lia.
      - subst new. intros x Hx. apply in_app_or in Hx as [Hx|Hx].
        + apply repeat_spec in Hx. now subst x.
        + destruct (0 <? r); [|destruct Hx]. destruct Hx as [<-|[]]. reflexivity. }
    rewrite UN, BN in HH. destruct (fill_word b rem Hrem) as [F1 F2].
    pose proof (halfB_push _ _ _ _ _ _ HH Hrem F1) as R. rewrite F2 in R.
    replace (num_bits e + n) with (64 * (u + nb + cb') + rem) by lia.
    replace (l ++ repeat b (N.to_nat n)) with
      (((l ++ repeat b (N.to_nat (64 * nb))) ++ repeat b (N.to_nat (64 * cb'))) ++ repeat b (N.to_nat rem)); auto.
    rewrite <- !app_assoc, <- !repeat_app. f_equal. f_equal. lia.
  - assert (0 <? rem = true) as -> by lia. split; auto.
    destruct (fill_word b rem Hrem) as [F1 F2].
    pose proof (halfB_push _ _ _ _ _ _ H' Hrem F1) as R. rewrite F2 in R.
    replace (num_bits e + n) with (64 * (u + nb) + rem) by lia.
    replace (l ++ repeat b (N.to_nat n)) with
      ((l ++ repeat b (N.to_nat (64 * nb))) ++ repeat b (N.to_nat rem)); auto.
    rewrite <- !app_assoc, <- !repeat_app. f_equal. f_equal. lia.
Qed.

Lemma repr_blocks : forall e l, repr e l -> exists x y bs, blocks e = x :: y :: bs.
Proof.
  intros e l (segs & s & w & k & F & Hk & Hw & B & L & NB & E).
  destruct (blocks e) as [|x [|y bs]] eqn:Q; [| |eauto]; exfalso;
    apply (f_equal (@length N)) in B; rewrite !app_length in B; cbn [enc length] in B; lia.
Qed.

Lemma partial_full : forall e, full e = (num_bits e mod width =? 0).
Proof. reflexivity. Qed.

Lemma append_bit_rel : forall b e l, rel e l ->
  exists e', append_bit b e = Some e' /\ repr e' (l ++ [b]) /\ num_bits e' = num_bits e + 1.
Proof.
  intros b e l [[-> ->]|R].
  - unfold append_bit, ewah_empty. cbn [num_bits blocks last_marker].
    eexists; split; [reflexivity|]. split; [|reflexivity]. cbn [app].
    pose proof (half_push _ _ (if b then 1 else 0) 1 half_init ltac:(lia)
      ltac:(destruct b; cbn; lia)) as H.
    cbn [blocks last_marker num_bits app] in H.
    destruct b; exact H.
  - destruct (repr_blocks e l R) as (x & y & bs & Q). unfold append_bit. rewrite Q. rewrite <- Q.
    rewrite <- partial_full. destruct (full e) eqn:Fu.
    + destruct (integrate_half e l R Fu) as (e1 & -> & H1 & N1). cbn [option_map].
      eexists; split; [reflexivity|]. cbn [num_bits blocks last_marker]. split; [|congruence].
      pose proof (half_push _ _ (if b then 1 else 0) 1 H1 ltac:(lia) ltac:(destruct b; cbn; lia)) as H.
      assert (P : num_bits e mod width = 0) by (apply N.eqb_eq; exact Fu). rewrite P.
      rewrite set_back_app. destruct b; [rewrite back_app; exact H|exact H].
    + eexists; split; [reflexivity|]. cbn [num_bits]. split; auto.
      assert (P : num_bits e mod width < 64) by (apply N.mod_lt; discriminate).
      pose proof (repr_extend e l (if b then 1 else 0) 1 R Fu ltac:(lia) ltac:(lia) ltac:(destruct b; cbn; lia)) as H.
      change (wbits (N.to_nat 1) (if b then 1 else 0)) with [N.testbit (if b then 1 else 0) 0] in H.
      destruct b; auto.
      assert (Z : wshl 0 (num_bits e mod width) = 0) by (unfold wshl; rewrite N.shiftl_0_l; reflexivity).
      rewrite Z, N.lor_0_r in H. rewrite Q in *.
      replace (set_back (x :: y :: bs) (back (x :: y :: bs))) with (x :: y :: bs) in H; auto.
      unfold set_back, back. apply app_removelast_last. discriminate.
Qed.

Lemma set_back_same : forall l, l <> [] -> set_back l (back l) = l.
Proof. intros. unfold set_back, back. symmetry. now apply app_removelast_last. Qed.

Lemma append_bits_rel : forall b n e l, rel e l ->
  exists e', append_bits b n e = Some e' /\ rel e' (l ++ repeat b (N.to_nat n)) /\
    num_bits e' = num_bits e + n.
Proof.
  intros b n e l R. unfold append_bits. destruct (N.eqb_spec n 0) as [->|Hn].
  { exists e. cbn [N.to_nat repeat]. rewrite app_nil_r, N.add_0_r. auto. }
  destruct R as [[-> ->]|R].
  - cbn [blocks ewah_empty last_marker num_bits].
    destruct (append_bits_aligned_repr b n _ _ half_init ltac:(lia)) as [H1 H2].
    eexists; split; [reflexivity|]. split; auto. right. exact H1.
  - destruct (repr_blocks e l R) as (x & y & bs & Q). rewrite Q. rewrite <- Q.
    destruct (N.ltb_spec 0 (num_bits e mod width)) as [Hp|Hp].
    + assert (Fu : full e = false) by (rewrite partial_full; lia).
      assert (P : num_bits e mod width < 64) by (apply N.mod_lt; discriminate).
      set (p := num_bits e mod width) in *. change (width - p) with (64 - p).
      set (fill := N.min n (64 - p)).
      pose proof (repr_extend e l (if b then lsb_mask fill else 0) fill R Fu ltac:(lia) ltac:(lia)
        ltac:(destruct b; [rewrite lsb_mask_ones by lia; apply ones_lt|apply pow2_pos])) as H.
      fold p in H.
      assert (WB : wbits (N.to_nat fill) (if b then lsb_mask fill else 0) = repeat b (N.to_nat fill)).
      { destruct b; [rewrite lsb_mask_ones by lia; apply wbits_ones; lia|apply wbits_0]. }
      rewrite WB in H.
      assert (SB : set_back (blocks e) (N.lor (back (blocks e)) (wshl (if b then lsb_mask fill else 0) p))
        = if b then set_back (blocks e) (N.lor (back (blocks e)) (wshl (lsb_mask fill) p)) else blocks e).
      { destruct b; auto.
        assert (Z : wshl 0 p = 0) by (unfold wshl; rewrite N.shiftl_0_l; reflexivity).
        rewrite Z, N.lor_0_r. apply set_back_same. rewrite Q. discriminate. }
      rewrite SB in H. clear SB.
      set (e1 := Ewah (if b then _ else _) _ _) in *.
      assert (N1 : num_bits e1 = num_bits e + fill) by reflexivity.
      destruct (N.eqb_spec (n - fill) 0) as [Z|Z].
      * exists e1. split; auto. assert (NF : n = fill) by lia. rewrite NF. split; auto. right; auto.
      * assert (Ff : full e1 = true).
        { rewrite partial_full, N1. replace fill with (64 - p) by lia. subst p. unfold width.
          pose proof (N.div_mod' (num_bits e) 64).
          replace (num_bits e + (64 - num_bits e mod 64)) with (0 + (num_bits e / 64 + 1) * 64).
          - rewrite N.mod_add by lia. reflexivity.
          - unfold width in P. lia. }
        destruct (integrate_half e1 _ H Ff) as (e2 & -> & H2 & N2). cbn [option_map].
        destruct (append_bits_aligned_repr b (n - fill) _ _ H2 ltac:(lia)) as [H3 H4].
        eexists; split; [reflexivity|]. split; [|rewrite H4, N2, N1; lia].
        right. rewrite <- app_assoc, <- repeat_app in H3.
        replace (N.to_nat n) with (N.to_nat fill + N.to_nat (n - fill))%nat by lia. exact H3.
    + assert (Fu : full e = true) by (rewrite partial_full; lia).
      destruct (integrate_half e l R Fu) as (e1 & -> & H1 & N1). cbn [option_map].
      destruct (append_bits_aligned_repr b n _ _ H1 ltac:(lia)) as [H3 H4].
      eexists; split; [reflexivity|]. split; [right; auto|]. rewrite H4, N1. reflexivity.
Qed.

Lemma append_block_rel : forall v n e l, rel e l -> 0 < n <= 64 ->
  exists e', append_block v n e = Some e' /\ repr e' (l ++ wbits (N.to_nat n) v) /\
    num_bits e' = num_bits e + n.
Proof.
  intros v n e l R Hn. unfold append_block.
  assert ((0 <? n) && (n <=? width) = true) as -> by (unfold width; lia). cbn [negb].
  assert (V : forall j, 0 < j <= 64 -> N.land v (lsb_fill j) < 2 ^ j /\
     wbits (N.to_nat j) (N.land v (lsb_fill j)) = wbits (N.to_nat j) v).
  { intros j Hj. rewrite lsb_fill_ones by auto. split.
    - rewrite N.land_comm. apply land_lt, ones_lt.
    - apply wbits_land_ones. lia. }
  assert (A : forall e1, half e1 l -> num_bits e1 mod width = 0 ->
    exists e', (if num_bits e1 mod width =? 0
       then Some (Ewah (blocks e1 ++ [N.land v (lsb_fill n)]) (last_marker e1) (num_bits e1 + n))
       else None) = Some e' /\ repr e' (l ++ wbits (N.to_nat n) v) /\ num_bits e' = num_bits e1 + n).
  { intros e1 H1 P. rewrite P. cbn [N.eqb]. eexists; split; [reflexivity|].
    destruct (V n Hn) as [V1 V2]. split; auto. rewrite <- V2. apply half_push; auto. lia. }
  destruct R as [[-> ->]|R].
  - cbn [blocks ewah_empty last_marker num_bits]. destruct (A _ half_init eq_refl) as (e' & E1 & E2 & E3).
    exists e'. split; auto.
  - destruct (repr_blocks e l R) as (x & y & bs & Q). rewrite Q.
    destruct (full e) eqn:Fu.
    + destruct (integrate_half e l R Fu) as (e1 & -> & H1 & N1).
      assert (P : num_bits e1 mod width = 0) by (rewrite N1; apply N.eqb_eq; exact Fu).
      destruct (A _ H1 P) as (e' & E1 & E2 & E3). rewrite P in *. cbn [N.eqb] in *.
      exists e'. rewrite N1 in *. auto.
    + rewrite <- partial_full, Fu.
      assert (P : num_bits e mod width < 64) by (apply N.mod_lt; discriminate).
      assert (P0 : 0 < num_bits e mod width) by (rewrite partial_full in Fu; lia).
      set (p := num_bits e mod width) in *. change (width - p) with (64 - p).
      destruct (N.leb_spec n (64 - p)) as [Hu|Hu].
      * eexists; split; [reflexivity|]. split; auto.
        destruct (V n Hn) as [V1 V2]. rewrite <- V2. apply repr_extend; auto; lia.
      * destruct (V (64 - p) ltac:(lia)) as [V1 V2].
        pose proof (repr_extend e l _ (64 - p) R Fu ltac:(lia) ltac:(lia) V1) as H.
        fold p in H. rewrite V2 in H.
        set (e1 := Ewah _ _ _) in *.
        assert (N1 : num_bits e1 = num_bits e + (64 - p)) by reflexivity.
        assert (Ff : full e1 = true).
        { rewrite partial_full, N1. subst p. unfold width.
          pose proof (N.div_mod' (num_bits e) 64).
          replace (num_bits e + (64 - num_bits e mod 64)) with (0 + (num_bits e / 64 + 1) * 64).
          - rewrite N.mod_add by lia. reflexivity.
          - unfold width in P. lia. }
        destruct (integrate_half e1 _ H Ff) as (e2 & -> & H2 & N2). cbn [option_map].
        eexists; split; [reflexivity|]. cbn [num_bits]. split; [|rewrite N2, N1; lia].
        assert (W : N.land (wshr v (64 - p)) (lsb_fill (n - (64 - p))) < 2 ^ (n - (64 - p)) /\
          wbits (N.to_nat (n - (64 - p))) (N.land (wshr v (64 - p)) (lsb_fill (n - (64 - p)))) =
          wbits (N.to_nat (n - (64 - p))) (N.shiftr v (64 - p))).
        { rewrite lsb_fill_ones by lia. split.
          - rewrite N.land_comm. apply land_lt, ones_lt.
          - apply wbits_land_ones. lia. }
        destruct W as [W1 W2].
        pose proof (half_push _ _ _ (n - (64 - p)) H2 ltac:(lia) W1) as H3.
        rewrite W2 in H3. rewrite <- app_assoc in H3.
        replace (N.shiftr v (64 - p)) with (N.shiftr v (N.of_nat (N.to_nat (64 - p)))) in H3
          by now rewrite N2Nat.id.
        rewrite <- wbits_app in H3.
        replace (N.to_nat (64 - p) + N.to_nat (n - (64 - p)))%nat with (N.to_nat n) in H3 by lia.
        exact H3.
Qed.

(** * Flipping *)

Definition flip_seg (s : seg) : seg :=
  Seg (if 0 <? sc s then negb (st s) else st s) (sc s) (map wnot (sd s)).

Lemma flip_go_dirty : forall ds i rest, rest <> [] ->
  flip_go i (i + N.of_nat (length ds)) (ds ++ rest) =
  map wnot ds ++ flip_go (i + N.of_nat (length ds)) (i + N.of_nat (length ds)) rest.
Proof.
  induction ds as [|d ds IH]; intros i rest Hr.
  - cbn [length app map]. now rewrite N.add_0_r.
  - cbn [app map length flip_go].
    destruct (ds ++ rest) as [|z zs] eqn:Z; [apply app_eq_nil in Z as [_ ->]; congruence|].
    assert (i =? i + N.of_nat (S (length ds)) = false) as -> by lia.
    f_equal. rewrite <- Z. replace (i + N.of_nat (S (length ds))) with (i + 1 + N.of_nat (length ds)) by lia.
    now apply IH.
Qed.

Lemma flip_go_seg : forall s i rest, seg_ok s -> rest <> [] ->
  flip_go i i (enc s ++ rest) =
  enc (flip_seg s) ++ flip_go (i + 1 + N.of_nat (length (sd s))) (i + 1 + N.of_nat (length (sd s))) rest.
Proof.
  intros [t c ds] i rest (O1 & O2 & O3) Hr. cbn [sc sd st] in *.
  unfold enc, flip_seg, seg_marker. cbn [sc sd st app]. cbn [flip_go].
  destruct (ds ++ rest) as [|z zs] eqn:Z; [apply app_eq_nil in Z as [_ ->]; congruence|].
  rewrite N.eqb_refl, marker_num_clean_mk by auto. rewrite map_length.
  assert (M : (if 0 <? c then N.lxor (mk t c (N.of_nat (length ds))) msb1 else mk t c (N.of_nat (length ds)))
          = mk (if 0 <? c then negb t else t) c (N.of_nat (length ds))).
  { destruct (0 <? c); auto. now apply lxor_msb1_mk. }
  rewrite M. rewrite marker_num_dirty_mk by auto. f_equal. rewrite <- Z.
  replace (i + (N.of_nat (length ds) + 1)) with (i + 1 + N.of_nat (length ds)) by lia.
  now apply flip_go_dirty.
Qed.

Lemma flip_go_segs : forall segs i rest, Forall seg_ok segs -> rest <> [] ->
  exists j, flip_go i i (flat_map enc segs ++ rest) =
    flat_map enc (map flip_seg segs) ++ flip_go j j rest.
Proof.
  induction segs as [|s segs IH]; intros i rest F Hr.
  - exists i. reflexivity.
  - apply Forall_cons_iff in F as [F1 F2]. cbn [flat_map map]. rewrite <- app_assoc.
    rewrite flip_go_seg; auto.
    + edestruct IH as [j E]; eauto. exists j. rewrite E. now rewrite <- app_assoc.
    + intro Z. apply app_eq_nil in Z as [_ Z]. auto.
Qed.

Lemma flip_seg_ok : forall s, seg_ok s -> seg_ok (flip_seg s).
Proof.
  intros s (O1 & O2 & O3). unfold flip_seg. apply seg_ok_intro; auto.
  - now rewrite map_length.
  - apply Forall_map. eapply Forall_impl; [|exact O3]. intros. now apply wnot_lt.
Qed.

Lemma map_repeat : forall {A B} (f : A -> B) a n, map f (repeat a n) = repeat (f a) n.
Proof. induction n; cbn; f_equal; auto. Qed.

Lemma flip_seg_bits : forall s, seg_bits (flip_seg s) = map negb (seg_bits s).
Proof.
  intros [t c ds]. unfold seg_bits, flip_seg. cbn [st sc sd]. rewrite map_app, map_repeat. f_equal.
  - destruct (N.ltb_spec 0 c); auto. assert (c = 0) by lia. subst c. reflexivity.
  - induction ds as [|d ds IH]; auto. cbn [map flat_map]. rewrite map_app, IH. f_equal.
    unfold wnot, all. apply wbits_lxor_ones. cbn. lia.
Qed.

Lemma flip_segs_bits : forall segs, flat_map seg_bits (map flip_seg segs) = map negb (flat_map seg_bits segs).
Proof.
  induction segs as [|s segs IH]; auto. cbn [map flat_map]. now rewrite map_app, IH, flip_seg_bits.
Qed.

Lemma flip_segs_len : forall segs, length (flat_map enc (map flip_seg segs)) = length (flat_map enc segs).
Proof.
  induction segs as [|s segs IH]; auto. cbn [map flat_map]. rewrite !app_length, IH. f_equal.
  unfold enc, flip_seg. cbn. now rewrite map_length.
Qed.

Lemma flip_segs_units : forall segs, units (map flip_seg segs) = units segs.
Proof.
  induction segs as [|s segs IH]; auto. cbn [map].
  change (units (flip_seg s :: map flip_seg segs)) with
    (sc s + N.of_nat (length (map wnot (sd s))) + units (map flip_seg segs)).
  rewrite map_length, IH. reflexivity.
Qed.

Lemma flip_rel : forall e l, rel e l ->
  exists e', flip e = Some e' /\ rel e' (map negb l) /\ num_bits e' = num_bits e.
Proof.
  intros e l [[-> ->]|R].
  - exists ewah_empty. split; auto. split; auto. left; auto.
  - destruct (repr_blocks e l R) as (x & y & bs & Q). unfold flip. rewrite Q. rewrite <- Q.
    assert (Nat.leb 2 (length (blocks e)) = true) as -> by (rewrite Q; reflexivity). cbn [negb].
    eexists; split; [reflexivity|]. split; [|reflexivity]. right.
    destruct R as (segs & s & w & k & F & Hk & Hw & B & L & NB & ->).
    assert (FG : flip_go 0 0 (blocks e) = flat_map enc (map flip_seg (segs ++ [s])) ++ [wnot w]).
    { rewrite B, app_assoc. replace (flat_map enc segs ++ enc s) with (flat_map enc (segs ++ [s]))
        by (rewrite flat_map_snoc; reflexivity).
      destruct (flip_go_segs (segs ++ [s]) 0 [w] F) as [j ->]; [discriminate|]. reflexivity. }
    rewrite FG. rewrite NB, partial_val by auto.
    set (w' := if k =? 64 then wnot w else N.land (wnot w) (lsb_mask k)).
    assert (W64 : w < 2 ^ 64).
    { eapply N.lt_le_trans; [exact Hw|]. apply N.pow_le_mono_r; lia. }
    assert (W' : w' < 2 ^ k /\ wbits (N.to_nat k) w' = map negb (wbits (N.to_nat k) w)).
    { subst w'. destruct (N.eqb_spec k 64) as [->|].
      - split; [now apply wnot_lt|]. apply wbits_lxor_ones. cbn. lia.
      - rewrite lsb_mask_ones by lia. split.
        + rewrite N.land_comm. apply land_lt, ones_lt.
        + rewrite wbits_land_ones by lia. apply wbits_lxor_ones. lia. }
    destruct W' as [W1 W2].
    exists (map flip_seg segs), (flip_seg s), w', k. cbn [blocks last_marker num_bits].
    split; [|split; [|split; [|split; [|split; [|split]]]]]; auto.
    + change [flip_seg s] with (map flip_seg [s]). rewrite <- map_app.
      apply Forall_map. eapply Forall_impl; [|exact F]. intros. now apply flip_seg_ok.
    + rewrite map_app. cbn [map]. rewrite flat_map_snoc, <- app_assoc. subst w'.
      destruct (N.eqb_spec k 64) as [->|].
      * reflexivity.
      * assert (0 <? k = true) as -> by lia. rewrite (app_assoc _ _ [wnot w]), back_app, set_back_app.
        now rewrite <- app_assoc.
    + now rewrite flip_segs_len.
    + change [flip_seg s] with (map flip_seg [s]). rewrite <- map_app, flip_segs_units. reflexivity.
    + change [flip_seg s] with (map flip_seg [s]). rewrite <- map_app, flip_segs_bits, map_app, W2.
      reflexivity.
Qed.

(** * Iteration *)

Definition tail_content (ds : list N) (segs : list seg) (k w : N) : list bool :=
  flat_map (wbits 64) ds ++ flat_map seg_bits segs ++ wbits (N.to_nat k) w.

Lemma extend_spec : forall segs ones len ds w, Forall seg_ok segs ->
  N.of_nat (length ds) < 2 ^ 31 ->
  exists len' ds' segs',
    extend ones len (N.of_nat (length ds)) (ds ++ flat_map enc segs ++ [w]) =
      (len', N.of_nat (length ds'), ds' ++ flat_map enc segs' ++ [w]) /\
    Forall seg_ok segs' /\ (Forall (fun w => w < 2 ^ 64) ds -> Forall (fun w => w < 2 ^ 64) ds') /\
    N.of_nat (length ds') < 2 ^ 31 /\ len <= len' /\ len' mod 64 = len mod 64 /\
    (length (ds' ++ flat_map enc segs' ++ [w]) <= length (ds ++ flat_map enc segs ++ [w]))%nat /\
    forall k, repeat ones (N.to_nat len) ++ tail_content ds segs k w =
      repeat ones (N.to_nat len') ++ tail_content ds' segs' k w.
Proof.
  induction segs as [|s segs IH]; intros ones len ds w F Hd.
  - exists len, ds, []. split; [|repeat split; auto; lia].
    destruct ds as [|d ds]; [reflexivity|]. cbn [extend app flat_map].
    destruct (ds ++ [w]) eqn:Z; [apply app_eq_nil in Z as [_ Z]; discriminate|].
    assert (N.of_nat (length (d :: ds)) =? 0 = false) as -> by (cbn [length]; lia). reflexivity.
  - apply Forall_cons_iff in F as [F1 F2]. destruct ds as [|d ds].
    + cbn [app length N.of_nat flat_map]. destruct s as [t c ds].
      destruct F1 as (O1 & O2 & O3). cbn [sc sd st] in *.
      unfold enc at 1. unfold seg_marker. cbn [sc sd st app]. cbn [extend].
      destruct ((ds ++ flat_map enc segs) ++ [w]) eqn:Z; [apply app_eq_nil in Z as [_ Z]; discriminate|].
      rewrite <- Z. cbn [N.eqb]. rewrite marker_type_mk by auto.
      destruct (Bool.eqb t ones) eqn:ET.
      * apply eqb_prop in ET. subst t. rewrite marker_num_clean_mk, marker_num_dirty_mk by auto.
        rewrite <- app_assoc.
        destruct (IH ones (len + c * width) ds w F2 O2) as (len' & ds' & segs' & E1 & E2 & E3 & E4 & E5 & E6 & E7 & E8).
        exists len', ds', segs'. split; [exact E1|]. unfold width in *.
        split; [auto|]. split; [auto|]. split; [auto|]. split; [lia|]. split.
        { rewrite E6. rewrite N.mod_add by lia. reflexivity. }
        split.
        { cbn [app flat_map enc sd length]. rewrite <- app_assoc. lia. }
        intros k. rewrite <- E8. unfold tail_content. cbn [flat_map app].
        unfold seg_bits at 1. cbn [st sc sd]. rewrite <- !app_assoc.
        replace (N.to_nat (len + c * 64)) with (N.to_nat len + N.to_nat (64 * c))%nat by lia.
        rewrite repeat_app, <- !app_assoc. reflexivity.
      * exists len, [], (Seg t c ds :: segs).
        split; [|split; [constructor; auto; now apply seg_ok_intro|repeat split; auto; cbn; lia]].
        cbn [length N.of_nat app flat_map enc seg_marker st sc sd]. rewrite Z. reflexivity.
    + exists len, (d :: ds), (s :: segs). split; [|repeat split; auto; lia].
      cbn [app]. cbn [extend].
      destruct (ds ++ flat_map enc (s :: segs) ++ [w]) eqn:Z.
      { apply app_eq_nil in Z as [_ Z]. apply app_eq_nil in Z as [_ Z]. discriminate. }
      assert (N.of_nat (length (d :: ds)) =? 0 = false) as -> by (cbn [length]; lia). reflexivity.
Qed.

Lemma scan_spec : forall segs ds w size k,
  Forall seg_ok segs -> N.of_nat (length ds) < 2 ^ 31 -> Forall (fun w => w < 2 ^ 64) ds ->
  1 <= k <= 64 -> w < 2 ^ k -> (if size mod width =? 0 then width else size mod width) = k ->
  exists b rest nd, scan size (ds ++ flat_map enc segs ++ [w]) (N.of_nat (length ds)) = Some (b, rest, nd) /\
    bwf b /\ 0 < bsize b /\ (length rest < length (ds ++ flat_map enc segs ++ [w]))%nat /\
    ((rest = [] /\ blist b = tail_content ds segs k w) \/
     (exists ds' segs', rest = ds' ++ flat_map enc segs' ++ [w] /\ nd = N.of_nat (length ds') /\
        Forall seg_ok segs' /\ N.of_nat (length ds') < 2 ^ 31 /\ Forall (fun w => w < 2 ^ 64) ds' /\
        blist b ++ tail_content ds' segs' k w = tail_content ds segs k w)).
Proof.
  induction segs as [|s segs IH]; intros ds w size k F Hd Fd Hk Hw Hs.
  - destruct ds as [|d ds].
    + cbn [app flat_map scan length]. rewrite Hs.
      eexists _, _, _. split; [reflexivity|].
      assert (W64 : w < 2 ^ 64) by (eapply N.lt_le_trans; [exact Hw|]; apply N.pow_le_mono_r; lia).
      split; [apply mk_bits_wf; auto; lia|]. split; [cbn; lia|]. split; [cbn; lia|].
      left. split; auto. rewrite mk_bits_blist by lia. reflexivity.
    + cbn [app flat_map]. cbn [scan].
      destruct (ds ++ [w]) eqn:Z; [apply app_eq_nil in Z as [_ Z]; discriminate|]. rewrite <- Z.
      assert (0 <? N.of_nat (length (d :: ds)) = true) as -> by (cbn [length]; lia).
      apply Forall_cons_iff in Fd as [Fd1 Fd2].
      eexists _, _, _. split; [reflexivity|]. unfold width.
      split; [apply mk_bits_wf; auto; lia|]. split; [cbn; lia|]. split; [cbn; lia|].
      right. exists ds, []. split; [reflexivity|]. split; [cbn [length]; lia|]. split; auto.
      split; [cbn [length] in Hd; lia|]. split; [|rewrite mk_bits_blist by lia; reflexivity]. auto.
  - apply Forall_cons_iff in F as [F1 F2]. destruct ds as [|d ds].
    + cbn [app length N.of_nat flat_map]. destruct s as [t c ds].
      destruct F1 as (O1 & O2 & O3). cbn [sc sd st] in *.
      unfold enc at 1 3. unfold seg_marker. cbn [sc sd st app]. cbn [scan].
      destruct ((ds ++ flat_map enc segs) ++ [w]) eqn:Z; [apply app_eq_nil in Z as [_ Z]; discriminate|].
      rewrite <- Z. cbn [N.ltb N.compare]. rewrite marker_num_clean_mk, marker_num_dirty_mk, marker_type_mk by auto.
      rewrite <- app_assoc. clear Z.
      destruct (N.eqb_spec c 0) as [->|Hc].
      * destruct (IH ds w size k F2 O2 O3 Hk Hw Hs) as (b & rest & nd & E1 & E2 & E3 & E4 & E5).
        exists b, rest, nd. split; [exact E1|]. split; auto. split; auto. split; [cbn [length]; lia|].
        assert (T : tail_content [] (Seg t 0 ds :: segs) k w = tail_content ds segs k w).
        { unfold tail_content. cbn [flat_map app]. unfold seg_bits at 1. cbn [st sc sd].
          change (repeat t (N.to_nat (64 * 0))) with (@nil bool). cbn [app]. now rewrite <- app_assoc. }
        rewrite T. exact E5.
      * destruct (extend_spec segs t (c * width) ds w F2 O2)
          as (len' & ds' & segs' & E1 & E2 & E3 & E4 & E5 & E6 & E7 & E8).
        rewrite E1. eexists _, _, _. split; [reflexivity|]. unfold width in *.
        assert (L64 : 64 <= len') by lia.
        split. { apply mk_bits_wf; [destruct t; [apply ones_lt|apply pow2_pos]|]. intros _. destruct t; auto. }
        split; [cbn [mk_bits bsize]; lia|]. split; [cbn [length]; lia|].
        right. exists ds', segs'. split; auto. split; auto. split; auto. split; auto. split; auto.
        assert (BL : blist (mk_bits (if t then all else none) len') = repeat t (N.to_nat len')).
        { destruct (N.eq_dec len' 64) as [->|].
          - rewrite mk_bits_blist by lia. rewrite wbits_run by (auto; destruct t; auto). destruct t; reflexivity.
          - unfold blist, mk_bits. cbn [bsize bdata]. unfold width.
            assert (64 <? len' = true) as -> by lia. assert (len' <? 64 = false) as -> by lia.
            destruct t; reflexivity. }
        rewrite BL, <- E8. unfold tail_content. cbn [flat_map app]. unfold seg_bits at 2. cbn [st sc sd].
        rewrite <- !app_assoc. f_equal. f_equal. lia.
    + cbn [app]. cbn [scan].
      destruct (ds ++ flat_map enc (s :: segs) ++ [w]) eqn:Z.
      { apply app_eq_nil in Z as [_ Z]. apply app_eq_nil in Z as [_ Z]. discriminate. }
      rewrite <- Z.
      assert (0 <? N.of_nat (length (d :: ds)) = true) as -> by (cbn [length]; lia).
      apply Forall_cons_iff in Fd as [Fd1 Fd2].
      eexists _, _, _. split; [reflexivity|]. unfold width.
      split; [apply mk_bits_wf; auto; lia|]. split; [cbn; lia|]. split; [cbn [length]; lia|].
      right. exists ds, (s :: segs). split; [reflexivity|]. split; [cbn [length]; lia|]. split; auto.
      split; [cbn [length] in Hd; lia|]. split; [|rewrite mk_bits_blist by lia; reflexivity]. auto.
Qed.

Lemma range_go_spec : forall fuel segs ds w size k,
  Forall seg_ok segs -> N.of_nat (length ds) < 2 ^ 31 -> Forall (fun w => w < 2 ^ 64) ds ->
  1 <= k <= 64 -> w < 2 ^ k -> (if size mod width =? 0 then width else size mod width) = k ->
  (length (ds ++ flat_map enc segs ++ [w]) <= fuel)%nat ->
  exists bs, range_go fuel size (ds ++ flat_map enc segs ++ [w]) (N.of_nat (length ds)) = Some bs /\
    Forall (fun b => bwf b /\ 0 < bsize b) bs /\ flat_map blist bs = tail_content ds segs k w.
Proof.
  induction fuel as [|f IH]; intros segs ds w size k F Hd Fd Hk Hw Hs Hf.
  - rewrite !app_length in Hf. cbn in Hf. lia.
  - destruct (scan_spec segs ds w size k F Hd Fd Hk Hw Hs) as (b & rest & nd & E1 & E2 & E3 & E4 & E5).
    cbn [range_go].
    destruct (ds ++ flat_map enc segs ++ [w]) eqn:Z.
    { apply app_eq_nil in Z as [_ Z]. apply app_eq_nil in Z as [_ Z]. discriminate. }
    rewrite E1.
    destruct E5 as [[-> E5]|(ds' & segs' & -> & -> & G1 & G2 & G3 & G4)].
    + exists [b]. split; [destruct f; reflexivity|]. split; [repeat constructor; auto|].
      cbn [flat_map]. now rewrite app_nil_r.
    + destruct (IH segs' ds' w size k G1 G2 G3 Hk Hw Hs) as (bs & -> & B1 & B2); [lia|].
      exists (b :: bs). split; [reflexivity|]. split; [constructor; auto|].
      cbn [flat_map]. now rewrite B2.
Qed.

Lemma range_rel : forall e l, rel e l ->
  exists bs, bit_range e = Some bs /\ Forall (fun b => bwf b /\ 0 < bsize b) bs /\ flat_map blist bs = l.
Proof.
  intros e l [[-> ->]|R].
  - exists []. repeat split; auto.
  - destruct R as (segs & s & w & k & F & Hk & Hw & B & L & NB & ->).
    unfold bit_range. rewrite B.
    replace (flat_map enc segs ++ enc s ++ [w]) with ([] ++ flat_map enc (segs ++ [s]) ++ [w])
      by (rewrite flat_map_snoc, <- app_assoc; reflexivity).
    apply (range_go_spec _ (segs ++ [s]) [] w (num_bits e) k); auto.
    + cbn. lia.
    + rewrite NB, partial_val by auto. unfold width. destruct (N.eqb_spec k 64) as [->|]; [reflexivity|].
      assert (k =? 0 = false) as -> by lia. reflexivity.
Qed.

Lemma seg_bits_length : forall segs, length (flat_map seg_bits segs) = N.to_nat (64 * units segs).
Proof.
  induction segs as [|s segs IH]; auto. cbn [flat_map]. rewrite app_length, IH.
  change (units (s :: segs)) with (sc s + N.of_nat (length (sd s)) + units segs).
  assert (length (seg_bits s) = N.to_nat (64 * (sc s + N.of_nat (length (sd s))))).
  { unfold seg_bits. rewrite app_length, repeat_length.
    assert (length (flat_map (wbits 64) (sd s)) = (64 * length (sd s))%nat) as ->.
    { induction (sd s) as [|d ds IHd]; auto. cbn [flat_map length]. rewrite app_length, IHd, wbits_length. lia. }
    lia. }
  lia.
Qed.

Lemma rel_size : forall e l, rel e l -> num_bits e = N.of_nat (length l).
Proof.
  intros e l [[-> ->]|R]; [reflexivity|].
  destruct R as (segs & s & w & k & F & Hk & Hw & B & L & NB & ->).
  rewrite NB, app_length, seg_bits_length, wbits_length. lia.
Qed.

(** * Generic append *)

Lemma append_seq_rel : forall b e l, rel e l -> bwf b ->
  exists e', append_seq b e = Some e' /\ rel e' (l ++ blist b).
Proof.
  intros b e l R W. unfold append_seq, is_run, bempty, width, blist.
  unfold bwf in W. destruct (N.ltb_spec 64 (bsize b)).
  - destruct (append_bits_rel (negb (bdata b =? 0)) (bsize b) e l R) as (e' & -> & H1 & H2).
    exists e'. split; auto.
  - destruct (N.eqb_spec (bsize b) 0) as [Z|Z]; cbn [negb].
    + exists e. rewrite Z. cbn [N.to_nat wbits seq map]. rewrite app_nil_r. auto.
    + destruct (append_block_rel (bdata b) (bsize b) e l R) as (e' & -> & H1 & H2); [lia|].
      exists e'. split; auto. right; auto.
Qed.

Lemma append_seqs_rel : forall bs e l, rel e l -> Forall bwf bs ->
  exists e', append_seqs bs e = Some e' /\ rel e' (l ++ flat_map blist bs).
Proof.
  induction bs as [|b bs IH]; intros e l R F.
  - exists e. cbn [flat_map]. rewrite app_nil_r. auto.
  - apply Forall_cons_iff in F as [F1 F2]. cbn [append_seqs flat_map].
    destruct (append_seq_rel b e l R F1) as (e1 & -> & R1).
    destruct (IH e1 _ R1 F2) as (e' & -> & R'). exists e'. rewrite app_assoc. auto.
Qed.

Lemma append_rel : forall o e l m, rel o m -> rel e l ->
  exists e', append o e = Some e' /\ rel e' (l ++ m).
Proof.
  intros o e l m Ro Re. unfold append. destruct (range_rel o m Ro) as (bs & -> & F & <-).
  apply append_seqs_rel; auto. eapply Forall_impl; [|exact F]. now intros a [].
Qed.

Lemma bitmap_at_go_spec : forall bs n i, n <= i -> i < n + N.of_nat (length (flat_map blist bs)) ->
  bitmap_at_go bs n i = Some (nth (N.to_nat (i - n)) (flat_map blist bs) false).
Proof.
  induction bs as [|b bs IH]; intros n i H1 H2.
  - cbn in H2. lia.
  - cbn [bitmap_at_go flat_map] in *. rewrite app_length, blist_length in H2.
    assert (n <=? i = true) as -> by lia. cbn [andb].
    destruct (N.ltb_spec i (n + bsize b)).
    + rewrite app_nth1 by (rewrite blist_length; lia). rewrite bits_at_spec by lia. reflexivity.
    + rewrite IH by lia. rewrite app_nth2 by (rewrite blist_length; lia).
      rewrite blist_length. f_equal. f_equal. lia.
Qed.

Lemma bitmap_at_rel : forall e l i, rel e l -> i < num_bits e ->
  bitmap_at e i = Some (nth (N.to_nat i) l false).
Proof.
  intros e l i R Hi. rewrite (rel_size e l R) in Hi.
  unfold bitmap_at. destruct (range_rel e l R) as (bs & -> & F & <-).
  rewrite bitmap_at_go_spec by lia. now rewrite N.sub_0_r.
Qed.
