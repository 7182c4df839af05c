(** Proofs about the binary bitmap operations and [make_ids]. *)
From Coq Require Import List ZArith NArith Lia Bool Permutation ZifyBool ZifyNat ZifyN.
From Verif Require Import NBits WordModel WordProofs EwahModel EwahProofs BitmapAlgoModel.
Import ListNotations.
Open Scope N_scope.

(** * Pointwise combination of bit lists *)

Fixpoint pw (f : bool -> bool -> bool) (l r : list bool) : list bool :=
  match l, r with
  | [], _ => map (f false) r
  | _, [] => map (fun a => f a false) l
  | a :: l', b :: r' => f a b :: pw f l' r'
  end.

Lemma pw_length : forall f l r, length (pw f l r) = Nat.max (length l) (length r).
Proof.
  induction l as [|a l IH]; intros [|b r]; cbn; rewrite ?map_length; auto.
Qed.

Lemma pw_nth_lt : forall f l r i, (i < Nat.max (length l) (length r))%nat ->
  nth i (pw f l r) false = f (nth i l false) (nth i r false).
Proof.
  intros f. induction l as [|a l IH]; intros [|b r] i H; cbn [pw map length] in *.
  - lia.
  - destruct i; cbn [nth]; auto.
    rewrite nth_indep with (d' := f false false) by (rewrite map_length; lia).
    rewrite map_nth. destruct i; reflexivity.
  - destruct i; cbn [nth]; auto.
    rewrite nth_indep with (d' := f false false) by (rewrite map_length; lia).
    rewrite map_nth with (f := fun a => f a false). destruct i; reflexivity.
  - destruct i; cbn [nth]; auto. apply IH. lia.
Qed.

Lemma pw_nth : forall f, f false false = false -> forall l r i,
  nth i (pw f l r) false = f (nth i l false) (nth i r false).
Proof.
  intros f F l r i. destruct (Nat.lt_ge_cases i (Nat.max (length l) (length r))).
  - now apply pw_nth_lt.
  - rewrite !nth_overflow by (rewrite ?pw_length; lia). auto.
Qed.

Definition zip (f : bool -> bool -> bool) (l r : list bool) : list bool :=
  map (fun p => f (fst p) (snd p)) (combine l r).

Lemma zip_length : forall f l r, length (zip f l r) = Nat.min (length l) (length r).
Proof. intros. unfold zip. now rewrite map_length, combine_length. Qed.

Lemma zip_app : forall f a b c d, length a = length c ->
  zip f (a ++ b) (c ++ d) = zip f a c ++ zip f b d.
Proof.
  unfold zip. induction a as [|x a IH]; intros b [|y c] d H; cbn in *; auto; try discriminate.
  f_equal. apply IH. lia.
Qed.

Lemma zip_nil_r : forall f l, zip f l [] = [].
Proof. intros f [|]; reflexivity. Qed.

Lemma zip_pw : forall f l r,
  pw f l r = zip f l r ++ map (fun a => f a false) (skipn (length r) l) ++ map (f false) (skipn (length l) r).
Proof.
  induction l as [|a l IH]; intros [|b r].
  - reflexivity.
  - reflexivity.
  - cbn. now rewrite app_nil_r.
  - cbn [pw skipn length]. rewrite IH. reflexivity.
Qed.

Lemma zip_wbits : forall f op x y n,
  (forall i, i < N.of_nat n -> N.testbit (op x y) i = f (N.testbit x i) (N.testbit y i)) ->
  wbits n (op x y) = zip f (wbits n x) (wbits n y).
Proof.
  intros f op x y n H. unfold zip, wbits.
  assert (C : forall (l : list nat), combine (map (fun i => N.testbit x (N.of_nat i)) l) (map (fun i => N.testbit y (N.of_nat i)) l)
     = map (fun i => (N.testbit x (N.of_nat i), N.testbit y (N.of_nat i))) l).
  { induction l; cbn; f_equal; auto. }
  rewrite C, map_map. apply map_ext_in. intros i Hi. apply in_seq in Hi. cbn. apply H. lia.
Qed.

Lemma zip_repeat : forall f a b n, zip f (repeat a n) (repeat b n) = repeat (f a b) n.
Proof. unfold zip. induction n; cbn; f_equal; auto. Qed.

(** * The loop *)

Definition bitwise (op : N -> N -> N) (f : bool -> bool -> bool) : Prop :=
  forall x y, x < 2 ^ 64 -> y < 2 ^ 64 -> op x y < 2 ^ 64 /\
    forall i, i < 64 -> N.testbit (op x y) i = f (N.testbit x i) (N.testbit y i).

Definition good (b : bits) : Prop := bwf b /\ 0 < bsize b.

Lemma bwf_empty : bwf empty_bits.
Proof. unfold bwf. cbn. reflexivity. Qed.

Lemma firstn_blist : forall b p, bwf b -> p <= 64 -> p <= bsize b ->
  firstn (N.to_nat p) (blist b) = wbits (N.to_nat p) (bdata b).
Proof.
  intros b p W H1 H2. unfold blist, width. unfold bwf in W.
  destruct (N.ltb_spec 64 (bsize b)).
  - rewrite firstn_repeat. rewrite wbits_run by (tauto || lia). f_equal. lia.
  - rewrite firstn_wbits by lia. reflexivity.
Qed.

Lemma bitwise_runs : forall op f x y, bitwise op f -> (x = 0 \/ x = all) -> (y = 0 \/ y = all) ->
  op x y = if f (negb (x =? 0)) (negb (y =? 0)) then all else 0.
Proof.
  intros op f x y B Hx Hy.
  assert (X : x < 2 ^ 64) by (destruct Hx as [-> | ->]; [apply pow2_pos|apply ones_lt]).
  assert (Y : y < 2 ^ 64) by (destruct Hy as [-> | ->]; [apply pow2_pos|apply ones_lt]).
  destruct (B x y X Y) as [B1 B2].
  apply eq_of_testbit with (k := 64); auto.
  - destruct (f _ _); [apply ones_lt|apply pow2_pos].
  - intros i Hi. rewrite B2 by auto.
    assert (R : forall z, z = 0 \/ z = all -> N.testbit z i = negb (z =? 0)).
    { intros z [-> | ->]; [apply N.bits_0|]. rewrite testbit_all. change (negb (all =? 0)) with true. lia. }
    rewrite (R x Hx), (R y Hy). destruct (f _ _); [rewrite testbit_all; lia|now rewrite N.bits_0].
Qed.

Lemma piece_spec : forall op f lb rb, bitwise op f -> bwf lb -> bwf rb ->
  let p := N.min (bsize lb) (bsize rb) in
  let piece := mk_bits (op (bdata lb) (bdata rb)) p in
  bwf piece /\
  blist piece = zip f (firstn (N.to_nat p) (blist lb)) (firstn (N.to_nat p) (blist rb)).
Proof.
  intros op f lb rb B Wl Wr p piece.
  destruct (B (bdata lb) (bdata rb) (bwf_lt _ Wl) (bwf_lt _ Wr)) as [B1 B2].
  destruct (N.le_gt_cases p 64) as [Hp|Hp].
  - split; [apply mk_bits_wf; auto; lia|].
    subst piece. rewrite mk_bits_blist by auto. rewrite !firstn_blist by (auto; lia).
    apply zip_wbits. intros i Hi. apply B2. lia.
  - assert (Rl : bdata lb = 0 \/ bdata lb = all).
    { unfold bwf in Wl. destruct (N.ltb_spec 64 (bsize lb)); [auto|lia]. }
    assert (Rr : bdata rb = 0 \/ bdata rb = all).
    { unfold bwf in Wr. destruct (N.ltb_spec 64 (bsize rb)); [auto|lia]. }
    subst piece. rewrite (bitwise_runs op f) by auto.
    set (t := f _ _). split.
    + apply mk_bits_wf; [destruct t; [apply ones_lt|apply pow2_pos]|]. intros _. destruct t; auto.
    + unfold blist, mk_bits, width. cbn [bsize bdata].
      assert (p <? 64 = false) as -> by lia. assert (64 <? p = true) as -> by lia.
      assert (64 <? bsize lb = true) as -> by lia. assert (64 <? bsize rb = true) as -> by lia.
      rewrite !firstn_repeat. rewrite !Nat.min_l by lia. rewrite zip_repeat. fold t.
      destruct t; reflexivity.
Qed.

Definition ne (b : bits) : nat := if bempty b then 0%nat else 1%nat.

Lemma drop_wf : forall b n, bwf b -> bwf (drop b n).
Proof. intros b n W. now apply drop_blist. Qed.

Lemma fetch_spec : forall b rest, bwf b -> Forall good rest ->
  exists b' rest', fetch b rest = Some (b', rest') /\ bwf b' /\ Forall good rest' /\
    (bempty b' = true -> rest' = []) /\ blist b' ++ flat_map blist rest' = blist b ++ flat_map blist rest /\
    (ne b' + length rest' = ne b + length rest)%nat.
Proof.
  intros b rest W F. unfold fetch, ne. destruct (bempty b) eqn:E.
  - destruct rest as [|b' rest'].
    + exists b, []. rewrite E. repeat split; auto.
    + apply Forall_cons_iff in F as [[F1 F2] F3].
      assert (bempty b' = false) as Eb by (unfold bempty; lia). rewrite Eb.
      exists b', rest'. rewrite Eb. split; auto. split; auto. split; auto. split; [discriminate|].
      split; [|reflexivity].
      assert (blist b = []) as ->; auto.
      apply length_zero_iff_nil. rewrite blist_length. unfold bempty in E. lia.
  - exists b, rest. rewrite E. repeat split; auto. discriminate.
Qed.

Lemma eval_loop_spec : forall op f, bitwise op f -> forall fuel lb ls rb rs result res,
  bwf lb -> bwf rb -> Forall good ls -> Forall good rs ->
  (bempty lb = true -> ls = []) -> (bempty rb = true -> rs = []) ->
  (ne lb + length ls + (ne rb + length rs) <= S fuel)%nat \/ (ne lb + length ls = 0)%nat \/ (ne rb + length rs = 0)%nat ->
  rel result res ->
  let L := blist lb ++ flat_map blist ls in
  let R := blist rb ++ flat_map blist rs in
  exists lb' ls' rb' rs' result', eval_loop fuel op lb ls rb rs result = Some (lb', ls', rb', rs', result') /\
    bwf lb' /\ bwf rb' /\ Forall good ls' /\ Forall good rs' /\
    rel result' (res ++ zip f L R) /\
    blist lb' ++ flat_map blist ls' = skipn (length R) L /\
    blist rb' ++ flat_map blist rs' = skipn (length L) R.
Proof.
  intros op f B. induction fuel as [|fuel IH]; intros lb ls rb rs result res Wl Wr Fl Fr El Er Fu Re L R.
  - assert (E : bempty lb || bempty rb = true).
    { unfold ne in Fu. destruct (bempty lb), (bempty rb); auto. lia. }
    unfold eval_loop. rewrite E.
    exists lb, ls, rb, rs, result. split; auto. split; auto. split; auto. split; auto. split; auto.
    apply orb_true_iff in E as [E|E].
    + assert (L = []) as Z.
      { subst L. rewrite El by auto. cbn. rewrite app_nil_r. apply length_zero_iff_nil. rewrite blist_length.
        unfold bempty in E. lia. }
      rewrite Z. unfold zip. cbn [combine map]. rewrite app_nil_r, skipn_nil. cbn [length skipn].
      fold L. fold R. rewrite Z. auto.
    + assert (R = []) as Z.
      { subst R. rewrite Er by auto. cbn. rewrite app_nil_r. apply length_zero_iff_nil. rewrite blist_length.
        unfold bempty in E. lia. }
      rewrite Z, zip_nil_r, app_nil_r, skipn_nil. cbn [length skipn].
      fold L. fold R. rewrite Z. auto.
  - cbn [eval_loop]. destruct (bempty lb || bempty rb) eqn:E.
    + exists lb, ls, rb, rs, result. split; auto. split; auto. split; auto. split; auto. split; auto.
      apply orb_true_iff in E as [E|E].
      * assert (L = []) as Z.
        { subst L. rewrite El by auto. cbn. rewrite app_nil_r. apply length_zero_iff_nil. rewrite blist_length.
          unfold bempty in E. lia. }
        rewrite Z. unfold zip. cbn [combine map]. rewrite app_nil_r, skipn_nil. cbn [length skipn].
        fold L. fold R. rewrite Z. auto.
      * assert (R = []) as Z.
        { subst R. rewrite Er by auto. cbn. rewrite app_nil_r. apply length_zero_iff_nil. rewrite blist_length.
          unfold bempty in E. lia. }
        rewrite Z, zip_nil_r, app_nil_r, skipn_nil. cbn [length skipn].
        fold L. fold R. rewrite Z. auto.
    + apply orb_false_iff in E as [E1 E2].
      set (p := N.min (bsize lb) (bsize rb)).
      assert (ST : (if is_run lb && negb (is_run rb) then
        (mk_bits (op (bdata lb) (bdata rb)) (bsize rb), drop lb (bsize rb), empty_bits)
      else if negb (is_run lb) && is_run rb then
        (mk_bits (op (bdata lb) (bdata rb)) (bsize lb), empty_bits, drop rb (bsize lb))
      else (mk_bits (op (bdata lb) (bdata rb)) p, drop lb p, drop rb p))
       = (mk_bits (op (bdata lb) (bdata rb)) p, drop lb p, drop rb p)).
      { unfold is_run, width. destruct (N.ltb_spec 64 (bsize lb)), (N.ltb_spec 64 (bsize rb)); cbn [andb negb]; auto.
        - assert (p = bsize rb) as -> by lia. f_equal. unfold drop.
          assert (bsize rb <? bsize rb = false) as -> by lia. reflexivity.
        - assert (p = bsize lb) as -> by lia. f_equal. f_equal. unfold drop.
          assert (bsize lb <? bsize lb = false) as -> by lia. reflexivity. }
      cbv zeta. fold p. rewrite ST. clear ST.
      destruct (piece_spec op f lb rb B Wl Wr) as [Pw Pb]. cbv zeta in Pw, Pb. fold p in Pw, Pb.
      destruct (append_seq_rel _ _ _ Re Pw) as (result1 & -> & R1). rewrite Pb in R1.
      destruct (fetch_spec (drop lb p) ls (drop_wf _ _ Wl) Fl) as (lb2 & ls2 & -> & Wl2 & Fl2 & El2 & Cl2 & Nl2).
      destruct (fetch_spec (drop rb p) rs (drop_wf _ _ Wr) Fr) as (rb2 & rs2 & -> & Wr2 & Fr2 & Er2 & Cr2 & Nr2).
      assert (D : (ne (drop lb p) + ne (drop rb p) + 1 <= ne lb + ne rb)%nat).
      { unfold ne, bempty in *. rewrite !drop_size.
        rewrite E1, E2. destruct (N.eqb_spec (bsize lb - p) 0), (N.eqb_spec (bsize rb - p) 0); lia. }
      edestruct IH as (lb' & ls' & rb' & rs' & result' & -> & G1 & G2 & G3 & G4 & G5 & G6 & G7);
        [exact Wl2|exact Wr2|exact Fl2|exact Fr2|exact El2|exact Er2| |exact R1|].
      { left. assert (ne lb = 1%nat) by (unfold ne; now rewrite E1).
        assert (ne rb = 1%nat) by (unfold ne; now rewrite E2). lia. }
      exists lb', ls', rb', rs', result'. split; auto. split; auto. split; auto. split; auto. split; auto.
      pose proof (proj1 (drop_blist lb p Wl)) as Dl. pose proof (proj1 (drop_blist rb p Wr)) as Dr.
      assert (HL : L = firstn (N.to_nat p) (blist lb) ++ blist lb2 ++ flat_map blist ls2).
      { rewrite Cl2, Dl. rewrite app_assoc, firstn_skipn. reflexivity. }
      assert (HR : R = firstn (N.to_nat p) (blist rb) ++ blist rb2 ++ flat_map blist rs2).
      { rewrite Cr2, Dr. rewrite app_assoc, firstn_skipn. reflexivity. }
      assert (LL : length (firstn (N.to_nat p) (blist lb)) = N.to_nat p).
      { rewrite firstn_length, blist_length. lia. }
      assert (LR : length (firstn (N.to_nat p) (blist rb)) = N.to_nat p).
      { rewrite firstn_length, blist_length. lia. }
      assert (LEN : length (firstn (N.to_nat p) (blist lb)) = length (firstn (N.to_nat p) (blist rb))) by lia.
      rewrite HL, HR. rewrite zip_app by exact LEN. rewrite <- app_assoc in G5.
      split; auto. rewrite !(app_length (firstn _ _)).
      split.
      * rewrite <- LEN. rewrite G6. rewrite (skipn_app _ (firstn (N.to_nat p) (blist lb))).
        rewrite (skipn_all2 (firstn (N.to_nat p) (blist lb))) by lia. cbn [app]. f_equal. lia.
      * rewrite LEN. rewrite G7. rewrite (skipn_app _ (firstn (N.to_nat p) (blist rb))).
        rewrite (skipn_all2 (firstn (N.to_nat p) (blist rb))) by lia. cbn [app]. f_equal. lia.
Qed.

Definition fills (f : bool -> bool -> bool) (fl fr : bool) : Prop :=
  (forall a, f a false = if fl then a else false) /\
  (forall b, f false b = if fr then b else false).

Lemma first_seq_spec : forall bs, Forall good bs ->
  let '(b, rest) := first_seq bs in
  bwf b /\ Forall good rest /\ (bempty b = true -> rest = []) /\
  blist b ++ flat_map blist rest = flat_map blist bs /\ (ne b + length rest <= length bs)%nat.
Proof.
  intros [|b bs] F; cbn.
  - repeat split; auto.
  - apply Forall_cons_iff in F as [[F1 F2] F3].
    assert (bempty b = false) as E by (unfold bempty; lia).
    repeat split; auto; try congruence. unfold ne. rewrite E. lia.
Qed.

Lemma fill_step : forall (fill : bool) b bs r res, rel r res -> bwf b -> Forall good bs ->
  exists r', (if fill then
      match (if bempty b then Some r else append_seq b r) with
      | None => None
      | Some r => append_seqs bs r
      end
    else Some r) = Some r' /\ rel r' (res ++ if fill then blist b ++ flat_map blist bs else []).
Proof.
  intros fill b bs r res R W F. destruct fill; [|exists r; rewrite app_nil_r; auto].
  assert (exists r1, (if bempty b then Some r else append_seq b r) = Some r1 /\ rel r1 (res ++ blist b)) as (r1 & -> & R1).
  { destruct (bempty b) eqn:E.
    - exists r. split; auto. assert (blist b = []) as ->; [|now rewrite app_nil_r].
      apply length_zero_iff_nil. rewrite blist_length. unfold bempty in E. lia.
    - now apply append_seq_rel. }
  destruct (append_seqs_rel bs r1 _ R1) as (r' & -> & R').
  { eapply Forall_impl; [|exact F]. now intros a []. }
  exists r'. split; auto. now rewrite app_assoc.
Qed.

Lemma binary_eval_ranges_spec : forall op f fl fr, bitwise op f -> fills f fl fr ->
  forall lhs rhs lsize rsize, Forall good lhs -> Forall good rhs ->
  lsize = N.of_nat (length (flat_map blist lhs)) -> rsize = N.of_nat (length (flat_map blist rhs)) ->
  exists e, binary_eval_ranges fl fr op lsize lhs rsize rhs = Some e /\
    rel e (pw f (flat_map blist lhs) (flat_map blist rhs)).
Proof.
  intros op f fl fr B [Fi1 Fi2] lhs rhs lsize rsize Gl Gr Sl Sr. unfold binary_eval_ranges.
  pose proof (first_seq_spec lhs Gl) as H1. pose proof (first_seq_spec rhs Gr) as H2.
  destruct (first_seq lhs) as [lb ls], (first_seq rhs) as [rb rs].
  destruct H1 as (W1 & F1 & E1 & C1 & N1), H2 as (W2 & F2 & E2 & C2 & N2).
  destruct (eval_loop_spec op f B (length lhs + length rhs) lb ls rb rs ewah_empty [] W1 W2 F1 F2 E1 E2)
    as (lb' & ls' & rb' & rs' & result' & -> & G1 & G2 & G3 & G4 & G5 & G6 & G7).
  { left. lia. }
  { left. auto. }
  rewrite C1, C2 in *. cbn [app] in G5.
  set (L := flat_map blist lhs) in *. set (R := flat_map blist rhs) in *.
  pose proof (rel_size _ _ G5) as S5. rewrite zip_length in S5.
  assert (num_bits result' <=? N.max lsize rsize = true) as -> by lia. cbn [negb].
  destruct (fill_step fl lb' ls' result' _ G5 G1 G3) as (r1 & -> & R1).
  destruct (fill_step fr rb' rs' r1 _ R1 G2 G4) as (r2 & -> & R2).
  rewrite G6 in R2. rewrite G7 in R2. rewrite <- app_assoc in R2.
  pose proof (rel_size _ _ R2) as S2. rewrite !app_length, zip_length in S2.
  assert (LE : num_bits r2 <= N.max lsize rsize).
  { destruct fl, fr; rewrite ?skipn_length in S2; cbn [length] in S2; lia. }
  assert (num_bits r2 <=? N.max lsize rsize = true) as -> by lia. cbn [negb].
  destruct (append_bits_rel false (N.max lsize rsize - num_bits r2) r2 _ R2) as (e & -> & Re & _).
  exists e. split; auto. rewrite zip_pw.
  rewrite <- app_assoc in Re.
  match type of Re with rel _ ?x => match goal with |- rel _ ?y => assert (x = y) as <-; auto end end.
  f_equal.
  assert (MA : map (fun a => f a false) (skipn (length R) L) =
    if fl then skipn (length R) L else repeat false (length L - length R)).
  { rewrite (map_ext _ (fun a => if fl then a else false)) by auto. destruct fl; [apply map_id|].
    rewrite <- skipn_length. generalize (skipn (length R) L). induction l; cbn; f_equal; auto. }
  assert (MB : map (f false) (skipn (length L) R) =
    if fr then skipn (length L) R else repeat false (length R - length L)).
  { rewrite (map_ext _ (fun a => if fr then a else false)) by auto. destruct fr; [apply map_id|].
    rewrite <- skipn_length. generalize (skipn (length L) R). induction l; cbn; f_equal; auto. }
  rewrite MA, MB. rewrite <- app_assoc.
  destruct (Nat.le_gt_cases (length L) (length R)).
  - rewrite (skipn_all2 L) in * by lia.
    assert ((if fl then @nil bool else []) = []) as -> by now destruct fl.
    assert ((if fl then @nil bool else repeat false (length L - length R)) = []) as ->.
    { destruct fl; [reflexivity|]. assert (length L - length R = 0)%nat as -> by lia. reflexivity. }
    cbn [app]. destruct fr.
    + replace (N.max lsize rsize - num_bits r2) with 0.
      * cbn. now rewrite app_nil_r.
      * destruct fl; rewrite ?skipn_length in S2; cbn [length] in S2; lia.
    + cbn [app]. f_equal. destruct fl; rewrite ?skipn_length in S2; cbn [length] in S2; lia.
  - rewrite (skipn_all2 R) in * by lia.
    assert ((if fr then @nil bool else []) = []) as -> by now destruct fr.
    assert ((if fr then @nil bool else repeat false (length R - length L)) = []) as ->.
    { destruct fr; [reflexivity|]. assert (length R - length L = 0)%nat as -> by lia. reflexivity. }
    cbn [app]. destruct fl.
    + replace (N.max lsize rsize - num_bits r2) with 0.
      * cbn. now rewrite app_nil_r.
      * destruct fr; rewrite ?skipn_length in S2; cbn [length] in S2; lia.
    + cbn [app]. rewrite app_nil_r. f_equal. destruct fr; rewrite ?skipn_length in S2; cbn [length] in S2; lia.
Qed.

Lemma binary_eval_rel : forall op f fl fr, bitwise op f -> fills f fl fr ->
  forall e1 l1 e2 l2, rel e1 l1 -> rel e2 l2 ->
  exists e, binary_eval fl fr op e1 e2 = Some e /\ rel e (pw f l1 l2).
Proof.
  intros op f fl fr B Fi e1 l1 e2 l2 R1 R2. unfold binary_eval.
  pose proof (rel_size _ _ R1) as S1. pose proof (rel_size _ _ R2) as S2.
  destruct (range_rel e1 l1 R1) as (bs1 & -> & F1 & C1).
  destruct (range_rel e2 l2 R2) as (bs2 & -> & F2 & C2).
  subst l1 l2. now apply binary_eval_ranges_spec.
Qed.

Lemma bitwise_land : bitwise N.land andb.
Proof. intros x y Hx Hy. split; [now apply land_lt|]. intros. apply N.land_spec. Qed.
Lemma bitwise_lor : bitwise N.lor orb.
Proof. intros x y Hx Hy. split; [now apply lor_lt|]. intros. apply N.lor_spec. Qed.
Lemma bitwise_lxor : bitwise N.lxor xorb.
Proof. intros x y Hx Hy. split; [now apply lxor_lt|]. intros. apply N.lxor_spec. Qed.
Lemma bitwise_nand : bitwise (fun x y => N.land x (wnot y)) (fun a b => a && negb b).
Proof.
  intros x y Hx Hy. split; [now apply land_lt|]. intros i Hi.
  rewrite N.land_spec, testbit_wnot. assert (i <? 64 = true) as -> by lia. now rewrite xorb_true_r.
Qed.

Lemma fills_and : fills andb false false.
Proof. split; intros []; reflexivity. Qed.
Lemma fills_or : fills orb true true.
Proof. split; intros []; reflexivity. Qed.
Lemma fills_xor : fills xorb true true.
Proof. split; intros []; reflexivity. Qed.
Lemma fills_nand : fills (fun a b => a && negb b) true false.
Proof. split; intros []; reflexivity. Qed.

Lemma binary_and_rel : forall e1 l1 e2 l2, rel e1 l1 -> rel e2 l2 ->
  exists e, binary_and e1 e2 = Some e /\ rel e (pw andb l1 l2).
Proof. apply binary_eval_rel; [apply bitwise_land|apply fills_and]. Qed.
Lemma binary_or_rel : forall e1 l1 e2 l2, rel e1 l1 -> rel e2 l2 ->
  exists e, binary_or e1 e2 = Some e /\ rel e (pw orb l1 l2).
Proof. apply binary_eval_rel; [apply bitwise_lor|apply fills_or]. Qed.
Lemma binary_xor_rel : forall e1 l1 e2 l2, rel e1 l1 -> rel e2 l2 ->
  exists e, binary_xor e1 e2 = Some e /\ rel e (pw xorb l1 l2).
Proof. apply binary_eval_rel; [apply bitwise_lxor|apply fills_xor]. Qed.
Lemma binary_nand_rel : forall e1 l1 e2 l2, rel e1 l1 -> rel e2 l2 ->
  exists e, binary_nand e1 e2 = Some e /\ rel e (pw (fun a b => a && negb b) l1 l2).
Proof. apply binary_eval_rel; [apply bitwise_nand|apply fills_nand]. Qed.

(** * Unique content *)

Lemma rel_fun : forall e l l', rel e l -> rel e l' -> l = l'.
Proof.
  intros e l l' R R'. destruct (range_rel e l R) as (bs & E & _ & <-).
  destruct (range_rel e l' R') as (bs' & E' & _ & <-). congruence.
Qed.

(** * N-ary evaluation *)

Definition rels (es : list ewah) (ls : list (list bool)) : Prop := Forall2 rel es ls.

Section Nary.
  Context (op : ewah -> ewah -> option ewah) (f : bool -> bool -> bool).
  Hypothesis op_rel : forall e1 l1 e2 l2, rel e1 l1 -> rel e2 l2 ->
    exists e, op e1 e2 = Some e /\ rel e (pw f l1 l2).

  Definition fold1 (ls : list (list bool)) : list bool :=
    match ls with [] => [] | l :: ls => fold_left (pw f) ls l end.

  Lemma nary_spec :
    (forall x y z, pw f (pw f x y) z = pw f x (pw f y z)) ->
    (forall x y, pw f x y = pw f y x) ->
    forall es r, nary_eval op es r ->
    forall ls, rels es ls -> rel r (fold1 ls).
  Proof.
    intros PA PC.
    assert (PL : forall a b, Permutation a b -> forall x, fold_left (pw f) a x = fold_left (pw f) b x).
    { induction 1 as [|x l l' _ IH|x y l|l l' l'' _ IH1 _ IH2]; intros z; cbn [fold_left]; auto.
      - f_equal. rewrite !PA. f_equal. apply PC.
      - now rewrite IH1. }
    assert (PM : forall a b, Permutation a b -> fold1 a = fold1 b).
    { induction 1 as [|x l l' H IH|x y l|l l' l'' _ IH1 _ IH2]; cbn [fold1 fold_left]; auto.
      - now f_equal.
      - congruence. }
    induction 1 as [|e|a l1 x l2 y l3 z r Ha Hxy Hmin Hop Hn IH]; intros ls R.
    - inversion R. subst. left; auto.
    - inversion R as [|? l ? ? Rl Rn]; subst. inversion Rn; subst. exact Rl.
    - assert (exists m1 mx m2 my m3, rels l1 m1 /\ rel x mx /\ rels l2 m2 /\ rel y my /\ rels l3 m3 /\
        Permutation ls (m1 ++ mx :: m2 ++ my :: m3)) as (m1 & mx & m2 & my & m3 & Q1 & Qx & Q2 & Qy & Q3 & QP).
      { destruct Ha as [-> | ->].
        - apply Forall2_app_inv_l in R as (m1 & m' & Q1 & R & ->).
          inversion R as [|? mx ? m'' Qx R']; subst.
          apply Forall2_app_inv_l in R' as (m2 & m''' & Q2 & R' & ->).
          inversion R' as [|? my ? m3 Qy Q3]; subst.
          exists m1, mx, m2, my, m3. repeat split; auto.
        - apply Forall2_app_inv_l in R as (m1 & m' & Q1 & R & ->).
          inversion R as [|? my ? m'' Qy R']; subst.
          apply Forall2_app_inv_l in R' as (m2 & m''' & Q2 & R' & ->).
          inversion R' as [|? mx ? m3 Qx Q3]; subst.
          exists m1, mx, m2, my, m3. repeat split; auto.
          apply Permutation_app_head.
          transitivity (my :: mx :: m2 ++ m3).
          + constructor. apply Permutation_sym, Permutation_middle.
          + transitivity (mx :: my :: m2 ++ m3); [constructor|]. constructor. apply Permutation_middle. }
      destruct (op_rel _ _ _ _ Qx Qy) as (z' & Ez & Rz). assert (z' = z) by congruence. subst z'.
      specialize (IH (m1 ++ m2 ++ m3 ++ [pw f mx my])).
      assert (RI : rels (l1 ++ l2 ++ l3 ++ [z]) (m1 ++ m2 ++ m3 ++ [pw f mx my])).
      { repeat apply Forall2_app; auto. }
      specialize (IH RI).
      rewrite (PM _ _ QP).
      assert (EQ : fold1 (m1 ++ m2 ++ m3 ++ [pw f mx my]) = fold1 (m1 ++ mx :: m2 ++ my :: m3)).
      { rewrite (PM (m1 ++ m2 ++ m3 ++ [pw f mx my]) (pw f mx my :: m1 ++ m2 ++ m3)).
        2:{ rewrite !app_assoc. rewrite <- Permutation_cons_append. reflexivity. }
        rewrite (PM (m1 ++ mx :: m2 ++ my :: m3) (mx :: my :: m1 ++ m2 ++ m3)).
        2:{ rewrite <- Permutation_middle. constructor. rewrite !app_assoc. rewrite <- Permutation_middle. reflexivity. }
        reflexivity. }
      rewrite <- EQ. exact IH.
  Qed.

  (** Some evaluation order always exists and no assertion fails. *)
  Lemma min_split : forall (l : list ewah), l <> [] ->
    exists p x s, l = p ++ x :: s /\ forall w, In w (p ++ s) -> num_bits x <= num_bits w.
  Proof.
    induction l as [|a l IH]; intros H; [contradiction|]. destruct l as [|b l].
    - exists [], a, []. split; auto. intros w [].
    - destruct IH as (p & x & s & E & M); [discriminate|]. rewrite E in *.
      destruct (N.le_gt_cases (num_bits a) (num_bits x)) as [L|L].
      + exists [], a, (p ++ x :: s). split; auto. intros w Hw. cbn [app] in Hw.
        apply in_app_iff in Hw as [Hw|[->|Hw]]; auto.
        * specialize (M w ltac:(apply in_app_iff; auto)). lia.
        * specialize (M w ltac:(apply in_app_iff; auto)). lia.
      + exists (a :: p), x, s. split; auto. intros w [<-|Hw]; [lia|auto].
  Qed.

  Lemma nary_total : forall n es ls, length es = n -> rels es ls -> exists r, nary_eval op es r.
  Proof.
    induction n as [n IH] using lt_wf_ind. intros es ls Hn R.
    destruct es as [|e0 [|e1 es]].
    - eexists. constructor.
    - eexists. constructor.
    - destruct (min_split (e0 :: e1 :: es)) as (p & x & s & E & M); [discriminate|].
      set (a := e0 :: e1 :: es) in *.
      assert (L : length (p ++ s) <> 0%nat).
      { apply (f_equal (@length ewah)) in E. subst a. rewrite app_length in *. cbn [length] in *. lia. }
      destruct (min_split (p ++ s)) as (p' & y & s' & E' & M').
      { destruct (p ++ s); [now destruct L|discriminate]. }
      (* y is in p or in s *)
      assert (H : exists l1 l2 l3, (a = l1 ++ x :: l2 ++ y :: l3 \/ a = l1 ++ y :: l2 ++ x :: l3) /\
        l1 ++ l2 ++ l3 = p' ++ s').
      { destruct (Nat.lt_ge_cases (length p') (length p)) as [Q|Q].
        - exists p', (skipn (S (length p')) p), s. 
          assert (P : p = p' ++ y :: skipn (S (length p')) p).
          { apply (f_equal (firstn (length p))) in E' as E1.
            rewrite firstn_app, Nat.sub_diag, firstn_all, app_nil_r in E1. 
            rewrite firstn_app, firstn_all2 in E1 by lia.
            destruct (length p - length p')%nat as [|k] eqn:K; [lia|]. cbn [firstn] in E1.
            rewrite E1 at 2. rewrite skipn_app, skipn_all2 by lia.
            assert (S (length p') - length p' = 1)%nat as -> by lia. cbn [skipn app]. exact E1. }
          split.
          + right. rewrite E. rewrite P at 1. now rewrite <- app_assoc.
          + apply (f_equal (skipn (S (length p')))) in E'.
            rewrite skipn_app in E'. rewrite (skipn_app (S (length p')) p') in E'.
            rewrite (skipn_all2 p') in E' by lia.
            assert (S (length p') - length p' = 1)%nat as Z by lia. rewrite Z in E'. cbn [skipn app] in E'.
            assert (S (length p') - length p = 0)%nat as Z2 by lia. rewrite Z2 in E'. cbn [skipn] in E'.
            f_equal. exact E'.
        - exists p, (skipn (length p) p'), s'.
          assert (P : p' = p ++ skipn (length p) p').
          { apply (f_equal (firstn (length p))) in E'.
            rewrite firstn_app, Nat.sub_diag, firstn_all, app_nil_r in E'.
            rewrite firstn_app in E'. assert (length p - length p' = 0)%nat as Z by lia. rewrite Z in E'.
            cbn [firstn] in E'. rewrite app_nil_r in E'. rewrite E' at 1. symmetry. apply firstn_skipn. }
          split.
          + left. rewrite E. f_equal. f_equal.
            rewrite P, <- app_assoc in E'. apply app_inv_head in E'. exact E'.
          + rewrite app_assoc, <- P. reflexivity. }
      destruct H as (l1 & l2 & l3 & HA & HL).
      assert (Inx : In y (p ++ s)) by (rewrite E'; apply in_app_iff; right; now left).
      assert (RR : exists mx my m1 m2 m3, rel x mx /\ rel y my /\ rels l1 m1 /\ rels l2 m2 /\ rels l3 m3).
      { destruct HA as [HA|HA]; rewrite HA in R.
        - apply Forall2_app_inv_l in R as (m1 & m' & Q1 & R & ->).
          inversion R as [|? mx ? m'' Qx R']; subst.
          apply Forall2_app_inv_l in R' as (m2 & m''' & Q2 & R' & ->).
          inversion R' as [|? my ? m3 Qy Q3]; subst. exists mx, my, m1, m2, m3. auto.
        - apply Forall2_app_inv_l in R as (m1 & m' & Q1 & R & ->).
          inversion R as [|? my ? m'' Qy R']; subst.
          apply Forall2_app_inv_l in R' as (m2 & m''' & Q2 & R' & ->).
          inversion R' as [|? mx ? m3 Qx Q3]; subst. exists mx, my, m1, m2, m3. repeat split; auto. }
      destruct RR as (mx & my & m1 & m2 & m3 & Rx & Ry & R1 & R2 & R3).
      destruct (op_rel _ _ _ _ Rx Ry) as (z & Ez & Rz).
      assert (LEN : S (length (l1 ++ l2 ++ l3 ++ [z])) = n).
      { rewrite <- Hn. destruct HA as [-> | ->]; rewrite !app_length; cbn [length]; rewrite !app_length; cbn [length]; lia. }
      destruct (IH (length (l1 ++ l2 ++ l3 ++ [z])) ltac:(lia) _ (m1 ++ m2 ++ m3 ++ [pw f mx my]) eq_refl) as (r & Hr).
      { repeat apply Forall2_app; auto. }
      exists r. eapply nary_step; eauto. intros w Hw. rewrite HL in Hw. auto.
  Qed.
End Nary.

(** [pw] inherits associativity, commutativity and the neutral element. *)
Lemma pw_comm : forall f, (forall a b, f a b = f b a) -> forall x y, pw f x y = pw f y x.
Proof.
  intros f H. induction x as [|a x IH]; intros [|b y]; cbn [pw map]; auto.
  - f_equal; auto. apply map_ext. auto.
  - f_equal; auto. apply map_ext. auto.
  - f_equal; auto.
Qed.

Lemma pw_assoc : forall f, f false false = false -> (forall a b c, f (f a b) c = f a (f b c)) ->
  forall x y z, pw f (pw f x y) z = pw f x (pw f y z).
Proof.
  intros f F H x y z. apply list_ext.
  - rewrite !pw_length. lia.
  - intros i _. now rewrite !pw_nth by auto.
Qed.

(** * [make_ids] *)

Lemma make_ids_go_spec : forall ranges r l, Forall (fun p => fst p < snd p) ranges -> rel r l ->
  exists r' l', make_ids_go ranges r = Some r' /\ rel r' l' /\
    N.of_nat (length l') = fold_left N.max (map snd ranges) (N.of_nat (length l)) /\
    forall p, nth p l' false = nth p l false || existsb (fun q => (fst q <=? N.of_nat p) && (N.of_nat p <? snd q)) ranges.
Proof.
  induction ranges as [|[first last] ranges IH]; intros r l F R.
  - exists r, l. cbn. split; auto. split; auto. split; auto. intros. now rewrite orb_false_r.
  - apply Forall_cons_iff in F as [F1 F2]. cbn [fst snd] in F1. cbn [make_ids_go].
    assert (first <? last = true) as -> by lia. cbn [negb].
    pose proof (rel_size r l R) as SZ.
    set (seg := repeat false (N.to_nat first) ++ repeat true (N.to_nat (last - first))).
    assert (NS : forall p, nth p seg false = (first <=? N.of_nat p) && (N.of_nat p <? last)).
    { intros p. subst seg. destruct (N.leb_spec first (N.of_nat p)).
      - rewrite app_nth2; rewrite repeat_length; [|lia].
        destruct (N.ltb_spec (N.of_nat p) last); cbn [andb].
        + apply nth_repeat_lt. lia.
        + apply nth_overflow. rewrite repeat_length. lia.
      - rewrite app_nth1; [|rewrite repeat_length; lia]. cbn [andb]. apply nth_repeat_lt. lia. }
    assert (exists r1 l1, (if num_bits r <=? first then
        match append_bits false (first - num_bits r) r with
        | None => None | Some r => append_bits true (last - first) r end
      else match append_bits false first ewah_empty with
        | None => None
        | Some tmp => match append_bits true (last - first) tmp with
                      | None => None | Some tmp => binary_or r tmp end end) = Some r1 /\ rel r1 l1 /\
      N.of_nat (length l1) = N.max (N.of_nat (length l)) last /\
      forall p, nth p l1 false = nth p l false || nth p seg false) as (r1 & l1 & -> & R1 & L1 & P1).
    { destruct (N.leb_spec (num_bits r) first) as [Hc|Hc].
      - destruct (append_bits_rel false (first - num_bits r) r l R) as (ra & -> & Ra & _).
        destruct (append_bits_rel true (last - first) ra _ Ra) as (rb & -> & Rb & _).
        eexists _, _. split; [reflexivity|]. split; [exact Rb|]. split.
        + rewrite !app_length, !repeat_length. lia.
        + intros p. rewrite NS. rewrite <- app_assoc.
          destruct (Nat.lt_ge_cases p (length l)).
          * rewrite app_nth1 by auto. assert (first <=? N.of_nat p = false) as -> by lia.
            cbn [andb]. now rewrite orb_false_r.
          * rewrite app_nth2 by auto. rewrite (nth_overflow l) by auto. cbn [orb].
            destruct (N.leb_spec first (N.of_nat p)).
            -- rewrite app_nth2; rewrite repeat_length; [|lia].
               destruct (N.ltb_spec (N.of_nat p) last); cbn [andb].
               ++ apply nth_repeat_lt. lia.
               ++ apply nth_overflow. rewrite repeat_length. lia.
            -- rewrite app_nth1; [|rewrite repeat_length; lia]. cbn [andb]. apply nth_repeat_lt. lia.
      - destruct (append_bits_rel false first ewah_empty [] ltac:(left; auto)) as (ra & -> & Ra & _).
        destruct (append_bits_rel true (last - first) ra _ Ra) as (rb & -> & Rb & _).
        destruct (binary_or_rel _ _ _ _ R Rb) as (rc & -> & Rc).
        eexists _, _. split; [reflexivity|]. split; [exact Rc|]. cbn [app]. fold seg. split.
        + rewrite pw_length. subst seg. rewrite app_length, !repeat_length. lia.
        + intros p. now rewrite pw_nth. }
    destruct (IH r1 l1 F2 R1) as (r' & l' & E & R' & L' & P').
    exists r', l'. split; auto. split; auto. split.
    + rewrite L', L1. reflexivity.
    + intros p. rewrite P', P1, NS. cbn [existsb fst snd]. now rewrite orb_assoc.
Qed.

Lemma make_ids_spec : forall ranges min_size bit, Forall (fun p => fst p < snd p) ranges ->
  exists r l, make_ids ranges min_size bit = Some r /\ rel r l /\
    N.of_nat (length l) = N.max min_size (fold_left N.max (map snd ranges) 0) /\
    forall p, N.of_nat p < N.of_nat (length l) ->
      nth p l false = existsb (fun q => (fst q <=? N.of_nat p) && (N.of_nat p <? snd q)) ranges
        || (bit && (fold_left N.max (map snd ranges) 0 <=? N.of_nat p)).
Proof.
  intros ranges min_size bit F. unfold make_ids.
  destruct (make_ids_go_spec ranges ewah_empty [] F ltac:(left; auto)) as (r & l & -> & R & L & P).
  cbn [length] in L. change (N.of_nat 0) with 0 in L.
  pose proof (rel_size r l R) as SZ.
  assert (P0 : forall p, nth p l false = existsb (fun q => (fst q <=? N.of_nat p) && (N.of_nat p <? snd q)) ranges).
  { intros p. rewrite P. destruct p; reflexivity. }
  rewrite <- L. destruct (N.ltb_spec (num_bits r) min_size).
  - destruct (append_bits_rel bit (min_size - num_bits r) r l R) as (r' & -> & R' & _).
    exists r'. eexists. split; [reflexivity|]. split; [exact R'|]. split.
    + rewrite app_length, repeat_length. lia.
    + intros p Hp. rewrite app_length, repeat_length in Hp. rewrite <- P0.
      destruct (Nat.lt_ge_cases p (length l)).
      * rewrite app_nth1 by auto. assert (N.of_nat (length l) <=? N.of_nat p = false) as -> by lia.
        now rewrite andb_false_r, orb_false_r.
      * rewrite app_nth2 by auto. rewrite (nth_overflow l) by auto.
        assert (N.of_nat (length l) <=? N.of_nat p = true) as -> by lia. rewrite andb_true_r. cbn [orb].
        apply nth_repeat_lt. lia.
  - exists r, l. split; auto. split; auto. split; [lia|].
    intros p Hp. rewrite P0. assert (N.of_nat (length l) <=? N.of_nat p = false) as -> by lia.
    now rewrite andb_false_r, orb_false_r.
Qed.
