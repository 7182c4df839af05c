(** What a WAH bitmap holds and what its range yields. *)
From Coq Require Import List ZArith NArith Lia Bool ZifyBool ZifyNat ZifyN.
From Verif Require Import NBits WordModel WordProofs EwahModel EwahProofs BitmapAlgoProofs WahModel.
Import ListNotations.
Open Scope N_scope.

(** * Words *)

Lemma is_fill_bit : forall x, is_fill x = N.testbit x 63.
Proof. intro x. unfold is_fill. change msb1 with (mask 63). apply land_mask_0. lia. Qed.

Lemma fill_type_bit : forall x, fill_type x = N.testbit x 62.
Proof. intro x. unfold fill_type. change fill_mask with (mask 62). apply test_testbit. lia. Qed.

Lemma fill_words_mod : forall x, fill_words x = x mod 2 ^ 62.
Proof. intro x. unfold fill_words. change (wshr all 2) with (N.ones 62). apply N.land_ones. Qed.

Lemma max_fill_val : max_fill_words = 2 ^ 62 - 1.
Proof. reflexivity. Qed.

Lemma make_fill_val : forall bit n, n < 2 ^ 62 ->
  make_fill bit n = n + (if bit then 3 else 2) * 2 ^ 62.
Proof.
  intros bit n H. unfold make_fill, width.
  replace (N.lor msb1 (wshl (if bit then 1 else 0) (64 - 2))) with (N.shiftl (if bit then 3 else 2) 62)
    by (destruct bit; reflexivity).
  rewrite N.lor_comm. now apply lor_shiftl_add.
Qed.

Lemma make_fill_lt : forall bit n, n < 2 ^ 62 -> make_fill bit n < 2 ^ 64.
Proof.
  intros bit n H. rewrite make_fill_val by auto.
  change (2 ^ 64) with (4 * 2 ^ 62). destruct bit; nia.
Qed.

Lemma fill_words_make : forall bit n, n < 2 ^ 62 -> fill_words (make_fill bit n) = n.
Proof.
  intros bit n H. rewrite fill_words_mod, make_fill_val by auto.
  rewrite N.mod_add by (apply N.pow_nonzero; lia). now apply N.mod_small.
Qed.

Lemma make_fill_high : forall bit n, n < 2 ^ 62 ->
  N.shiftr (make_fill bit n) 62 = if bit then 3 else 2.
Proof.
  intros bit n H. rewrite make_fill_val by auto. rewrite N.shiftr_div_pow2.
  rewrite N.div_add by (apply N.pow_nonzero; lia). rewrite N.div_small by auto. destruct bit; reflexivity.
Qed.

Lemma is_fill_make : forall bit n, n < 2 ^ 62 -> is_fill (make_fill bit n) = true.
Proof.
  intros bit n H. rewrite is_fill_bit. change 63 with (1 + 62). rewrite <- N.shiftr_spec by lia.
  rewrite make_fill_high by auto. destruct bit; reflexivity.
Qed.

Lemma fill_type_make : forall bit n, n < 2 ^ 62 -> fill_type (make_fill bit n) = bit.
Proof.
  intros bit n H. rewrite fill_type_bit. change 62 with (0 + 62) at 1. rewrite <- N.shiftr_spec by lia.
  rewrite make_fill_high by auto. destruct bit; reflexivity.
Qed.

Lemma literal_not_fill : forall x, x < 2 ^ 63 -> is_fill x = false.
Proof. intros x H. rewrite is_fill_bit. now apply (testbit_small x 63). Qed.

Lemma fill_words_lt : forall x, fill_words x < 2 ^ 62.
Proof. intro. rewrite fill_words_mod. apply N.mod_lt. apply N.pow_nonzero. lia. Qed.

(** The bits a word stands for, unless it is the active one. *)
Definition word_bits (x : N) : list bool :=
  if is_fill x then repeat (fill_type x) (N.to_nat (fill_words x * 63)) else wbits 63 x.
(** Fills are not empty. *)
Definition word_ok (x : N) : Prop := x < 2 ^ 64 /\ (is_fill x = true -> 0 < fill_words x).

Lemma make_fill_bits : forall bit n, n < 2 ^ 62 ->
  word_bits (make_fill bit n) = repeat bit (N.to_nat (n * 63)).
Proof.
  intros bit n H. unfold word_bits. now rewrite is_fill_make, fill_type_make, fill_words_make.
Qed.

Lemma make_fill_ok : forall bit n, 0 < n < 2 ^ 62 -> word_ok (make_fill bit n).
Proof.
  intros bit n H. split; [apply make_fill_lt; lia|]. intros _. rewrite fill_words_make; lia.
Qed.

Lemma is_fill_of_bits : forall x bit, is_fill_of x bit = true ->
  word_bits x = repeat bit (N.to_nat (fill_words x * 63)).
Proof.
  intros x bit H. unfold is_fill_of in H. apply andb_true_iff in H. destruct H as [H1 H2].
  apply eqb_prop in H2. unfold word_bits. now rewrite H1, H2.
Qed.

Lemma literal_bits : forall x, x < 2 ^ 63 -> word_bits x = wbits 63 x.
Proof. intros x H. unfold word_bits. now rewrite literal_not_fill. Qed.

Lemma literal_ok : forall x, x < 2 ^ 63 -> word_ok x.
Proof.
  intros x H. split; [eapply N.lt_trans; [exact H|reflexivity]|].
  intro F. rewrite literal_not_fill in F by auto. discriminate.
Qed.

Lemma all_or_none_63 : forall x, x < 2 ^ 63 ->
  (all_or_none_k x literal_size = true <-> x = 0 \/ x = N.ones 63).
Proof.
  intros x H. unfold all_or_none_k, literal_size, width. change (64 - 1) with 63.
  rewrite lsb_mask_ones by lia. rewrite N.land_ones.
  rewrite wrap_small by (change (2 ^ 64) with (2 ^ 63 + 2 ^ 63); pose proof (pow2_pos 63); lia).
  rewrite N.ones_equiv. pose proof (pow2_pos 63) as P.
  destruct (N.eq_dec (x + 1) (2 ^ 63)) as [E|E].
  - rewrite E, N.mod_same by lia. split; intros _; [right; lia|reflexivity].
  - rewrite N.mod_small by lia. split; intro G; [left; lia|destruct G; lia].
Qed.

Lemma repeat_add : forall {A} (a : A) n m, repeat a (n + m) = repeat a n ++ repeat a m.
Proof. intros. apply repeat_app. Qed.

(** * Content *)

(** The bitmap consists of finished words and an active one. *)
Definition holds (w : wah) (bs : list N) (a : N) (l : list bool) : Prop :=
  wblocks w = bs ++ [a] /\ Forall word_ok bs /\ num_last w <= 63 /\ a < 2 ^ num_last w /\
  l = flat_map word_bits bs ++ wbits (N.to_nat (num_last w)) a /\
  wnum_bits w = N.of_nat (length l).
Definition wrel (w : wah) (l : list bool) : Prop :=
  (w = wah_empty /\ l = []) \/ exists bs a, holds w bs a l.

Lemma active_lt : forall w bs a l, holds w bs a l -> a < 2 ^ 63.
Proof.
  intros w bs a l (_ & _ & H1 & H2 & _). eapply N.lt_le_trans; [exact H2|]. apply N.pow_le_mono_r; lia.
Qed.

(** Finishing the active word. *)
Lemma merge_spec : forall w bs a l, holds w bs a l -> num_last w = 63 ->
  exists w' bs', merge_active_word w = Some w' /\ holds w' bs' 0 l /\ num_last w' = 0 /\ bs' <> [].
Proof.
  intros w bs a l H E. pose proof (active_lt _ _ _ _ H) as A. destruct H as (B & F & _ & _ & L & Nb).
  rewrite E in L. change (N.to_nat 63) with 63%nat in L.
  unfold merge_active_word. rewrite B, E. change (63 =? literal_size) with true. cbn [negb].
  rewrite back_app, removelast_last.
  assert (G : exists bs', (if negb (all_or_none_k a literal_size) then bs ++ [a]
     else match bs with
          | [] => [make_fill (negb (a =? none)) 1]
          | _ => let prev := back bs in let bit := negb (a =? none) in
                 if is_fill_of prev bit && (fill_words prev <? max_fill_words)
                 then set_back bs (make_fill bit (fill_words prev + 1))
                 else set_back (bs ++ [a]) (make_fill bit 1) end) = bs' /\
     bs' <> [] /\ Forall word_ok bs' /\ flat_map word_bits bs' = l).
  { eexists. split; [reflexivity|].
    destruct (all_or_none_k a literal_size) eqn:AN; cbn [negb].
    - assert (U : wbits 63 a = repeat (negb (a =? none)) 63).
      { apply all_or_none_63 in AN; auto. destruct AN as [-> | ->]; reflexivity. }
      set (bit := negb (a =? none)) in *.
      destruct bs as [|x bs0].
      + split; [discriminate|]. split; [constructor; [apply make_fill_ok; split; reflexivity|constructor]|].
        cbn [flat_map]. rewrite make_fill_bits by reflexivity. cbn [app flat_map] in L.
        rewrite L, U, app_nil_r. reflexivity.
      + destruct (exists_last (l := x :: bs0)) as (bs1 & p & E1); [discriminate|].
        rewrite E1 in *. destruct (bs1 ++ [p]) eqn:E2 in |- *; [destruct bs1; discriminate|rewrite <- E2].
        cbv zeta. rewrite back_app. apply Forall_app in F. destruct F as [F1 F2]. inversion_clear F2.
        destruct (is_fill_of p bit && (fill_words p <? max_fill_words)) eqn:C.
        * apply andb_true_iff in C. destruct C as [C1 C2].
          assert (LT : fill_words p + 1 < 2 ^ 62) by (rewrite max_fill_val in C2; pose proof (pow2_pos 62); lia).
          rewrite set_back_app. split; [destruct bs1; discriminate|]. split.
          -- apply Forall_app. split; [auto|]. constructor; [apply make_fill_ok; lia|constructor].
          -- rewrite flat_map_snoc, make_fill_bits by auto. rewrite L, flat_map_snoc, U.
             rewrite (is_fill_of_bits _ _ C1), <- app_assoc, <- repeat_app. do 2 f_equal. lia.
        * rewrite set_back_app. split; [destruct (bs1 ++ [p]); discriminate|]. split.
          -- apply Forall_app. split; [apply Forall_app; split; [auto|constructor; auto]|].
             constructor; [apply make_fill_ok; split; reflexivity|constructor].
          -- rewrite (flat_map_snoc word_bits (bs1 ++ [p])), make_fill_bits by reflexivity.
             rewrite L, U. reflexivity.
    - split; [destruct bs; discriminate|]. split.
      + apply Forall_app. split; [auto|]. constructor; [apply literal_ok; auto|constructor].
      + rewrite flat_map_snoc, literal_bits by auto. auto. }
  destruct G as (bs' & EQ & NE & F' & L').
  exists (Wah (bs' ++ [none]) 0 (wnum_bits w)), bs'.
  split; [|split; [|split; [reflexivity|auto] ] ].
  - rewrite <- EQ. destruct bs; reflexivity.
  - split; [reflexivity|]. split; [auto|]. cbn [num_last wblocks wnum_bits].
    split; [lia|]. split; [reflexivity|]. split; [|auto].
    cbn [N.to_nat wbits seq map]. now rewrite app_nil_r.
Qed.

(** After the common beginning there is room in the active word. *)
Lemma activate_spec : forall w l, wrel w l ->
  exists w' bs a, activate w = Some w' /\ holds w' bs a l /\ num_last w' < 63.
Proof.
  intros w l [ [-> ->] | (bs & a & H)].
  - exists (Wah [none] 0 0), [], none. split; [reflexivity|]. split; [|reflexivity].
    split; [reflexivity|]. split; [constructor|]. cbn [num_last wnum_bits]. split; [lia|].
    split; [reflexivity|]. split; reflexivity.
  - unfold activate. assert (B : wblocks w = bs ++ [a]) by apply H.
    destruct (wblocks w) eqn:E in |- *; [rewrite E in B; destruct bs; discriminate|].
    change literal_size with 63. destruct (num_last w =? 63) eqn:C.
    + destruct (merge_spec w bs a l H ltac:(lia)) as (w' & bs' & E' & H' & Z & _).
      exists w', bs', 0. split; [auto|]. split; [auto|]. lia.
    + exists w, bs, a. split; [auto|]. split; [auto|]. pose proof H as (_ & _ & L & _). lia.
Qed.

(** Adding [k] bits of [v] to the active word. *)
Lemma inject_spec : forall w bs a l v k, holds w bs a l -> num_last w + k <= 63 -> v < 2 ^ k ->
  holds (Wah (set_back (wblocks w) (N.lor (back (wblocks w)) (wshl v (num_last w))))
             (num_last w + k) (wnum_bits w + k))
        bs (N.lor a (wshl v (num_last w))) (l ++ wbits (N.to_nat k) v).
Proof.
  intros w bs a l v k (B & F & H1 & H2 & L & Nb) Hk Hv.
  assert (SH : wshl v (num_last w) = N.shiftl v (num_last w)).
  { unfold wshl. apply wrap_small. rewrite N.shiftl_mul_pow2.
    eapply N.lt_le_trans with (2 ^ k * 2 ^ num_last w); [apply N.mul_lt_mono_pos_r; auto using pow2_pos|].
    rewrite <- N.pow_add_r. apply N.pow_le_mono_r; lia. }
  rewrite SH. split; [|split; [auto|] ]; cbn [num_last wblocks wnum_bits].
  - rewrite B, back_app, set_back_app. reflexivity.
  - split; [lia|]. split; [|split].
    + rewrite lor_shiftl_add by auto. rewrite N.pow_add_r. nia.
    + rewrite L, <- app_assoc. f_equal. replace (N.to_nat (num_last w + k)) with (N.to_nat (num_last w) + N.to_nat k)%nat by lia.
      rewrite wbits_app, N2Nat.id. f_equal.
      * apply wbits_ext. intros i Hi. rewrite N.lor_spec, N.shiftl_spec_low by lia. now rewrite orb_false_r.
      * apply wbits_ext. intros i Hi. rewrite N.shiftr_spec by lia. rewrite N.lor_spec, N.shiftl_spec_high by lia.
        rewrite (testbit_small a (num_last w)) by (auto; lia). cbn. f_equal. lia.
    + rewrite app_length, wbits_length. lia.
Qed.

Lemma wah_append_bit_spec : forall bit w l, wrel w l ->
  exists w', wah_append_bit bit w = Some w' /\ wrel w' (l ++ [bit]).
Proof.
  intros bit w l R. destruct (activate_spec w l R) as (w1 & bs & a & E & H & Z).
  unfold wah_append_bit. rewrite E. eexists. split; [reflexivity|]. right. exists bs. eexists.
  replace [bit] with (wbits (N.to_nat 1) (if bit then 1 else 0)) by (destruct bit; reflexivity).
  apply (inject_spec w1 bs a l (if bit then 1 else 0) 1 H); [lia|destruct bit; reflexivity].
Qed.

(** Fills. *)
Lemma max_fills_spec : forall fuel bit bs fills, fills <= N.of_nat fuel * max_fill_words + max_fill_words ->
  Forall word_ok bs ->
  exists bs' f', max_fills fuel bit bs fills = (bs', f') /\ f' <= max_fill_words /\ Forall word_ok bs' /\
    flat_map word_bits bs' ++ repeat bit (N.to_nat (f' * 63)) = flat_map word_bits bs ++ repeat bit (N.to_nat (fills * 63)).
Proof.
  assert (M : 0 < max_fill_words < 2 ^ 62) by (split; reflexivity).
  induction fuel as [|fuel IH]; intros bit bs fills Hf F; cbn [max_fills].
  - exists bs, fills. repeat split; auto; lia.
  - destruct (max_fill_words <? fills) eqn:C.
    + destruct (IH bit (bs ++ [make_fill bit max_fill_words]) (fills - max_fill_words)) as (bs' & f' & E & H1 & H2 & H3).
      * lia.
      * apply Forall_app. split; [auto|]. constructor; [apply make_fill_ok; auto|constructor].
      * exists bs', f'. split; [auto|]. split; [auto|]. split; [auto|]. rewrite H3, flat_map_snoc, make_fill_bits by apply M.
        rewrite <- app_assoc, <- repeat_app. do 2 f_equal. lia.
    + exists bs, fills. repeat split; auto; lia.
Qed.

Lemma wah_append_bits_spec : forall bit n w l, wrel w l ->
  exists w', wah_append_bits bit n w = Some w' /\ wrel w' (l ++ repeat bit (N.to_nat n)).
Proof.
  intros bit n w l R. unfold wah_append_bits. destruct (n =? 0) eqn:Zn.
  { exists w. split; [auto|]. replace n with 0 by lia. cbn. now rewrite app_nil_r. }
  destruct (activate_spec w l R) as (w1 & bs & a & E & H & Z). rewrite E. cbv zeta.
  change literal_size with 63. set (inject := N.min (63 - num_last w1) n).
  assert (I0 : inject =? 0 = false) by (unfold inject; lia). rewrite I0.
  set (w2 := Wah _ _ _).
  assert (H2 : exists a2, holds w2 bs a2 (l ++ repeat bit (N.to_nat inject))).
  { pose proof (inject_spec w1 bs a l (if bit then lsb_fill inject else 0) inject H ltac:(unfold inject; lia)) as G.
    rewrite lsb_fill_ones in G by (unfold inject; lia).
    assert (V : (if bit then N.ones inject else 0) < 2 ^ inject) by (destruct bit; [apply ones_lt|apply pow2_pos]).
    specialize (G V).
    replace (wbits (N.to_nat inject) (if bit then N.ones inject else 0)) with (repeat bit (N.to_nat inject)) in G
      by (destruct bit; [rewrite wbits_ones by lia|rewrite wbits_0]; reflexivity).
    unfold w2. destruct bit; eexists.
    - rewrite lsb_fill_ones by (unfold inject; lia). exact G.
    - replace (set_back (wblocks w1) (N.lor (back (wblocks w1)) (wshl 0 (num_last w1)))) with (wblocks w1) in G; [exact G|].
      assert (wshl 0 (num_last w1) = 0) as -> by (unfold wshl; now rewrite N.shiftl_0_l).
      rewrite N.lor_0_r. symmetry. apply set_back_same. destruct H as (-> & _). destruct bs; discriminate. }
  destruct H2 as (a2 & H2).
  destruct (n <=? inject) eqn:Cn.
  { exists w2. split; [auto|]. right. exists bs, a2. replace n with inject by (unfold inject in *; lia). exact H2. }
  assert (N63 : num_last w2 = 63) by (unfold w2, inject in *; cbn [num_last]; lia).
  destruct (merge_spec w2 bs a2 _ H2 N63) as (w3 & bs3 & E3 & H3 & Z3 & NE). rewrite E3.
  pose proof H3 as (B3 & F3 & _ & _ & L3 & N3). rewrite B3, removelast_last.
  rewrite Z3 in L3. change (wbits (N.to_nat 0) 0) with (@nil bool) in L3. rewrite app_nil_r in L3.
  set (m := n - inject). set (fills := m / 63). set (partial := m mod 63).
  assert (Hm : m = 63 * fills + partial) by (apply N.div_mod; lia).
  assert (Hp : partial < 63) by (apply N.mod_lt; lia).
  destruct (exists_last NE) as (bs1 & p & E1). subst bs3. rewrite back_app, set_back_app.
  destruct (bs1 ++ [p]) eqn:E2 in |- *; [destruct bs1; discriminate|rewrite <- E2; clear E2].
  assert (G : exists bs4 f4, (if is_fill_of p bit && (fill_words p + fills <=? max_fill_words)
     then (bs1 ++ [make_fill bit (fill_words p + fills)], 0) else (bs1 ++ [p], fills)) = (bs4, f4) /\
     Forall word_ok bs4 /\
     flat_map word_bits bs4 ++ repeat bit (N.to_nat (f4 * 63)) = l ++ repeat bit (N.to_nat inject) ++ repeat bit (N.to_nat (fills * 63))).
  { rewrite app_assoc, L3. apply Forall_app in F3. destruct F3 as [Fa Fb]. inversion_clear Fb.
    destruct (is_fill_of p bit && _) eqn:C.
    - apply andb_true_iff in C. destruct C as [C1 C2].
      assert (LT : fill_words p + fills < 2 ^ 62) by (rewrite max_fill_val in C2; pose proof (pow2_pos 62); lia).
      eexists _, _. split; [reflexivity|]. split.
      + apply Forall_app. split; [auto|]. constructor; [|constructor]. apply make_fill_ok. split; [|auto].
        assert (P : is_fill p = true) by (unfold is_fill_of in C1; apply andb_true_iff in C1; tauto).
        match goal with H : word_ok p |- _ => destruct H as [_ H]; specialize (H P) end. lia.
      + rewrite !flat_map_snoc, make_fill_bits by auto. rewrite (is_fill_of_bits _ _ C1).
        cbn [N.mul N.to_nat repeat]. rewrite app_nil_r, <- app_assoc, <- repeat_app. do 2 f_equal. lia.
    - eexists _, _. split; [reflexivity|]. split; [|reflexivity].
      apply Forall_app. split; [auto|]. constructor; auto. }
  destruct G as (bs4 & f4 & -> & F4 & L4).
  destruct (max_fills_spec (N.to_nat (f4 / max_fill_words)) bit bs4 f4) as (bs5 & f5 & -> & M5 & F5 & L5); [|auto|].
  { rewrite N2Nat.id. assert (max_fill_words <> 0) by (rewrite max_fill_val; discriminate).
    pose proof (N.div_mod f4 max_fill_words H0). pose proof (N.mod_lt f4 max_fill_words H0). lia. }
  set (bs6 := if 0 <? f5 then bs5 ++ [make_fill bit f5] else bs5).
  assert (G6 : Forall word_ok bs6 /\ flat_map word_bits bs6 = l ++ repeat bit (N.to_nat inject) ++ repeat bit (N.to_nat (fills * 63))).
  { assert (LT : f5 < 2 ^ 62) by (rewrite max_fill_val in M5; pose proof (pow2_pos 62); lia).
    rewrite <- L4, <- L5. unfold bs6. destruct (0 <? f5) eqn:C.
    - split; [apply Forall_app; split; [auto|]; constructor; [apply make_fill_ok; lia|constructor]|].
      rewrite flat_map_snoc, make_fill_bits by auto. reflexivity.
    - split; [auto|]. replace f5 with 0 by lia. cbn [N.mul N.to_nat repeat]. now rewrite app_nil_r. }
  destruct G6 as [F6 L6].
  eexists. split; [reflexivity|]. right. exists bs6, (if (0 <? partial) && bit then lsb_mask partial else none).
  assert (AV : (if (0 <? partial) && bit then lsb_mask partial else none) = if bit then N.ones partial else 0).
  { destruct bit; [|now rewrite andb_false_r]. rewrite andb_true_r. destruct (0 <? partial) eqn:C.
    - apply lsb_mask_ones. lia.
    - replace partial with 0 by lia. reflexivity. }
  rewrite AV. split; [reflexivity|]. cbn [num_last wnum_bits wblocks]. split; [auto|]. split; [lia|].
  split; [destruct bit; [apply ones_lt|apply pow2_pos]|].
  assert (L7 : l ++ repeat bit (N.to_nat n) = flat_map word_bits bs6 ++ wbits (N.to_nat partial) (if bit then N.ones partial else 0)).
  { rewrite L6. replace (wbits (N.to_nat partial) (if bit then N.ones partial else 0)) with (repeat bit (N.to_nat partial))
      by (destruct bit; [rewrite wbits_ones by lia|rewrite wbits_0]; reflexivity).
    rewrite <- !app_assoc, <- !repeat_app. do 2 f_equal. lia. }
  split; [auto|]. rewrite app_length, repeat_length. rewrite N3, app_length, repeat_length. lia.
Qed.

Lemma wah_append_block_spec : forall v n w l, wrel w l -> 0 < n <= 64 ->
  exists w', wah_append_block v n w = Some w' /\ wrel w' (l ++ wbits (N.to_nat n) v).
Proof.
  intros v n w l R Hn. unfold wah_append_block, width. replace ((n =? 0) || (64 <? n)) with false by lia.
  destruct (activate_spec w l R) as (w1 & bs & a & E & H & Z). rewrite E. cbv zeta.
  change literal_size with 63. set (inject := N.min (63 - num_last w1) n).
  assert (I0 : inject =? 0 = false) by (unfold inject; lia). rewrite I0.
  rewrite lsb_fill_ones by (unfold inject; lia).
  set (w2 := Wah _ _ _).
  pose proof (inject_spec w1 bs a l (N.land v (N.ones inject)) inject H ltac:(unfold inject; lia)) as G.
  specialize (G ltac:(rewrite N.land_comm; apply land_lt, ones_lt)). fold w2 in G.
  rewrite wbits_land_ones in G by lia.
  destruct (n <=? inject) eqn:Cn.
  { exists w2. split; [auto|]. right. eexists _, _. replace n with inject by (unfold inject in *; lia). exact G. }
  assert (N63 : num_last w2 = 63) by (unfold w2, inject in *; cbn [num_last]; lia).
  destruct (merge_spec w2 _ _ _ G N63) as (w3 & bs3 & E3 & H3 & Z3 & NE). rewrite E3.
  pose proof H3 as (B3 & F3 & _ & _ & L3 & N3).
  rewrite Z3 in L3. change (wbits (N.to_nat 0) 0) with (@nil bool) in L3. rewrite app_nil_r in L3.
  eexists. split; [reflexivity|]. right. eexists bs3, _.
  rewrite lsb_mask_ones by (unfold inject in *; lia).
  split; [cbn [wblocks]; rewrite B3, set_back_app; reflexivity|].
  cbn [num_last wnum_bits wblocks]. split; [auto|]. split; [unfold inject in *; lia|].
  split; [rewrite N.land_comm; apply land_lt, ones_lt|].
  split.
  - rewrite <- L3, <- app_assoc. f_equal. rewrite wbits_land_ones by lia. unfold wshr.
    replace (N.to_nat n) with (N.to_nat inject + N.to_nat (n - inject))%nat by (unfold inject in *; lia).
    rewrite wbits_app, N2Nat.id. reflexivity.
  - rewrite N3, !app_length, !wbits_length. unfold inject in *. lia.
Qed.

Lemma map_negb_repeat : forall b n, map negb (repeat b n) = repeat (negb b) n.
Proof. induction n; cbn; f_equal; auto. Qed.

Lemma flip_word : forall x, word_ok x ->
  let y := N.lxor x (wshr (if is_fill x then msb1 else all) 1) in
  word_ok y /\ word_bits y = map negb (word_bits x).
Proof.
  intros x [H1 H2]. cbv zeta. unfold word_bits at 2. destruct (is_fill x) eqn:F.
  - change (wshr msb1 1) with (2 ^ 62). set (y := N.lxor x (2 ^ 62)).
    assert (Y : forall i, N.testbit y i = xorb (N.testbit x i) (i =? 62)).
    { intro i. unfold y. rewrite N.lxor_spec, N.pow2_bits_eqb. now rewrite (N.eqb_sym 62 i). }
    assert (Yf : is_fill y = true) by (rewrite is_fill_bit, Y; rewrite is_fill_bit in F; rewrite F; reflexivity).
    assert (Yt : fill_type y = negb (fill_type x)) by (rewrite !fill_type_bit, Y; apply xorb_true_r).
    assert (Yw : fill_words y = fill_words x).
    { rewrite !fill_words_mod. apply N.bits_inj. intro i. rewrite !testbit_mod_pow2, Y.
      destruct (i <? 62) eqn:C; [|reflexivity]. cbn [andb]. replace (i =? 62) with false by lia. apply xorb_false_r. }
    split; [split|].
    + apply lxor_lt; [auto|reflexivity].
    + intros _. rewrite Yw. auto.
    + unfold word_bits. rewrite Yf, Yt, Yw, map_negb_repeat. reflexivity.
  - change (wshr all 1) with (N.ones 63).
    assert (X : x < 2 ^ 63).
    { apply testbit_lt_pow2. intros i Hi. destruct (N.eq_dec i 63) as [->|Hne]; [now rewrite <- is_fill_bit|].
      apply (testbit_small x 64); [auto|lia]. }
    assert (Y : N.lxor x (N.ones 63) < 2 ^ 63) by (apply lxor_lt; [auto|reflexivity]).
    split; [apply literal_ok; auto|]. rewrite literal_bits by auto.
    rewrite wbits_lxor_ones by reflexivity. reflexivity.
Qed.

Lemma wah_flip_spec : forall w l, wrel w l -> wrel (wah_flip w) (map negb l).
Proof.
  intros w l [ [-> ->] | (bs & a & H)]; [left; auto|]. right.
  pose proof (active_lt _ _ _ _ H) as A. destruct H as (B & F & H1 & H2 & L & Nb).
  unfold wah_flip. rewrite B. destruct (bs ++ [a]) eqn:E; [destruct bs; discriminate|rewrite <- E; clear E].
  rewrite map_app. cbn [map]. rewrite back_app, set_back_app. rewrite (literal_not_fill a A).
  change (wshr all 1) with (N.ones 63). change literal_size with 63.
  set (k := num_last w) in *.
  assert (AV : N.lxor (N.lxor a (N.ones 63)) (wshl (lsb_mask (63 - k)) k) = N.lxor a (N.ones k)).
  { apply N.bits_inj. intro i. rewrite !N.lxor_spec, testbit_wshl, lsb_mask_ones by lia.
    rewrite !testbit_ones. rewrite xorb_assoc. f_equal.
    destruct (i <? 63) eqn:C1, (i <? 64) eqn:C2, (k <=? i) eqn:C3, (i - k <? 63 - k) eqn:C4, (i <? k) eqn:C5;
      try reflexivity; lia. }
  rewrite AV. eexists _, _. split; [reflexivity|]. cbn [num_last wnum_bits wblocks]. split; [|split; [auto|split] ].
  - clear -F. induction F as [|x bs Hx F IH]; cbn [map]; constructor; [apply (flip_word x Hx)|auto].
  - apply lxor_lt; [auto|apply ones_lt].
  - split.
    + rewrite L, map_app. f_equal.
      * clear -F. induction F as [|x bs Hx F IH]; cbn [map flat_map]; [auto|].
        rewrite map_app, IH. f_equal. symmetry. apply (flip_word x Hx).
      * symmetry. apply wbits_lxor_ones. lia.
    + now rewrite map_length.
Qed.

Lemma wrel_size : forall w l, wrel w l -> wnum_bits w = N.of_nat (length l).
Proof. intros w l [ [-> ->] | (bs & a & H)]; [reflexivity|apply H]. Qed.

(** * The range *)

Lemma run_bits : forall (t : bool) n, 0 < n ->
  good (mk_bits (if t then all else none) n) /\
  blist (mk_bits (if t then all else none) n) = repeat t (N.to_nat n).
Proof.
  intros t n Hn. assert (X : (if t then all else none) = 0 \/ (if t then all else none) = all) by (destruct t; auto).
  split; [split; [apply mk_bits_wf|exact Hn]|].
  - destruct t; reflexivity.
  - auto.
  - destruct (N.leb_spec n 64).
    + rewrite mk_bits_blist by auto. rewrite wbits_run by (auto; lia). destruct t; reflexivity.
    + unfold blist, mk_bits. cbn [bsize bdata]. unfold width.
      assert (64 <? n = true) as -> by lia. assert (n <? 64 = false) as -> by lia. destruct t; reflexivity.
Qed.

Lemma literal_seq : forall x n, x < 2 ^ 63 -> n <= 63 ->
  bwf (mk_bits x n) /\ blist (mk_bits x n) = wbits (N.to_nat n) x.
Proof.
  intros x n H Hn. split.
  - apply mk_bits_wf; [eapply N.lt_trans; [exact H|reflexivity]|lia].
  - apply mk_bits_blist. lia.
Qed.

Lemma fill_run_spec : forall t bs a n, Forall word_ok bs -> a < 2 ^ 63 -> 0 < n ->
  exists m bs', fill_run t n (bs ++ [a]) = (m, bs' ++ [a]) /\ 0 < m /\ Forall word_ok bs' /\
    (length bs' <= length bs)%nat /\
    repeat t (N.to_nat m) ++ flat_map word_bits bs' = repeat t (N.to_nat n) ++ flat_map word_bits bs.
Proof.
  intros t bs a n F A. revert n. induction F as [|x bs Hx F IH]; intros n Hn; cbn [app fill_run].
  - unfold is_fill_of. rewrite literal_not_fill by auto. cbn [andb]. exists n, []. repeat split; auto.
  - destruct (is_fill_of x t) eqn:C.
    + destruct (IH (n + fill_words x * literal_size)) as (m & bs' & E & M & F' & Ln & Eq); [lia|].
      exists m, bs'. split; [auto|]. split; [auto|]. split; [auto|]. split; [cbn [length]; lia|].
      rewrite Eq. cbn [flat_map]. rewrite (is_fill_of_bits _ _ C), app_assoc, <- repeat_app. do 2 f_equal.
      change literal_size with 63. lia.
    + exists n, (x :: bs). split; [reflexivity|]. repeat split; auto.
Qed.

Lemma range_go_spec : forall fuel bs a k, (length bs < fuel)%nat -> Forall word_ok bs -> a < 2 ^ 63 -> k <= 63 ->
  exists front, wah_range_go fuel k (bs ++ [a]) = front ++ [mk_bits a k] /\ Forall good front /\
    flat_map blist front = flat_map word_bits bs.
Proof.
  induction fuel as [|fuel IH]; intros bs a k Hf F A Hk; [lia|].
  destruct bs as [|x bs]; cbn [app wah_range_go].
  - rewrite literal_not_fill by auto. exists []. repeat split. constructor.
  - inversion_clear F as [|? ? [X1 X2] F']. destruct (is_fill x) eqn:C.
    + destruct (fill_run_spec (fill_type x) bs a (fill_words x * literal_size) F' A) as (m & bs' & E & M & F2 & Ln & Eq).
      { specialize (X2 eq_refl). change literal_size with 63. lia. }
      rewrite E. cbn [length] in Hf. destruct (IH bs' a k) as (front & E2 & G & Eq2); [lia|auto..|].
      rewrite E2. destruct (run_bits (fill_type x) m M) as [G1 G2].
      eexists (_ :: front). split; [reflexivity|]. split; [constructor; auto|].
      cbn [flat_map]. rewrite G2, Eq2, Eq. unfold word_bits at 2. rewrite C. reflexivity.
    + cbn [length] in Hf. destruct (IH bs a k) as (front & E2 & G & Eq2); [lia|auto..|].
      assert (X : x < 2 ^ 63).
      { apply testbit_lt_pow2. intros i Hi. destruct (N.eq_dec i 63) as [->|Hne]; [now rewrite <- is_fill_bit|].
        apply (testbit_small x 64); [auto|lia]. }
      destruct (literal_seq x literal_size X) as [G1 G2]; [reflexivity|].
      destruct (bs ++ [a]) eqn:E in |- *; [destruct bs; discriminate|rewrite <- E]. rewrite E2.
      eexists (_ :: front). split; [reflexivity|]. split; [constructor; [split; [auto|reflexivity]|auto]|].
      cbn [flat_map]. rewrite G2, Eq2. unfold word_bits at 2. rewrite C. reflexivity.
Qed.

Lemma range_spec : forall w l, wrel w l ->
  flat_map blist (wah_range w) = l /\
  (w = wah_empty \/ exists front b, wah_range w = front ++ [b] /\ Forall good front /\ bwf b /\ bsize b = num_last w).
Proof.
  intros w l [ [-> ->] | (bs & a & H)]; [auto|]. pose proof (active_lt _ _ _ _ H) as A.
  destruct H as (B & F & H1 & H2 & L & Nb). unfold wah_range. rewrite B.
  destruct (range_go_spec (length (bs ++ [a])) bs a (num_last w)) as (front & E & G & Eq); auto.
  { rewrite app_length. cbn. lia. }
  rewrite E. destruct (literal_seq a (num_last w) A H1) as [G1 G2]. split.
  - rewrite flat_map_snoc, Eq, G2. auto.
  - right. eexists _, _. split; [reflexivity|]. auto.
Qed.

Lemma range_good : forall w l, wrel w l -> num_last w <> 0 -> Forall good (wah_range w).
Proof.
  intros w l R Hz. destruct (range_spec w l R) as [_ [-> | (front & b & E & G & G1 & G2)] ]; [constructor|].
  rewrite E. apply Forall_app. split; [auto|]. constructor; [|constructor]. split; [auto|]. lia.
Qed.

(** * Comparison *)

Lemma wah_blocks_eqb : forall xs ys, blocks_eqb xs ys = true -> xs = ys.
Proof.
  induction xs as [|x xs IH]; intros [|y ys] H; cbn [blocks_eqb] in H; try discriminate; [auto|].
  apply andb_true_iff in H. destruct H as [H1 H2]. apply N.eqb_eq in H1. f_equal; auto.
Qed.

Lemma wah_eqb_sound : forall x lx y ly, wrel x lx -> wrel y ly -> wah_eqb x y = true -> lx = ly.
Proof.
  intros x lx y ly Rx Ry H. unfold wah_eqb in H. apply andb_true_iff in H. destruct H as [H1 H2].
  apply wah_blocks_eqb in H1. apply N.eqb_eq in H2.
  destruct Rx as [ [-> ->] | (bs & a & B & F & K & A & L & Nb)], Ry as [ [-> ->] | (bs' & a' & B' & F' & K' & A' & L' & Nb')]; auto.
  - cbn [wblocks wah_empty] in H1. rewrite <- H1 in B'. destruct bs'; discriminate.
  - cbn [wblocks wah_empty] in H1. rewrite H1 in B. destruct bs; discriminate.
  - rewrite H1, B' in B. apply app_inj_tail in B. destruct B as [-> ->].
    assert (num_last x = num_last y).
    { rewrite Nb, Nb', L, L', !app_length, !wbits_length in H2. lia. }
    congruence.
Qed.
