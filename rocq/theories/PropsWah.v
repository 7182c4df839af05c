(** C52: word-aligned hybrid bitmaps hold exactly the bits appended. *)
From Coq Require Import List ZArith NArith Lia Bool ZifyBool ZifyNat ZifyN.
From Verif Require Import NBits WordModel WordProofs EwahModel EwahProofs BitmapAlgoModel
  BitmapAlgoProofs BitmapSelectProofs PropsEwah PropsBitmapOps WahModel WahProofs.
Import ListNotations.
Open Scope N_scope.

(** * Specification *)

(** The mutators and their effect on a sequence of bits are those of C01
    ([bitmap_op], [op_valid], [spec]); here they run on WAH bitmaps. *)
Definition wah_op (o : bitmap_op) (w : wah) : option wah :=
  match o with
  | AppendBit b => wah_append_bit b w
  | AppendBits b n => wah_append_bits b n w
  | AppendBlock v n => wah_append_block v n w
  | Flip => Some (wah_flip w)
  end.
Fixpoint wah_exec (ops : list bitmap_op) (w : wah) : option wah :=
  match ops with
  | [] => Some w
  | o :: r => match wah_op o w with Some w => wah_exec r w | None => None end
  end.

(** What a client sees when it iterates over the range. *)
Definition wah_iterated (w : wah) : list bool := flat_map seq_content (wah_range w).

Lemma wah_exec_rel : forall ops w l, Forall op_valid ops -> wrel w l ->
  exists w', wah_exec ops w = Some w' /\ wrel w' (fold_left spec_op ops l).
Proof.
  induction ops as [|o ops IH]; intros w l V R; cbn [wah_exec fold_left]; [eauto|].
  inversion_clear V as [|? ? V1 V2].
  assert (G : exists w1, wah_op o w = Some w1 /\ wrel w1 (spec_op l o)).
  { destruct o as [b|b n|v n|]; cbn [wah_op spec_op op_valid] in *.
    - apply wah_append_bit_spec; auto.
    - apply wah_append_bits_spec; auto.
    - apply wah_append_block_spec; auto.
    - eexists. split; [reflexivity|]. apply wah_flip_spec; auto. }
  destruct G as (w1 & E & R1). rewrite E. apply IH; auto.
Qed.

Lemma wah_exec_spec : forall ops w, Forall op_valid ops -> wah_exec ops wah_empty = Some w -> wrel w (spec ops).
Proof.
  intros ops w V E. destruct (wah_exec_rel ops wah_empty [] V) as (w' & E' & R); [left; auto|].
  assert (w' = w) by congruence. subst. exact R.
Qed.

Lemma wah_iterated_rel : forall w l, wrel w l -> wah_iterated w = l.
Proof.
  intros w l R. destruct (range_spec w l R) as [E _]. rewrite <- E. unfold wah_iterated.
  apply flat_map_ext. apply seq_content_blist.
Qed.

(** * Content *)

(** Every history of calls succeeds, the size is the number of bits appended,
    and iterating over the range yields exactly these bits. *)
Theorem C52_wah_exact : forall ops, Forall op_valid ops ->
  exists w, wah_exec ops wah_empty = Some w /\
    wnum_bits w = N.of_nat (length (spec ops)) /\ wah_iterated w = spec ops.
Proof.
  intros ops V. destruct (wah_exec_rel ops wah_empty [] V) as (w & E & R); [left; auto|].
  exists w. split; [auto|]. split; [apply wrel_size; auto|apply wah_iterated_rel; auto].
Qed.

Definition wah_sample : list bitmap_op :=
  [AppendBit true; AppendBits true 200; AppendBlock 5 64; Flip; AppendBits false 63;
   AppendBits false 130; Flip; AppendBlock 11 7; AppendBit false].
Example C52_wah_exact_example : Forall op_valid wah_sample /\
  option_map (fun w => (wnum_bits w, length (wblocks w), nth 0 (wah_iterated w) false, nth 202 (wah_iterated w) true))
    (wah_exec wah_sample wah_empty) = Some (466, 5%nat, true, false).
Proof. split; [|vm_compute; reflexivity]. repeat (constructor; [cbn; first [exact I|lia]|]). constructor. Qed.

(** * The range *)

(** Only the last sequence of the range can be empty, and it is empty only if
    the last call but flips appended a run of equal bits and the size is a
    multiple of 63. *)
Definition is_flip (o : bitmap_op) : bool := match o with Flip => true | _ => false end.
Definition appended_run (ops : list bitmap_op) : Prop :=
  exists ops1 b n flips, ops = ops1 ++ AppendBits b n :: flips /\ 0 < n /\
    forall o, In o flips -> is_flip o = true \/ exists b, o = AppendBits b 0.

Lemma num_last_zero : forall ops w, Forall op_valid ops -> wah_exec ops wah_empty = Some w ->
  num_last w = 0 -> w = wah_empty \/ appended_run ops.
Proof.
  intros ops. induction ops as [|o ops IH] using rev_ind; intros w V E Z.
  - injection E as <-. auto.
  - assert (X : forall ops1 o w0, wah_exec (ops1 ++ [o]) w0 =
      match wah_exec ops1 w0 with Some w => wah_op o w | None => None end).
    { clear. induction ops1 as [|a ops1 IH]; intros o w0; cbn [app wah_exec].
      - destruct (wah_op o w0); reflexivity.
      - destruct (wah_op a w0); auto. }
    rewrite X in E. clear X. apply Forall_app in V. destruct V as [V1 V2]. inversion_clear V2 as [|? ? Vo _].
    destruct (wah_exec ops wah_empty) as [w1|] eqn:E1; [|discriminate].
    pose proof (wah_exec_spec ops w1 V1 E1) as R.
    assert (EXT : forall o', (is_flip o' = true \/ exists b, o' = AppendBits b 0) -> appended_run ops -> appended_run (ops ++ [o'])).
    { intros o' Ho (ops1 & b & n & flips & -> & Hn & Hf). exists ops1, b, n, (flips ++ [o']).
      split; [rewrite <- app_assoc; reflexivity|]. split; [auto|]. intros x Hx. apply in_app_or in Hx.
      destruct Hx as [Hx | [<- | [] ] ]; auto. }
    destruct o as [b|b n|v n|]; cbn [wah_op op_valid] in *.
    + unfold wah_append_bit in E. destruct (activate w1); [|discriminate]. injection E as <-.
      cbn [num_last] in Z. lia.
    + destruct (N.eq_dec n 0) as [->|Hn].
      * unfold wah_append_bits in E. cbn [N.eqb] in E. injection E as <-.
        destruct (IH w1 V1 eq_refl Z) as [->|A]; [auto|right]. apply EXT; eauto.
      * right. exists ops, b, n, []. split; [reflexivity|]. split; [lia|]. intros o [].
    + unfold wah_append_block, width in E. destruct ((n =? 0) || (64 <? n)) eqn:C; [discriminate|].
      destruct (activate_spec w1 _ R) as (w2 & bs & a & E2 & H2 & Z2). rewrite E2 in E. cbv zeta in E.
      change literal_size with 63 in E.
      destruct (N.min (63 - num_last w2) n =? 0) eqn:C1; [discriminate|].
      destruct (n <=? N.min (63 - num_last w2) n) eqn:C2.
      * match type of E with Some ?x = Some w => assert (X : x = w) by congruence end.
        rewrite <- X in Z. cbn [num_last] in Z. lia.
      * destruct (merge_active_word _) as [w3|]; [|discriminate].
        match type of E with Some ?x = Some w => assert (X : x = w) by congruence end.
        rewrite <- X in Z. cbn [num_last] in Z. lia.
    + assert (Zf : num_last (wah_flip w1) = num_last w1) by (unfold wah_flip; destruct (wblocks w1); reflexivity).
      injection E as <-. rewrite Zf in Z. destruct (IH w1 V1 eq_refl Z) as [->|A]; [auto|right]. apply EXT; auto.
Qed.

Theorem C52_wah_range : forall ops w, Forall op_valid ops -> wah_exec ops wah_empty = Some w ->
  Forall (fun b => 0 < bsize b) (wah_range w) \/
  (exists front b, wah_range w = front ++ [b] /\ Forall (fun b => 0 < bsize b) front /\ bsize b = 0 /\
     appended_run ops /\ N.of_nat (length (spec ops)) mod 63 = 0).
Proof.
  intros ops w V E. pose proof (wah_exec_spec ops w V E) as R.
  destruct (range_spec w _ R) as [C [-> | (front & b & E1 & G & W & S)] ]; [left; constructor|].
  assert (GF : Forall (fun b => 0 < bsize b) front) by (eapply Forall_impl; [|exact G]; intros ? [_ H]; exact H).
  destruct (N.eq_dec (num_last w) 0) as [Z|Z].
  - right. exists front, b. split; [auto|]. split; [auto|]. split; [lia|].
    destruct (num_last_zero ops w V E Z) as [->|A]; [|split; auto].
    + exfalso. cbn in E1. destruct front; discriminate.
    + rewrite <- (wrel_size w _ R). destruct R as [ [-> _] | (bs & a & H)]; [reflexivity|].
      destruct H as (_ & _ & _ & _ & L & NB). rewrite NB, L, Z. change (wbits (N.to_nat 0) a) with (@nil bool).
      rewrite app_nil_r. clear. induction bs as [|x bs IH]; [reflexivity|]. cbn [flat_map].
      rewrite app_length, Nat2N.inj_add.
      assert (H : N.of_nat (length (word_bits x)) mod 63 = 0).
      { unfold word_bits. destruct (is_fill x); [|rewrite wbits_length; reflexivity].
        rewrite repeat_length, N2Nat.id. apply N.mod_mul. lia. }
      rewrite N.add_mod, H, IH by lia. reflexivity.
  - left. rewrite E1. apply Forall_app. split; [auto|]. constructor; [lia|constructor].
Qed.

Example C52_wah_range_example : exists w, wah_exec wah_sample wah_empty = Some w /\
  Forall (fun b => 0 < bsize b) (wah_range w) /\ (3 < length (wah_range w))%nat.
Proof. eexists. split; [vm_compute; reflexivity|]. split; [vm_compute; repeat constructor|vm_compute; lia]. Qed.

(** The boolean operators, rank and select over ranges without empty sequences
    are exact; the results are EWAH bitmaps, as for all [bitmap] objects. *)
Theorem C52_wah_operators : forall ops1 w1 ops2 w2, Forall op_valid ops1 -> Forall op_valid ops2 ->
  wah_exec ops1 wah_empty = Some w1 -> wah_exec ops2 wah_empty = Some w2 ->
  Forall (fun b => 0 < bsize b) (wah_range w1) -> Forall (fun b => 0 < bsize b) (wah_range w2) ->
  let eval fl fr op := binary_eval_ranges fl fr op (wnum_bits w1) (wah_range w1) (wnum_bits w2) (wah_range w2) in
  let is_result e f := exists r, e = Some r /\ iterated r = Some (pointwise f (spec ops1) (spec ops2)) in
  is_result (eval false false N.land) andb /\ is_result (eval true true N.lor) orb /\
  is_result (eval true true N.lxor) xorb /\
  is_result (eval true false (fun x y => N.land x (wnot y))) (fun a b => a && negb b).
Proof.
  intros ops1 w1 ops2 w2 V1 V2 E1 E2 P1 P2. cbv zeta.
  pose proof (wah_exec_spec _ _ V1 E1) as R1. pose proof (wah_exec_spec _ _ V2 E2) as R2.
  assert (G : forall w l, wrel w l -> Forall (fun b => 0 < bsize b) (wah_range w) -> Forall good (wah_range w)).
  { clear. intros w l R P. destruct (range_spec w l R) as [_ [-> | (front & b & E & G & W & S)] ]; [constructor|].
    rewrite E in *. apply Forall_app in P. destruct P as [_ P]. inversion_clear P. apply Forall_app.
    split; [auto|]. constructor; [split; auto|constructor]. }
  pose proof (G _ _ R1 P1) as G1. pose proof (G _ _ R2 P2) as G2. clear G.
  destruct (range_spec _ _ R1) as [C1 _]. destruct (range_spec _ _ R2) as [C2 _].
  assert (X : forall fl fr op f, bitwise op f -> fills f fl fr ->
    exists r, binary_eval_ranges fl fr op (wnum_bits w1) (wah_range w1) (wnum_bits w2) (wah_range w2) = Some r /\
      iterated r = Some (pointwise f (spec ops1) (spec ops2))).
  { intros fl fr op f B Fi. destruct (binary_eval_ranges_spec op f fl fr B Fi (wah_range w1) (wah_range w2)
      (wnum_bits w1) (wnum_bits w2) G1 G2) as (r & E & Q).
    - rewrite C1. apply wrel_size; auto.
    - rewrite C2. apply wrel_size; auto.
    - exists r. split; [auto|]. rewrite C1, C2 in Q. rewrite pointwise_pw. apply iterated_rel; auto. }
  split; [apply X; [apply bitwise_land|apply fills_and]|].
  split; [apply X; [apply bitwise_lor|apply fills_or]|].
  split; [apply X; [apply bitwise_lxor|apply fills_xor]|].
  apply X; [apply bitwise_nand|apply fills_nand].
Qed.

(** With an empty last sequence the operators violate an assertion: a run of
    126 zeros and a run of 126 ones have no conjunction. *)
Theorem C52_wah_operators_refuted : exists w1 w2,
  wah_exec [AppendBits false 126] wah_empty = Some w1 /\ wah_exec [AppendBits true 126] wah_empty = Some w2 /\
  wah_iterated w1 = repeat false 126 /\ wah_iterated w2 = repeat true 126 /\
  binary_eval_ranges false false N.land (wnum_bits w1) (wah_range w1) (wnum_bits w2) (wah_range w2) = None /\
  binary_eval_ranges true true N.lor (wnum_bits w1) (wah_range w1) (wnum_bits w2) (wah_range w2) = None.
Proof. eexists _, _. repeat (apply conj; [vm_compute; reflexivity|]). vm_compute. reflexivity. Qed.

(** Counting is exact whether or not the last sequence is empty. *)
Lemma rank_go_prefix : forall bit front t res n i, n <= i -> i < n + N.of_nat (length (flat_map blist front)) ->
  rank_go bit (front ++ t) res n i = rank_go bit front res n i.
Proof.
  intros bit front t. induction front as [|b front IH]; intros res n i H1 H2; cbn [app rank_go flat_map] in *.
  - cbn [length] in H2. lia.
  - rewrite app_length, blist_length in H2. destruct ((n <=? i) && (i <? n + bsize b)) eqn:C; [reflexivity|].
    apply IH; lia.
Qed.

Theorem C52_wah_rank : forall ops w bit i, Forall op_valid ops -> wah_exec ops wah_empty = Some w ->
  rank_at bit (wnum_bits w) (wah_range w) i =
  if i <? N.of_nat (length (spec ops))
  then Some (N.of_nat (count_occ bool_dec (firstn (N.to_nat (i + 1)) (spec ops)) bit)) else None.
Proof.
  intros ops w bit i V E. pose proof (wah_exec_spec ops w V E) as R. unfold rank_at.
  rewrite (wrel_size w _ R). destruct (i <? N.of_nat (length (spec ops))) eqn:Ci; [|reflexivity]. f_equal.
  destruct (range_spec w _ R) as [C [-> | (front & b & E1 & G & W & S)] ].
  - cbn in C. rewrite <- C in Ci. cbn in Ci. lia.
  - destruct (N.eq_dec (num_last w) 0) as [Z|Z].
    + rewrite E1 in *. assert (blist b = []) by (apply length_zero_iff_nil; rewrite blist_length; lia).
      rewrite flat_map_snoc, H, app_nil_r in C.
      rewrite rank_go_prefix by (rewrite ?C; lia). rewrite rank_go_spec by (auto; rewrite ?C; lia).
      rewrite C, pos_count, N.sub_0_r. reflexivity.
    + pose proof (range_good w _ R Z) as Gd. rewrite rank_go_spec by (auto; rewrite ?C; lia).
      rewrite C, pos_count, N.sub_0_r. reflexivity.
Qed.

Example C52_wah_rank_example : exists w, wah_exec [AppendBits true 63; AppendBits false 63; Flip] wah_empty = Some w /\
  rank_at true (wnum_bits w) (wah_range w) 70 = Some 8 /\ rank_at true (wnum_bits w) (wah_range w) 126 = None.
Proof. eexists. repeat (apply conj; [vm_compute; reflexivity|]). vm_compute. reflexivity. Qed.

(** * Comparison *)

(** Equal bitmaps have equal bits. *)
Theorem C52_wah_equal : forall ops1 w1 ops2 w2, Forall op_valid ops1 -> Forall op_valid ops2 ->
  wah_exec ops1 wah_empty = Some w1 -> wah_exec ops2 wah_empty = Some w2 ->
  wah_eqb w1 w2 = true -> spec ops1 = spec ops2.
Proof.
  intros ops1 w1 ops2 w2 V1 V2 E1 E2 H.
  exact (wah_eqb_sound _ _ _ _ (wah_exec_spec _ _ V1 E1) (wah_exec_spec _ _ V2 E2) H).
Qed.

Example C52_wah_equal_example : exists w1 w2,
  wah_exec [AppendBits true 100; AppendBlock 5 9] wah_empty = Some w1 /\
  wah_exec [AppendBits false 60; Flip; AppendBits true 41; AppendBlock 2 8] wah_empty = Some w2 /\
  wah_eqb w1 w2 = true.
Proof. eexists _, _. repeat (apply conj; [vm_compute; reflexivity|]). vm_compute. reflexivity. Qed.

(** Bitmaps with equal bits may differ: 126 zeros appended at once and one by
    one. *)
Theorem C52_wah_equal_refuted : exists ops1 w1 ops2 w2, Forall op_valid ops1 /\ Forall op_valid ops2 /\
  wah_exec ops1 wah_empty = Some w1 /\ wah_exec ops2 wah_empty = Some w2 /\
  spec ops1 = spec ops2 /\ wah_eqb w1 w2 = false.
Proof.
  exists [AppendBits false 126]. eexists. exists (repeat (AppendBit false) 126). eexists.
  split; [repeat constructor|]. split; [apply Forall_forall; intros o Ho; apply repeat_spec in Ho; subst; exact I|].
  repeat (apply conj; [vm_compute; reflexivity|]). vm_compute. reflexivity.
Qed.

Definition assumptions_Wah :=
  (C52_wah_exact, C52_wah_range, C52_wah_operators, C52_wah_operators_refuted, C52_wah_rank,
   C52_wah_equal, C52_wah_equal_refuted).
Print Assumptions assumptions_Wah.
