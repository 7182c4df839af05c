(** Proofs about bitvectors and uncompressed bitmaps. *)
From Coq Require Import List ZArith NArith Lia Bool ZifyBool ZifyNat ZifyN.
From Verif Require Import NBits WordModel WordProofs BitvectorModel.
Import ListNotations.
Open Scope N_scope.

(** * Specification: a bitvector denotes a list of bits *)

(** All bits of a list of blocks. *)
Definition bits_of (bs : list N) : list bool := flat_map (wbits 64) bs.

(** [v] holds the bits [l]: nothing, or some whole blocks and the first [p]
    bits of one more. *)
Inductive holds_bits : bitvec -> list bool -> Prop :=
| hb_nil : holds_bits (BV [] 0) []
| hb_snoc : forall bs b p size, Forall (fun x => x < 2 ^ 64) bs -> b < 2 ^ 64 -> (0 < p <= 64)%nat ->
    size = 64 * N.of_nat (length bs) + N.of_nat p ->
    holds_bits (BV (bs ++ [b]) size) (bits_of bs ++ wbits p b).

Lemma bits_of_app : forall a b, bits_of (a ++ b) = bits_of a ++ bits_of b.
Proof. intros. apply flat_map_app. Qed.

Lemma bits_of_length : forall bs, length (bits_of bs) = (64 * length bs)%nat.
Proof.
  induction bs as [|b bs IH]; auto. unfold bits_of in *. cbn [flat_map].
  rewrite app_length, wbits_length, IH. cbn [length]. lia.
Qed.

Lemma bits_of_one : forall b, bits_of [b] = wbits 64 b.
Proof. intros. unfold bits_of. cbn [flat_map]. apply app_nil_r. Qed.

Lemma bits_of_repeat : forall k x, x = 0 \/ x = all ->
  bits_of (repeat x k) = repeat (negb (x =? 0)) (64 * k).
Proof.
  intros k x Hx. induction k as [|k IH]; auto.
  cbn [repeat]. unfold bits_of in *. cbn [flat_map]. rewrite IH, wbits_run by auto.
  rewrite <- repeat_app. f_equal. lia.
Qed.

Lemma holds_size : forall v l, holds_bits v l -> bv_size v = N.of_nat (length l).
Proof.
  intros v l H. destruct H; auto. cbn [bv_size]. rewrite app_length, bits_of_length, wbits_length. lia.
Qed.

Lemma holds_blocks : forall v l, holds_bits v l -> Forall (fun x => x < 2 ^ 64) (bv_blocks v).
Proof. intros v l H. destruct H; cbn [bv_blocks]; auto. apply Forall_app. auto. Qed.

Lemma on_back_snoc : forall f bs b, on_back f (bs ++ [b]) = Some (bs ++ [f b]).
Proof.
  intros f bs b. induction bs as [|x bs IH]; auto.
  cbn [app on_back]. rewrite IH. destruct (bs ++ [b]) eqn:E; auto.
  destruct bs; discriminate.
Qed.

Lemma all_lt : all < 2 ^ 64.
Proof. unfold all. rewrite N.ones_equiv. reflexivity. Qed.

Lemma fill_lt : forall b : bool, (if b then all else none) < 2 ^ 64.
Proof. intros []; [apply all_lt|reflexivity]. Qed.

Lemma fill_spec : forall b : bool, (if b then all else none) = 0 \/ (if b then all else none) = all.
Proof. intros []; auto. Qed.

Lemma fill_neq : forall b : bool, negb ((if b then all else none) =? 0) = b.
Proof. intros []; reflexivity. Qed.

(** Setting all bits from [p] on to one value. *)
Definition fill_from (value : bool) (p b : N) : N :=
  if value then N.lor b (wshl all p) else N.land b (wnot (wshl all p)).

Lemma testbit_fill_from : forall value p b i, i < 64 ->
  N.testbit (fill_from value p b) i = if i <? p then N.testbit b i else value.
Proof.
  intros value p b i Hi. unfold fill_from. destruct value.
  - rewrite N.lor_spec, testbit_wshl, testbit_all.
    destruct (i <? p) eqn:E.
    + replace (p <=? i) with false by lia. rewrite andb_false_l, andb_false_r. apply orb_false_r.
    + replace (p <=? i) with true by lia. replace (i <? 64) with true by lia.
      replace (i - p <? 64) with true by lia. apply orb_true_r.
  - rewrite N.land_spec, testbit_wnot, testbit_wshl, testbit_all.
    destruct (i <? p) eqn:E.
    + replace (p <=? i) with false by lia. replace (i <? 64) with true by lia.
      rewrite andb_false_l. cbn. apply andb_true_r.
    + replace (p <=? i) with true by lia. replace (i <? 64) with true by lia.
      replace (i - p <? 64) with true by lia. cbn. apply andb_false_r.
Qed.

Lemma wshl_lt : forall x p, wshl x p < 2 ^ 64.
Proof. intros. apply wrap_lt. Qed.

Lemma fill_from_lt : forall value p b, b < 2 ^ 64 -> fill_from value p b < 2 ^ 64.
Proof.
  intros value p b Hb. apply testbit_lt_pow2. intros i Hi. unfold fill_from. destruct value.
  - rewrite N.lor_spec, (testbit_small b 64), (testbit_small _ 64 i (wshl_lt _ _)) by auto. reflexivity.
  - rewrite N.land_spec, (testbit_small b 64) by auto. reflexivity.
Qed.

Lemma wbits_fill_from : forall value p b n, (p <= n <= 64)%nat ->
  wbits n (fill_from value (N.of_nat p) b) = wbits p b ++ repeat value (n - p).
Proof.
  intros value p b n H. apply list_ext.
  - rewrite app_length, !wbits_length, repeat_length. lia.
  - intros i Hi. rewrite wbits_length in Hi. rewrite nth_wbits by auto.
    rewrite testbit_fill_from by lia.
    destruct (N.of_nat i <? N.of_nat p) eqn:E.
    + rewrite app_nth1 by (rewrite wbits_length; lia). rewrite nth_wbits by lia. auto.
    + rewrite app_nth2 by (rewrite wbits_length; lia). rewrite wbits_length.
      rewrite nth_repeat_lt by lia. auto.
Qed.

(** Appending a block behind the first [p] bits. *)
Definition join (p x b : N) : N := N.lor (N.land b (lsb_mask p)) (wshl x p).

Lemma testbit_join : forall p x b i, p <= 64 -> i < 64 ->
  N.testbit (join p x b) i = if i <? p then N.testbit b i else N.testbit x (i - p).
Proof.
  intros p x b i Hp Hi. unfold join.
  rewrite N.lor_spec, N.land_spec, lsb_mask_ones, testbit_ones, testbit_wshl by auto.
  replace (i <? 64) with true by lia. destruct (i <? p) eqn:E.
  - replace (p <=? i) with false by lia. now rewrite andb_true_r, andb_false_l, andb_false_r, orb_false_r.
  - replace (p <=? i) with true by lia. now rewrite andb_false_r.
Qed.

Lemma join_lt : forall p x b, b < 2 ^ 64 -> join p x b < 2 ^ 64.
Proof.
  intros p x b Hb. apply testbit_lt_pow2. intros i Hi. unfold join.
  rewrite N.lor_spec, N.land_spec, (testbit_small b 64), (testbit_small _ 64 i (wshl_lt _ _)) by auto.
  reflexivity.
Qed.

Lemma wbits_join : forall p x b n, (p <= n <= 64)%nat ->
  wbits n (join (N.of_nat p) x b) = wbits p b ++ wbits (n - p) x.
Proof.
  intros p x b n H. apply list_ext.
  - rewrite app_length, !wbits_length. lia.
  - intros i Hi. rewrite wbits_length in Hi. rewrite nth_wbits by auto.
    rewrite testbit_join by lia.
    destruct (N.of_nat i <? N.of_nat p) eqn:E.
    + rewrite app_nth1 by (rewrite wbits_length; lia). rewrite nth_wbits by lia. auto.
    + rewrite app_nth2 by (rewrite wbits_length; lia). rewrite wbits_length.
      rewrite nth_wbits by lia. f_equal. lia.
Qed.

(** * Partial blocks *)

Lemma partial_snoc : forall (bs : list N) p size, (0 < p <= 64)%nat ->
  size = 64 * N.of_nat (length bs) + N.of_nat p ->
  size mod 64 = (if (p =? 64)%nat then 0 else N.of_nat p).
Proof.
  intros bs p size Hp ->. destruct (p =? 64)%nat eqn:E.
  - apply Nat.eqb_eq in E. subst p. rewrite (N.mul_comm 64), N.add_comm, N.mod_add by lia. reflexivity.
  - apply Nat.eqb_neq in E. rewrite (N.mul_comm 64), N.add_comm, N.mod_add by lia.
    rewrite N.mod_small by lia. reflexivity.
Qed.

Lemma firstn_repeat_le : forall {A} (x : A) k n, (k <= n)%nat -> firstn k (repeat x n) = repeat x k.
Proof. intros. rewrite firstn_repeat. f_equal. lia. Qed.

Lemma btb_spec : forall k p, (0 < p <= 64)%nat ->
  bits_to_blocks (64 * N.of_nat k + N.of_nat p) = N.of_nat k + 1.
Proof.
  intros k p Hp. unfold bits_to_blocks, width.
  replace (64 * N.of_nat k + N.of_nat p =? 0) with false by lia.
  replace (64 * N.of_nat k + N.of_nat p - 1) with (N.of_nat (p - 1) + N.of_nat k * 64) by lia.
  rewrite N.div_add by lia. rewrite N.div_small by lia. lia.
Qed.

(** Every positive size is some whole blocks and [p] bits. *)
Lemma size_split : forall n, 0 < n -> exists k p, (0 < p <= 64)%nat /\ n = 64 * N.of_nat k + N.of_nat p.
Proof.
  intros n Hn. exists (N.to_nat ((n - 1) / 64)), (N.to_nat ((n - 1) mod 64) + 1)%nat.
  pose proof (N.div_mod (n - 1) 64 ltac:(lia)). pose proof (N.mod_lt (n - 1) 64 ltac:(lia)). lia.
Qed.

(** * Operations *)

Lemma holds_fill : forall bs (value : bool) n, Forall (fun x => x < 2 ^ 64) bs ->
  64 * N.of_nat (length bs) < n ->
  holds_bits (BV (vec_resize bs (bits_to_blocks n) (if value then all else none)) n)
             (bits_of bs ++ repeat value (N.to_nat n - 64 * length bs)).
Proof.
  intros bs value n Hbs Hn.
  destruct (size_split n ltac:(lia)) as (k & p & Hp & En).
  assert (Ek : (length bs <= k)%nat) by lia.
  unfold vec_resize. rewrite En, btb_spec by auto.
  rewrite firstn_all2 by lia.
  replace (N.to_nat (N.of_nat k + 1) - length bs)%nat with ((k - length bs) + 1)%nat by lia.
  rewrite repeat_app. cbn [repeat]. rewrite app_assoc.
  replace (bits_of bs ++ repeat value (N.to_nat (64 * N.of_nat k + N.of_nat p) - 64 * length bs))
    with (bits_of (bs ++ repeat (if value then all else none) (k - length bs))
          ++ wbits p (if value then all else none)).
  - apply hb_snoc; auto.
    + apply Forall_app. split; auto. apply Forall_forall. intros x Hx. apply repeat_spec in Hx. subst x.
      apply fill_lt.
    + apply fill_lt.
    + rewrite app_length, repeat_length. lia.
  - rewrite bits_of_app, bits_of_repeat by apply fill_spec.
    rewrite wbits_run by (try apply fill_spec; lia). rewrite fill_neq, <- app_assoc, <- repeat_app.
    do 2 f_equal. lia.
Qed.

Lemma new_holds : forall n value, holds_bits (bv_new n value) (repeat value (N.to_nat n)).
Proof.
  intros n value. unfold bv_new. destruct (N.eq_dec n 0) as [->|Hn]; [apply hb_nil|].
  pose proof (holds_fill [] value n (Forall_nil _) ltac:(cbn; lia)) as H.
  unfold vec_resize in H. rewrite firstn_nil in H. cbn [length app bits_of flat_map] in H.
  rewrite Nat.sub_0_r in H. replace (N.to_nat n - 64 * 0)%nat with (N.to_nat n) in H by lia. exact H.
Qed.

Lemma push_holds : forall v l x, holds_bits v l -> exists v', bv_push v x = Some v' /\ holds_bits v' (l ++ [x]).
Proof.
  intros v l x H. destruct H as [|bs b p size Hbs Hb Hp Hs].
  - exists (BV [if x then all else none] 1). split; [reflexivity|].
    replace ([] ++ [x]) with (bits_of [] ++ wbits 1 (if x then all else none)) by (destruct x; reflexivity).
    apply (hb_snoc [] _ 1 1); [constructor | apply fill_lt | lia | reflexivity].
  - unfold bv_push, partial_bits, width. cbn [bv_size bv_blocks].
    rewrite (partial_snoc bs p size Hp Hs). destruct (p =? 64)%nat eqn:E.
    + apply Nat.eqb_eq in E. subst p.
      eexists. split; [reflexivity|].
      replace ((bits_of bs ++ wbits 64 b) ++ [x]) with (bits_of (bs ++ [b]) ++ wbits 1 (if x then all else none)).
      * apply hb_snoc; [apply Forall_app; auto| apply fill_lt | lia |].
        rewrite app_length. cbn [length]. lia.
      * rewrite bits_of_app, bits_of_one. destruct x; reflexivity.
    + apply Nat.eqb_neq in E. replace (N.of_nat p =? 0) with false by lia.

      rewrite (on_back_snoc _ bs b). cbn [option_map].
      eexists. split; [reflexivity|].
      change (if x then N.lor b (wshl all (N.of_nat p)) else N.land b (wnot (wshl all (N.of_nat p))))
        with (fill_from x (N.of_nat p) b).
      replace ((bits_of bs ++ wbits p b) ++ [x]) with (bits_of bs ++ wbits (p + 1) (fill_from x (N.of_nat p) b)).
      * apply hb_snoc; auto; try lia. apply fill_from_lt; auto.
      * rewrite wbits_fill_from by lia. replace (p + 1 - p)%nat with 1%nat by lia. now rewrite <- app_assoc.
Qed.

Lemma append_block_holds : forall v l x n, holds_bits v l -> x < 2 ^ 64 -> (0 < n <= 64)%nat ->
  exists v', bv_append_block v x (N.of_nat n) = Some v' /\ holds_bits v' (l ++ wbits n x).
Proof.
  intros v l x n H Hx Hn. unfold bv_append_block, width.
  replace ((N.of_nat n =? 0) || (64 <? N.of_nat n)) with false by lia.
  destruct H as [|bs b p size Hbs Hb Hp Hs].
  - eexists. split; [reflexivity|]. cbn [bv_blocks bv_size app].
    change (wbits n x) with (bits_of [] ++ wbits n x). apply (hb_snoc [] x n); auto.
  - unfold partial_bits, width. cbn [bv_size bv_blocks].
    rewrite (partial_snoc bs p size Hp Hs). destruct (p =? 64)%nat eqn:E.
    + apply Nat.eqb_eq in E. subst p.
      eexists. split; [reflexivity|].
      replace ((bits_of bs ++ wbits 64 b) ++ wbits n x) with (bits_of (bs ++ [b]) ++ wbits n x).
      * apply hb_snoc; auto; [apply Forall_app; auto|].
        rewrite app_length. cbn [length]. lia.
      * now rewrite bits_of_app, bits_of_one.
    + apply Nat.eqb_neq in E. replace (N.of_nat p =? 0) with false by lia.
      rewrite (on_back_snoc _ bs b). cbn [option_map]. fold (join (N.of_nat p) x b).
      eexists. split; [reflexivity|].
      destruct (64 - N.of_nat p <? N.of_nat n) eqn:En.
      * replace ((bits_of bs ++ wbits p b) ++ wbits n x)
          with (bits_of (bs ++ [join (N.of_nat p) x b]) ++ wbits (n - (64 - p)) (wshr x (64 - N.of_nat p))).
        { apply hb_snoc; try lia.
          - apply Forall_app. split; auto. constructor; auto. apply join_lt; auto.
          - unfold wshr. rewrite N.shiftr_div_pow2. apply N.le_lt_trans with x; auto.
            apply N.div_le_upper_bound; [apply N.pow_nonzero; lia|].
            rewrite <- (N.mul_1_l x) at 1. apply N.mul_le_mono_r.
            pose proof (N.pow_nonzero 2 (64 - N.of_nat p)). lia.
          - rewrite app_length. cbn [length]. lia. }
        rewrite bits_of_app, bits_of_one, wbits_join by lia. rewrite <- !app_assoc. do 2 f_equal.
        replace n with ((64 - p) + (n - (64 - p)))%nat at 2 by lia. rewrite wbits_app. f_equal.
        unfold wshr. do 2 f_equal. lia.
      * replace ((bits_of bs ++ wbits p b) ++ wbits n x)
          with (bits_of bs ++ wbits (p + n) (join (N.of_nat p) x b)).
        { apply hb_snoc; auto; try lia. apply join_lt; auto. }
        rewrite wbits_join by lia. rewrite <- app_assoc. do 3 f_equal. lia.
Qed.

Lemma firstn_bits_of : forall k bs, firstn (64 * k) (bits_of bs) = bits_of (firstn k bs).
Proof.
  induction k as [|k IH]; intros bs; [now rewrite Nat.mul_0_r|].
  destruct bs as [|b bs]; [now rewrite !firstn_nil|].
  replace (64 * S k)%nat with (length (wbits 64 b) + 64 * k)%nat by (rewrite wbits_length; lia).
  change (bits_of (b :: bs)) with (wbits 64 b ++ bits_of bs). rewrite firstn_app_2, IH. reflexivity.
Qed.

(** A bitvector holds a prefix of its blocks' bits. *)
Lemma holds_firstn : forall v l, holds_bits v l ->
  l = firstn (N.to_nat (bv_size v)) (bits_of (bv_blocks v)) /\
  length (bv_blocks v) = N.to_nat (bits_to_blocks (bv_size v)).
Proof.
  intros v l H. destruct H as [|bs b p size Hbs Hb Hp Hs]; [split; reflexivity|].
  cbn [bv_size bv_blocks]. split.
  - rewrite bits_of_app, bits_of_one, Hs.
    replace (N.to_nat (64 * N.of_nat (length bs) + N.of_nat p)) with (length (bits_of bs) + p)%nat
      by (rewrite bits_of_length; lia).
    rewrite firstn_app_2, firstn_wbits by lia. reflexivity.
  - rewrite Hs, btb_spec, app_length by auto. cbn [length]. lia.
Qed.

Lemma holds_of_firstn : forall bs n, Forall (fun x => x < 2 ^ 64) bs ->
  length bs = N.to_nat (bits_to_blocks n) ->
  holds_bits (BV bs n) (firstn (N.to_nat n) (bits_of bs)).
Proof.
  intros bs n Hbs Hl. destruct (N.eq_dec n 0) as [->|Hn].
  - destruct bs; [apply hb_nil|discriminate].
  - destruct (size_split n ltac:(lia)) as (k & p & Hp & En).
    rewrite En, btb_spec in Hl by auto.
    destruct bs as [|b bs] using rev_ind; [cbn in Hl; lia|]. clear IHbs.
    rewrite app_length in Hl. cbn [length] in Hl. apply Forall_app in Hbs. destruct Hbs as [Hbs Hb].
    inversion_clear Hb.
    rewrite bits_of_app, bits_of_one.
    replace (N.to_nat n) with (length (bits_of bs) + p)%nat by (rewrite bits_of_length; lia).
    rewrite firstn_app_2, firstn_wbits by lia. apply hb_snoc; auto. lia.
Qed.

Lemma bits_to_blocks_mono : forall a b, a <= b -> bits_to_blocks a <= bits_to_blocks b.
Proof.
  intros a b H. unfold bits_to_blocks, width. destruct (a =? 0) eqn:E; [lia|].
  replace (b =? 0) with false by lia. pose proof (N.div_le_mono (a - 1) (b - 1) 64). lia.
Qed.

Lemma btb_le : forall n, n <= 64 * bits_to_blocks n.
Proof.
  intros n. destruct (N.eq_dec n 0) as [->|Hn]; [lia|].
  destruct (size_split n ltac:(lia)) as (k & p & Hp & En). rewrite En, btb_spec by auto. lia.
Qed.

Lemma firstn_firstn_le : forall {A} a b (l : list A), (a <= b)%nat -> firstn a (firstn b l) = firstn a l.
Proof. intros. rewrite firstn_firstn. f_equal. lia. Qed.

Lemma resize_holds : forall v l n value, holds_bits v l ->
  exists v', bv_resize v n value = Some v' /\
    holds_bits v' (firstn (N.to_nat n) l ++ repeat value (N.to_nat n - length l)).
Proof.
  intros v l n value H. pose proof (holds_size v l H) as Hsz. unfold bv_resize.
  destruct (n <=? bv_size v) eqn:En.
  - eexists. split; [reflexivity|]. destruct (holds_firstn v l H) as [-> Hl].
    pose proof (holds_blocks v _ H) as Hb. rewrite firstn_length, bits_of_length.
    pose proof (btb_le (bv_size v)).
    replace (N.to_nat n - _)%nat with O by lia. cbn [repeat]. rewrite app_nil_r.
    rewrite firstn_firstn_le by lia.
    pose proof (bits_to_blocks_mono n (bv_size v) ltac:(lia)).
    unfold vec_resize. replace (_ - length (bv_blocks v))%nat with O by lia. cbn [repeat]. rewrite app_nil_r.
    rewrite <- (firstn_firstn_le (N.to_nat n) (64 * N.to_nat (bits_to_blocks n)))
      by (pose proof (btb_le n); lia).
    rewrite firstn_bits_of. apply holds_of_firstn.
    + apply Forall_forall. intros x Hx. rewrite Forall_forall in Hb. apply Hb.
      rewrite <- (firstn_skipn (N.to_nat (bits_to_blocks n))). apply in_or_app. auto.
    + rewrite firstn_length. lia.
  - assert (Hge : firstn (N.to_nat n) l = l) by (apply firstn_all2; lia). rewrite Hge. clear Hge.
    destruct H as [|bs b p size Hbs Hb Hp Hs].
    + eexists. split; [reflexivity|]. cbn [bv_blocks bv_size app length] in *.
      pose proof (holds_fill [] value n (Forall_nil _) ltac:(cbn; lia)) as H.
      cbn [length bits_of flat_map app] in H. rewrite Nat.mul_0_r in H. exact H.
    + unfold partial_bits, width. cbn [bv_size bv_blocks] in *.
      rewrite (partial_snoc bs p size Hp Hs). rewrite app_length, bits_of_length, wbits_length.
      destruct (p =? 64)%nat eqn:E.
      * apply Nat.eqb_eq in E. subst p. replace (0 <? 0) with false by lia.
        eexists. split; [reflexivity|].
        pose proof (holds_fill (bs ++ [b]) value n) as H. rewrite app_length in H. cbn [length] in H.
        rewrite bits_of_app, bits_of_one in H.
        replace (64 * length bs + 64)%nat with (64 * (length bs + 1))%nat by lia.
        apply H; [apply Forall_app; auto | lia].
      * apply Nat.eqb_neq in E. replace (0 <? N.of_nat p) with true by lia.
        rewrite (on_back_snoc _ bs b).
        change (if value then N.lor b (wshl all (N.of_nat p)) else N.land b (wnot (wshl all (N.of_nat p))))
          with (fill_from value (N.of_nat p) b).
        destruct (n - size <=? 64 - N.of_nat p) eqn:Ef.
        -- eexists. split; [reflexivity|].
           replace ((bits_of bs ++ wbits p b) ++ _)
             with (bits_of bs ++ wbits (p + N.to_nat (n - size)) (fill_from value (N.of_nat p) b)).
           ++ apply hb_snoc; auto; try lia. apply fill_from_lt; auto.
           ++ rewrite wbits_fill_from by lia. rewrite <- app_assoc. do 3 f_equal. lia.
        -- eexists. split; [reflexivity|].
           pose proof (holds_fill (bs ++ [fill_from value (N.of_nat p) b]) value n) as H.
           rewrite app_length in H. cbn [length] in H.
           rewrite bits_of_app, bits_of_one, wbits_fill_from in H by lia.
           replace ((bits_of bs ++ wbits p b) ++ repeat value (N.to_nat n - (64 * length bs + p)))
             with ((bits_of bs ++ wbits p b ++ repeat value (64 - p)) ++ repeat value (N.to_nat n - 64 * (length bs + 1))).
           ++ apply H; [|lia]. apply Forall_app. split; auto. constructor; auto. apply fill_from_lt; auto.
           ++ rewrite <- !app_assoc, <- repeat_app. do 3 f_equal. lia.
Qed.

Lemma flip_holds : forall v l, holds_bits v l -> holds_bits (bv_flip v) (map negb l).
Proof.
  assert (Hn : forall n w, (n <= 64)%nat -> wbits n (wnot w) = map negb (wbits n w)).
  { intros n w Hn. unfold wnot, all. apply wbits_lxor_ones. lia. }
  intros v l H. destruct H as [|bs b p size Hbs Hb Hp Hs]; [apply hb_nil|].
  unfold bv_flip. cbn [bv_blocks bv_size]. rewrite !map_app. cbn [map]. rewrite <- Hn by lia.
  replace (map negb (bits_of bs)) with (bits_of (map wnot bs)).
  - apply hb_snoc; auto.
    + apply Forall_forall. intros x Hx. apply in_map_iff in Hx. destruct Hx as (y & <- & Hy).
      rewrite Forall_forall in Hbs. apply wnot_lt. auto.
    + apply wnot_lt. auto.
    + now rewrite map_length.
  - clear - Hn. induction bs as [|b bs IH]; auto. unfold bits_of in *. cbn [map flat_map].
    now rewrite map_app, IH, Hn by lia.
Qed.

Lemma removelast_firstn' : forall {A} (l : list A), removelast l = firstn (length l - 1) l.
Proof.
  intros A l. destruct l as [|a l] using rev_ind; auto. rewrite removelast_last, app_length. cbn [length].
  replace (length l + 1 - 1)%nat with (length l + 0)%nat by lia. rewrite firstn_app_2. cbn. now rewrite app_nil_r.
Qed.

Lemma pop_holds : forall v l, holds_bits v l ->
  match bv_pop v with Some v' => l <> [] /\ holds_bits v' (removelast l) | None => l = [] end.
Proof.
  intros v l H. destruct H as [|bs b p size Hbs Hb Hp Hs]; [reflexivity|].
  unfold bv_pop, partial_bits, width. cbn [bv_blocks bv_size]. replace (size =? 0) with false by lia.
  rewrite (partial_snoc bs p size Hp Hs).
  assert (Hne : wbits p b <> []) by (intro E; apply (f_equal (@length bool)) in E; rewrite wbits_length in E; cbn in E; lia).
  split.
  { intro E. apply app_eq_nil in E. tauto. }
  rewrite (removelast_app (bits_of bs) Hne).
  replace (removelast (wbits p b)) with (wbits (p - 1) b)
    by (rewrite removelast_firstn', wbits_length, firstn_wbits; auto; lia).
  destruct (N.eq_dec (N.of_nat p) 1) as [E|E].
  - replace p with 1%nat by lia. cbn [Nat.eqb N.of_nat]. cbn [N.eqb Pos.eqb].
    rewrite removelast_last. replace (1 - 1)%nat with O by lia. change (wbits 0 b) with (@nil bool).
    rewrite app_nil_r.
    destruct bs as [|b' bs'] using rev_ind; [replace (size - 1) with 0 by (cbn in Hs; lia); apply hb_nil|].
    clear IHbs'. apply Forall_app in Hbs. destruct Hbs as [Hbs Hb']. inversion_clear Hb'.
    rewrite bits_of_app, bits_of_one. rewrite app_length in Hs. cbn [length] in Hs. apply hb_snoc; auto; lia.
  - replace ((if (p =? 64)%nat then 0 else N.of_nat p) =? 1) with false
      by (destruct (p =? 64)%nat; lia).
    apply hb_snoc; auto; lia.
Qed.

(** * Reading *)

Lemma nth_error_bits_of : forall bs i, (i < 64 * length bs)%nat ->
  exists b, nth_error bs (i / 64) = Some b /\
    nth i (bits_of bs) false = N.testbit b (N.of_nat (i mod 64)).
Proof.
  induction bs as [|b bs IH]; intros i Hi; [cbn in Hi; lia|].
  change (bits_of (b :: bs)) with (wbits 64 b ++ bits_of bs).
  destruct (Nat.lt_ge_cases i 64).
  - rewrite Nat.div_small, Nat.mod_small by auto. exists b. split; auto.
    rewrite app_nth1 by (rewrite wbits_length; auto). apply nth_wbits. auto.
  - destruct (IH (i - 64)%nat) as (b' & E & N'); [cbn [length] in Hi; lia|].
    exists b'. replace i with ((i - 64) + 1 * 64)%nat by lia.
    rewrite Nat.div_add, Nat.mod_add by lia. rewrite Nat.add_1_r. split; auto.
    rewrite app_nth2 by (rewrite wbits_length; lia). rewrite wbits_length.
    rewrite <- N'. f_equal. lia.
Qed.

Lemma nth_firstn : forall {A} (l : list A) n i d, (i < n)%nat -> nth i (firstn n l) d = nth i l d.
Proof.
  induction l as [|x l IH]; intros n i d H; [now rewrite firstn_nil|].
  destruct n; [lia|]. cbn. destruct i; auto. apply IH. lia.
Qed.

Lemma get_holds : forall v l i, holds_bits v l ->
  bv_get v i = nth_error l (N.to_nat i).
Proof.
  intros v l i H. pose proof (holds_size v l H) as Hs. unfold bv_get.
  destruct (i <? bv_size v) eqn:E.
  - destruct (holds_firstn v l H) as [Hl Hb]. pose proof (btb_le (bv_size v)).
    destruct (nth_error_bits_of (bv_blocks v) (N.to_nat i) ltac:(lia)) as (b & Eb & Nb).
    assert (Hd : N.to_nat (i / width) = (N.to_nat i / 64)%nat) by (unfold width; now rewrite N2Nat.inj_div).
    rewrite Hd, Eb. cbn [option_map]. unfold width. rewrite land_mask_0 by (apply N.mod_lt; lia).
    symmetry. rewrite (nth_error_nth' l false) by lia. f_equal.
    rewrite Hl, nth_firstn by lia. rewrite Nb. f_equal.
    rewrite <- (N2Nat.id i) at 2. rewrite Nat2N.inj_mod. reflexivity.
  - symmetry. apply nth_error_None. lia.
Qed.

(** * Writing one bit *)

Definition set_at (i : nat) (x : bool) (l : list bool) : list bool :=
  firstn i l ++ x :: skipn (S i) l.

Lemma set_at_length : forall i x l, (i < length l)%nat -> length (set_at i x l) = length l.
Proof. intros. unfold set_at. rewrite app_length, firstn_length. cbn [length]. rewrite skipn_length. lia. Qed.

Lemma nth_skipn' : forall {A} n (l : list A) i d, nth i (skipn n l) d = nth (n + i) l d.
Proof.
  induction n as [|n IH]; intros l i d; auto. destruct l; [now destruct i|]. cbn. apply IH.
Qed.

Lemma nth_set_at : forall i x l j, (i < length l)%nat ->
  nth j (set_at i x l) false = if (j =? i)%nat then x else nth j l false.
Proof.
  intros i x l j Hi. unfold set_at.
  assert (Hf : length (firstn i l) = i) by (rewrite firstn_length; lia).
  destruct (j =? i)%nat eqn:E.
  - apply Nat.eqb_eq in E. subst j. rewrite app_nth2 by lia. rewrite Hf, Nat.sub_diag. reflexivity.
  - apply Nat.eqb_neq in E. destruct (Nat.lt_ge_cases j i).
    + rewrite app_nth1 by lia. apply nth_firstn. auto.
    + rewrite app_nth2 by lia. rewrite Hf. destruct (j - i)%nat eqn:D; [lia|].
      cbn [nth]. rewrite nth_skipn'. f_equal. lia.
Qed.

Lemma on_nth_spec : forall f bs k b, nth_error bs k = Some b ->
  on_nth k f bs = Some (firstn k bs ++ f b :: skipn (S k) bs).
Proof.
  intros f. induction bs as [|c bs IH]; intros k b H; [destruct k; discriminate|].
  destruct k; cbn in H |- *; [inversion H; auto|]. now rewrite (IH k b H).
Qed.

Lemma nth_error_split' : forall {A} (l : list A) k x, nth_error l k = Some x ->
  l = firstn k l ++ x :: skipn (S k) l.
Proof.
  intros A. induction l as [|y l IH]; intros k x H; [destruct k; discriminate|].
  destruct k; cbn in H |- *; [inversion H; auto|]. f_equal. apply IH. auto.
Qed.

Definition set_bit (x : bool) (j b : N) : N :=
  if x then N.lor b (mask j) else N.land b (wnot (mask j)).

Lemma testbit_set_bit : forall x j b i, j < 64 -> i < 64 ->
  N.testbit (set_bit x j b) i = if i =? j then x else N.testbit b i.
Proof.
  intros x j b i Hj Hi. unfold set_bit. destruct x.
  - rewrite N.lor_spec, mask_pow2, N.pow2_bits_eqb by auto. rewrite (N.eqb_sym j i).
    destruct (i =? j); [apply orb_true_r | apply orb_false_r].
  - rewrite N.land_spec, testbit_wnot, mask_pow2, N.pow2_bits_eqb by auto. rewrite (N.eqb_sym j i).
    replace (i <? 64) with true by lia. destruct (i =? j); [apply andb_false_r | apply andb_true_r].
Qed.

Lemma set_bit_lt : forall x j b, b < 2 ^ 64 -> set_bit x j b < 2 ^ 64.
Proof.
  intros x j b Hb. apply testbit_lt_pow2. intros i Hi. unfold set_bit. destruct x.
  - rewrite N.lor_spec, (testbit_small b 64) by auto. unfold mask.
    now rewrite (testbit_small _ 64 i (wshl_lt _ _)).
  - now rewrite N.land_spec, (testbit_small b 64) by auto.
Qed.

Lemma wbits_set_bit : forall x j b, (j < 64)%nat ->
  wbits 64 (set_bit x (N.of_nat j) b) = set_at j x (wbits 64 b).
Proof.
  intros x j b Hj. apply list_ext.
  - rewrite set_at_length; rewrite !wbits_length; auto.
  - intros i Hi. rewrite wbits_length in Hi. rewrite nth_set_at by (rewrite wbits_length; auto).
    rewrite !nth_wbits by auto. rewrite testbit_set_bit by lia.
    destruct (i =? j)%nat eqn:E.
    + apply Nat.eqb_eq in E. subst. now rewrite N.eqb_refl.
    + apply Nat.eqb_neq in E. now replace (N.of_nat i =? N.of_nat j) with false by lia.
Qed.

Lemma set_holds : forall v l i x, holds_bits v l ->
  if i <? N.of_nat (length l)
  then exists v', bv_set v i x = Some v' /\ holds_bits v' (set_at (N.to_nat i) x l)
  else bv_set v i x = None.
Proof.
  intros v l i x H. pose proof (holds_size v l H) as Hs. unfold bv_set. rewrite Hs.
  destruct (i <? N.of_nat (length l)) eqn:E; auto.
  destruct (holds_firstn v l H) as [Hl Hb]. pose proof (btb_le (bv_size v)) as Hle.
  pose proof (holds_blocks v l H) as Hbs.
  destruct (nth_error_bits_of (bv_blocks v) (N.to_nat i) ltac:(lia)) as (b & Eb & _).
  assert (Hd : N.to_nat (i / width) = (N.to_nat i / 64)%nat) by (unfold width; now rewrite N2Nat.inj_div).
  assert (Hm : i mod width = N.of_nat (N.to_nat i mod 64)).
  { unfold width. rewrite <- (N2Nat.id i) at 1. rewrite Nat2N.inj_mod. reflexivity. }
  rewrite Hd, Hm. set (k := (N.to_nat i / 64)%nat) in *. set (j := (N.to_nat i mod 64)%nat) in *.
  assert (Hj : (j < 64)%nat) by (apply Nat.mod_upper_bound; lia).
  assert (Hi : N.to_nat i = (64 * k + j)%nat) by (apply Nat.div_mod; lia).
  rewrite (on_nth_spec _ _ _ _ Eb). cbn [option_map].
  change (if x then N.lor b (mask (N.of_nat j)) else N.land b (wnot (mask (N.of_nat j))))
    with (set_bit x (N.of_nat j) b).
  eexists. split; [reflexivity|].
  pose proof (nth_error_split' _ _ _ Eb) as Hsp.
  assert (Hk : length (firstn k (bv_blocks v)) = k).
  { rewrite firstn_length. apply Nat.min_l. apply Nat.lt_le_incl. apply nth_error_Some. congruence. }
  assert (Hbits : bits_of (firstn k (bv_blocks v) ++ set_bit x (N.of_nat j) b :: skipn (S k) (bv_blocks v))
                  = set_at (N.to_nat i) x (bits_of (bv_blocks v))).
  { rewrite Hsp at 3. set (pre := firstn k (bv_blocks v)) in *. set (post := skipn (S k) (bv_blocks v)) in *.
    rewrite !bits_of_app. change (bits_of (set_bit x (N.of_nat j) b :: post)) with (wbits 64 (set_bit x (N.of_nat j) b) ++ bits_of post).
    change (bits_of (b :: post)) with (wbits 64 b ++ bits_of post). rewrite wbits_set_bit by auto.
    apply list_ext.
    - rewrite set_at_length; rewrite !app_length, ?wbits_length, bits_of_length; rewrite ?set_at_length; rewrite ?wbits_length; lia.
    - intros a Ha. rewrite nth_set_at by (rewrite !app_length, wbits_length, bits_of_length; lia).
      destruct (Nat.lt_ge_cases a (64 * k)).
      + rewrite !app_nth1 by (rewrite bits_of_length; lia).
        destruct (a =? N.to_nat i)%nat eqn:Ea; auto. apply Nat.eqb_eq in Ea. lia.
      + rewrite !(app_nth2 (bits_of pre)) by (rewrite bits_of_length; lia). rewrite !bits_of_length, Hk.
        destruct (Nat.lt_ge_cases (a - 64 * k) 64).
        * rewrite !app_nth1 by (rewrite ?set_at_length; rewrite ?wbits_length; auto).
          rewrite nth_set_at by (rewrite wbits_length; auto).
          destruct (a =? N.to_nat i)%nat eqn:Ea; [apply Nat.eqb_eq in Ea|apply Nat.eqb_neq in Ea];
          destruct (a - 64 * k =? j)%nat eqn:Ej; auto; [apply Nat.eqb_neq in Ej|apply Nat.eqb_eq in Ej]; lia.
        * rewrite !app_nth2 by (rewrite ?set_at_length; rewrite ?wbits_length; auto).
          rewrite !set_at_length by (rewrite wbits_length; auto). rewrite !wbits_length.
          destruct (a =? N.to_nat i)%nat eqn:Ea; auto. apply Nat.eqb_eq in Ea. lia. }
  replace (set_at (N.to_nat i) x l)
    with (firstn (length l) (bits_of (firstn k (bv_blocks v) ++ set_bit x (N.of_nat j) b :: skipn (S k) (bv_blocks v)))).
  - rewrite <- (Nat2N.id (length l)) at 2. apply holds_of_firstn.
    + rewrite Hsp in Hbs. apply Forall_app in Hbs. destruct Hbs as [H1 H2]. inversion_clear H2.
      apply Forall_app. split; auto. constructor; auto. apply set_bit_lt; auto.
    + rewrite <- Hs, <- Hb. rewrite Hsp at 3. rewrite !app_length. reflexivity.
  - rewrite Hbits. apply list_ext.
    + rewrite firstn_length, !set_at_length by (try rewrite bits_of_length; lia). rewrite bits_of_length. lia.
    + intros a Ha. rewrite firstn_length in Ha. rewrite nth_firstn by lia.
      rewrite !nth_set_at by (try rewrite bits_of_length; lia). rewrite Hl, nth_firstn by lia. reflexivity.
Qed.

(** * Appending blocks *)

Lemma append_block_partial : forall v x, partial_bits v <> 0 ->
  bv_append_block v x 64 =
  option_map (fun bs => BV (bs ++ [wshr x (width - partial_bits v)]) (bv_size v + width))
    (on_back (fun b => N.lor (N.land b (lsb_mask (partial_bits v))) (wshl x (partial_bits v))) (bv_blocks v)).
Proof.
  intros v x Hp. unfold bv_append_block. change ((64 =? 0) || (width <? 64)) with false. cbv iota beta zeta.
  replace (partial_bits v =? 0) with false by lia.
  replace (width - partial_bits v <? 64) with true by (unfold width; lia). reflexivity.
Qed.

Lemma append_blocks_holds : forall xs v l, holds_bits v l -> Forall (fun x => x < 2 ^ 64) xs ->
  exists v', bv_append_blocks v xs = Some v' /\ holds_bits v' (l ++ bits_of xs).
Proof.
  intros xs v l H Hxs. unfold bv_append_blocks. destruct (partial_bits v =? 0) eqn:E.
  - eexists. split; [reflexivity|].
    assert (Hl : l = bits_of (bv_blocks v)).
    { destruct H as [|bs b p size Hbs Hb Hp Hs]; auto.
      unfold partial_bits in E. cbn [bv_size] in E. unfold width in E. rewrite (partial_snoc bs p size Hp Hs) in E.
      destruct (p =? 64)%nat eqn:E64; [|lia]. apply Nat.eqb_eq in E64. subst p.
      cbn [bv_blocks]. now rewrite bits_of_app, bits_of_one. }
    pose proof (holds_blocks v l H) as Hb. subst l. rewrite <- bits_of_app.
    set (bs := bv_blocks v ++ xs).
    rewrite <- (firstn_all2 (n := N.to_nat (N.of_nat (length bs) * width)) (bits_of bs))
      by (rewrite bits_of_length; unfold width; lia).
    apply holds_of_firstn.
    + apply Forall_app. auto.
    + destruct bs as [|b0 bs0] using rev_ind; auto. rewrite app_length. cbn [length].
      replace (N.of_nat (length bs0 + 1) * width) with (64 * N.of_nat (length bs0) + N.of_nat 64)
        by (unfold width; lia).
      rewrite btb_spec by lia. lia.
  - assert (Hp : partial_bits v <> 0) by lia. remember (partial_bits v) as p eqn:Ep. clear E.
    revert v l H Ep. induction Hxs as [|x xs Hx Hxs IH]; intros v l H Ep.
    + exists v. split; auto. cbn. now rewrite app_nil_r.
    + cbn [append_blocks_go].
      destruct (append_block_holds v l x 64 H Hx ltac:(lia)) as (v' & Ev & Hv).
      change (N.of_nat 64) with 64 in Ev. rewrite append_block_partial in Ev by congruence.
      rewrite <- Ep in Ev. destruct (on_back _ (bv_blocks v)) as [bs|]; [|discriminate].
      cbn [option_map] in Ev. 
      match type of Ev with Some ?a = Some v' => assert (Ev' : a = v') by congruence end. rewrite Ev'.
      change (bits_of (x :: xs)) with (wbits 64 x ++ bits_of xs). rewrite app_assoc.
      apply IH; auto. rewrite <- Ev'. unfold partial_bits in *. cbn [bv_size].
      rewrite <- (N.mul_1_l width) at 1. rewrite N.mod_add; auto. discriminate.
Qed.

Lemma push_all_holds : forall xs v l, holds_bits v l ->
  exists v', push_all v xs = Some v' /\ holds_bits v' (l ++ xs).
Proof.
  induction xs as [|x xs IH]; intros v l H; [exists v; split; auto; now rewrite app_nil_r|].
  cbn [push_all]. destruct (push_holds v l x H) as (v1 & E & H1). rewrite E.
  destruct (IH v1 (l ++ [x]) H1) as (v2 & E2 & H2). exists v2. split; auto.
  now rewrite <- app_assoc in H2.
Qed.

(** * Comparing *)

Lemma blocks_eqb_spec : forall xs ys, blocks_eqb xs ys = true <-> xs = ys.
Proof.
  induction xs as [|x xs IH]; intros [|y ys]; cbn; split; intros H; try discriminate; auto.
  - apply andb_true_iff in H. destruct H as [Hx Hr]. apply N.eqb_eq in Hx. apply IH in Hr. now subst.
  - inversion H. subst. rewrite N.eqb_refl. now apply IH.
Qed.

Lemma bits_of_inj : forall xs ys, Forall (fun x => x < 2 ^ 64) xs -> Forall (fun x => x < 2 ^ 64) ys ->
  bits_of xs = bits_of ys -> xs = ys.
Proof.
  induction xs as [|x xs IH]; intros [|y ys] Hx Hy H; auto.
  - apply (f_equal (@length bool)) in H. rewrite !bits_of_length in H. cbn in H. lia.
  - apply (f_equal (@length bool)) in H. rewrite !bits_of_length in H. cbn in H. lia.
  - change (bits_of (x :: xs)) with (wbits 64 x ++ bits_of xs) in H.
    change (bits_of (y :: ys)) with (wbits 64 y ++ bits_of ys) in H.
    inversion_clear Hx. inversion_clear Hy.
    assert (Hl : length (wbits 64 x) = length (wbits 64 y)) by now rewrite !wbits_length.
    pose proof (f_equal (firstn 64) H) as HH. rewrite !firstn_app, !wbits_length in HH.
    replace (64 - 64)%nat with O in HH by lia. rewrite !firstn_O, !app_nil_r in HH.
    rewrite !firstn_all2 in HH by (rewrite wbits_length; lia).
    apply wbits_inj in HH; auto. subst y. f_equal. apply IH; auto.
    now apply app_inv_head in H.
Qed.

Lemma firstn_exact : forall {A} n (a b : list A), length a = n -> firstn n (a ++ b) = a.
Proof. intros A n a b <-. rewrite <- (Nat.add_0_r (length a)), firstn_app_2. cbn. apply app_nil_r. Qed.

(** The bits that [operator==] compares. *)
Definition compared (n : nat) : nat := if (n mod 64 =? 0)%nat then (n - 64)%nat else n.

Lemma mod_snoc_nat : forall k p, (0 < p <= 64)%nat ->
  ((64 * k + p) mod 64 = if p =? 64 then 0 else p)%nat.
Proof.
  intros k p Hp. rewrite (Nat.mul_comm 64), Nat.add_comm, Nat.mod_add by lia.
  destruct (p =? 64)%nat eqn:E.
  - apply Nat.eqb_eq in E. now subst.
  - apply Nat.eqb_neq in E. apply Nat.mod_small. lia.
Qed.

Lemma land_lsb_eq : forall a b p, (p < 64)%nat ->
  (N.land a (lsb_mask (N.of_nat p)) = N.land b (lsb_mask (N.of_nat p)) <-> wbits p a = wbits p b).
Proof.
  intros a b p Hp. rewrite lsb_mask_ones by lia. split; intros H.
  - rewrite <- (wbits_land_ones p a (N.of_nat p)), <- (wbits_land_ones p b (N.of_nat p)) by lia. now rewrite H.
  - rewrite !N.land_ones. apply (wbits_inj p).
    + apply N.mod_lt. apply N.pow_nonzero. lia.
    + apply N.mod_lt. apply N.pow_nonzero. lia.
    + rewrite <- !N.land_ones, !wbits_land_ones by lia. auto.
Qed.

Lemma app_eq_len : forall {A} (a b c d : list A), length a = length c ->
  (a ++ b = c ++ d <-> a = c /\ b = d).
Proof.
  intros A. induction a as [|x a IH]; intros b [|y c] d H; cbn in *; try discriminate.
  - tauto.
  - split.
    + intros E. inversion E. subst. destruct (IH b c d ltac:(lia)) as [H' _]. destruct (H' H2). subst. auto.
    + intros [E ->]. inversion E. subst. auto.
Qed.

Lemma eqb_holds : forall v1 l1 v2 l2, holds_bits v1 l1 -> holds_bits v2 l2 ->
  (bv_eqb v1 v2 = true <-> length l1 = length l2 /\
     firstn (compared (length l1)) l1 = firstn (compared (length l2)) l2).
Proof.
  intros v1 l1 v2 l2 H1 H2. pose proof (holds_size _ _ H1) as S1. pose proof (holds_size _ _ H2) as S2.
  unfold bv_eqb. destruct (bv_size v1 =? bv_size v2) eqn:E; cbn [negb].
  2: { split; [discriminate|]. intros [Hl _]. lia. }
  assert (Hl : length l1 = length l2) by lia.
  destruct H1 as [|bs1 b1 p1 s1 Hbs1 Hb1 Hp1 Hs1].
  { cbn in Hl. destruct l2; [|discriminate]. cbn. tauto. }
  destruct H2 as [|bs2 b2 p2 s2 Hbs2 Hb2 Hp2 Hs2].
  { rewrite app_length, bits_of_length, wbits_length in Hl. cbn in Hl. lia. }
  cbn [bv_size bv_blocks] in *.
  assert (Hlb : length bs1 = length bs2) by lia.
  assert (Hpp : p1 = p2) by lia. subst p2.
  destruct (bs1 ++ [b1]) eqn:E1; [destruct bs1; discriminate|]. rewrite <- E1 in *. clear E1.
  rewrite !removelast_last, !last_last. unfold partial_bits. cbn [bv_size]. unfold width.
  rewrite (partial_snoc bs1 p1 s1 Hp1 Hs1), (partial_snoc bs2 p1 s2 Hp2 Hs2).
  assert (Hbsl : length (bits_of bs1) = length (bits_of bs2)) by (rewrite !bits_of_length; lia).
  rewrite Hl at 1. rewrite <- Hl at 1. 
  unfold compared. rewrite !app_length, !bits_of_length, !wbits_length, !mod_snoc_nat by auto.
  rewrite <- Hlb.
  destruct (p1 =? 64)%nat eqn:E64.
  - apply Nat.eqb_eq in E64. subst p1. rewrite Nat.eqb_refl.
    replace (64 * length bs1 + 64 - 64)%nat with (64 * length bs1)%nat by lia.
    rewrite !firstn_exact by (rewrite bits_of_length; lia).
    change (lsb_mask 0) with 0. rewrite !N.land_0_r. cbn [N.eqb].
    destruct (blocks_eqb bs1 bs2) eqn:Eb; cbn [negb].
    + apply blocks_eqb_spec in Eb. subst. tauto.
    + split; [discriminate|]. intros [_ Hb]. apply bits_of_inj in Hb; auto. apply blocks_eqb_spec in Hb. congruence.
  - apply Nat.eqb_neq in E64. replace (p1 =? 0)%nat with false by lia.
    rewrite !firstn_all2 by (rewrite app_length, bits_of_length, wbits_length; lia).
    rewrite app_eq_len by auto.
    destruct (blocks_eqb bs1 bs2) eqn:Eb; cbn [negb].
    + apply blocks_eqb_spec in Eb. subst. rewrite N.eqb_eq, land_lsb_eq by lia. tauto.
    + split; [discriminate|]. intros [_ [Hb _]]. apply bits_of_inj in Hb; auto.
      apply blocks_eqb_spec in Hb. congruence.
Qed.

(** * Counting *)

Definition count_bit (bit : bool) (l : list bool) : nat := length (filter (Bool.eqb bit) l).

Lemma count_bit_app : forall bit a b, count_bit bit (a ++ b) = (count_bit bit a + count_bit bit b)%nat.
Proof. intros. unfold count_bit. rewrite filter_app, app_length. auto. Qed.

Lemma count_bit_true : forall l, count_bit true l = count_true l.
Proof. induction l as [|[] l IH]; cbn in *; auto. Qed.

Lemma count_bit_false : forall l, (count_bit false l + count_bit true l)%nat = length l.
Proof. unfold count_bit. induction l as [|[] l IH]; cbn [filter Bool.eqb length] in *; lia. Qed.

Lemma rank_go_spec : forall bit bs b p r, Forall (fun x => x < 2 ^ 64) bs -> b < 2 ^ 64 -> (0 < p <= 64)%nat ->
  bv_rank_go bit (bs ++ [b]) (64 * N.of_nat (length bs) + N.of_nat p) r
  = Some (r + N.of_nat (count_bit bit (bits_of bs ++ wbits p b))).
Proof.
  assert (Hfull : forall bit b, b < 2 ^ 64 ->
    (if bit : bool then popcount b else width - popcount b) = N.of_nat (count_bit bit (wbits 64 b))).
  { intros bit b Hb. pose proof (popcount_wbits 64 b Hb) as Hp.
    pose proof (count_bit_false (wbits 64 b)) as Hf. rewrite wbits_length, count_bit_true in Hf.
    destruct bit; [now rewrite count_bit_true|]. unfold width. lia. }
  intros bit. induction bs as [|x bs IH]; intros b p r Hbs Hb Hp.
  - cbn [app length bits_of flat_map]. replace (64 * N.of_nat 0 + N.of_nat p) with (N.of_nat p) by lia.
    cbn [bv_rank_go]. unfold width. destruct (64 <=? N.of_nat p) eqn:E.
    + assert (p = 64%nat) by lia. subst p. change (N.of_nat 64 - 64) with 0.
      replace (64 <=? 0) with false by lia. replace (0 <? 0) with false by lia.
      f_equal. f_equal. apply Hfull. auto.
    + replace (0 <? N.of_nat p) with true by lia. f_equal. f_equal.
      rewrite lsb_mask_ones by lia. rewrite (popcount_wbits p)
        by (rewrite N.land_ones; apply N.mod_lt; apply N.pow_nonzero; lia).
      rewrite wbits_land_ones by lia.
      pose proof (count_bit_false (wbits p b)) as Hf. rewrite wbits_length, count_bit_true in Hf.
      destruct bit; [now rewrite count_bit_true|]. lia.
  - inversion_clear Hbs. cbn [app length bv_rank_go].
    change (bits_of (x :: bs)) with (wbits 64 x ++ bits_of bs).
    unfold width at 1. replace (64 <=? _) with true by lia.
    replace (64 * N.of_nat (S (length bs)) + N.of_nat p - width) with (64 * N.of_nat (length bs) + N.of_nat p)
      by (unfold width; lia).
    rewrite IH by auto. f_equal. rewrite Hfull by auto. rewrite <- app_assoc, !(count_bit_app bit (wbits 64 x)). lia.
Qed.

Lemma rank_holds : forall bit v l, holds_bits v l -> bv_rank bit v = Some (N.of_nat (count_bit bit l)).
Proof.
  intros bit v l H. destruct H as [|bs b p size Hbs Hb Hp Hs]; [reflexivity|].
  unfold bv_rank. cbn [bv_blocks bv_size]. rewrite Hs, rank_go_spec by auto. f_equal.
Qed.

(** * The bit range of the uncompressed bitmap *)

(** What the range makes of the remaining blocks [bs] after block [prev]: the
    last block is replaced by its predecessor if the scan joins the two. *)
Definition joined (partial : N) (prev : option N) (x : N) : bool :=
  match prev with
  | Some a => (0 <? partial) && all_or_none a && (N.land x (mask partial) =? N.land a (mask partial))
  | None => false
  end.
Definition pick (partial : N) (prev : option N) (x : N) : N :=
  if joined partial prev x then match prev with Some a => a | None => x end else x.
Definition in_last (partial : N) : nat := if partial =? 0 then 64%nat else N.to_nat partial.
Fixpoint seen (partial : N) (prev : option N) (bs : list N) : list bool :=
  match bs with
  | [] => []
  | [x] => wbits (in_last partial) (pick partial prev x)
  | x :: r => wbits 64 x ++ seen partial (Some x) r
  end.

Lemma scan_run_seen : forall rest partial data n, data = 0 \/ data = all -> partial < 64 -> rest <> [] ->
  let '(n', rest') := scan_run partial data n rest in
  repeat (negb (data =? 0)) (N.to_nat n') ++ seen partial None rest'
  = repeat (negb (data =? 0)) (N.to_nat n) ++ seen partial (Some data) rest
  /\ (length rest' <= length rest)%nat /\ n <= n'.
Proof.
  induction rest as [|x rest IH]; intros partial data n Hd Hp Hne; [congruence|].
  assert (Han : all_or_none data = true).
  { apply all_or_none_spec; auto. destruct Hd as [-> | ->]; [reflexivity|apply all_lt]. }
  destruct rest as [|y rest].
  - cbn [scan_run seen]. unfold pick, joined, in_last. rewrite Han, andb_true_r.
    destruct (0 <? partial) eqn:Ep.
    + cbn [andb]. replace (partial =? 0) with false by lia.
      destruct (N.land x (mask partial) =? N.land data (mask partial)) eqn:E.
      * cbn [seen length]. repeat split; try lia.
        rewrite app_nil_r, (wbits_run _ data) by (auto; lia). rewrite <- repeat_app. f_equal. lia.
      * cbn [seen length]. unfold pick, joined, in_last.
        replace (partial =? 0) with false by lia. repeat split; lia.
    + cbn [andb]. replace (partial =? 0) with true by lia.
      destruct (x =? data) eqn:E.
      * apply N.eqb_eq in E. subst x. cbn [seen length]. repeat split; try lia.
        rewrite app_nil_r, (wbits_run _ data) by (auto; lia). rewrite <- repeat_app. f_equal. unfold width. lia.
      * cbn [seen length]. unfold pick, joined, in_last.
        replace (partial =? 0) with true by lia. repeat split; lia.
  - change (scan_run partial data n (x :: y :: rest))
      with (if x =? data then scan_run partial data (n + width) (y :: rest) else (n, x :: y :: rest)).
    destruct (x =? data) eqn:E.
    + apply N.eqb_eq in E. subst x.
      specialize (IH partial data (n + width) Hd Hp ltac:(discriminate)).
      destruct (scan_run partial data (n + width) (y :: rest)) as [n' rest'].
      destruct IH as (E & Hl & Hn). repeat split; [|cbn [length] in *; lia|unfold width in *; lia].
      rewrite E. change (seen partial (Some data) (data :: y :: rest)) with (wbits 64 data ++ seen partial (Some data) (y :: rest)).
      rewrite (wbits_run 64 data) by (auto; lia). rewrite app_assoc, <- repeat_app. f_equal. f_equal. unfold width. lia.
    + repeat split; auto; lia.
Qed.

Lemma scan_seen : forall size b rest, b < 2 ^ 64 ->
  let '(x, rest') := scan size b rest in
  blist x ++ seen (size mod 64) None rest' = seen (size mod 64) None (b :: rest)
  /\ (length rest' <= length rest)%nat.
Proof.
  intros size b rest Hb. unfold scan, width. set (partial := size mod 64).
  assert (Hp : partial < 64) by (apply N.mod_lt; lia).
  destruct rest as [|y rest].
  - split; auto. cbn [seen]. rewrite app_nil_r. unfold pick, joined, in_last.
    destruct (partial =? 0) eqn:E; rewrite mk_bits_blist by lia; reflexivity.
  - destruct (all_or_none b) eqn:Ea; cbn [negb].
    + assert (Hd : b = 0 \/ b = all) by (apply all_or_none_spec; auto).
      pose proof (scan_run_seen (y :: rest) partial b 64 Hd Hp ltac:(discriminate)) as H.
      destruct (scan_run partial b 64 (y :: rest)) as [n' rest']. destruct H as (E & Hl & Hn).
      split; auto.
      replace (blist (mk_bits b n')) with (repeat (negb (b =? 0)) (N.to_nat n')).
      * rewrite E. change (seen partial None (b :: y :: rest)) with (wbits 64 b ++ seen partial (Some b) (y :: rest)).
        rewrite (wbits_run 64 b) by (auto; lia). reflexivity.
      * destruct (n' <=? 64) eqn:En.
        -- rewrite mk_bits_blist, wbits_run by (auto; lia). reflexivity.
        -- unfold blist, mk_bits, width. cbn [bsize bdata]. replace (64 <? n') with true by lia.
           replace (n' <? 64) with false by lia. reflexivity.
    + split; auto. rewrite mk_bits_blist by lia.
      change (seen partial None (b :: y :: rest)) with (wbits 64 b ++ seen partial (Some b) (y :: rest)).
      change (N.to_nat 64) with 64%nat. f_equal.
      destruct rest as [|z rest]; [|reflexivity]. cbn [seen]. unfold pick, joined. rewrite Ea.
      now rewrite andb_false_r.
Qed.

Lemma range_seen : forall fuel size bs, Forall (fun x => x < 2 ^ 64) bs -> (length bs <= fuel)%nat ->
  flat_map blist (nb_range_go fuel size bs) = seen (size mod 64) None bs.
Proof.
  induction fuel as [|f IH]; intros size bs Hbs Hl; [destruct bs; [reflexivity|cbn in Hl; lia]|].
  destruct bs as [|b rest]; [reflexivity|]. inversion_clear Hbs. cbn [nb_range_go].
  pose proof (scan_seen size b rest H) as Hs.
  assert (Hsub : forall x, In x (snd (scan size b rest)) -> In x rest).
  { unfold scan. intros x. destruct rest as [|y r]; auto.
    destruct (negb (all_or_none b)); auto.
    assert (G : forall rest p d n x, In x (snd (scan_run p d n rest)) -> In x rest).
    { clear. induction rest as [|z rest IH]; intros p d n x Hx; auto. destruct rest as [|w rest].
      - cbn in Hx. destruct (0 <? p).
        + destruct (N.land z (mask p) =? N.land d (mask p)); auto. destruct Hx.
        + destruct (z =? d); auto. destruct Hx.
      - change (scan_run p d n (z :: w :: rest))
          with (if z =? d then scan_run p d (n + width) (w :: rest) else (n, z :: w :: rest)) in Hx.
        destruct (z =? d); auto. right. eapply IH. exact Hx. }
    specialize (G (y :: r) (size mod width) b width x).
    destruct (scan_run (size mod width) b width (y :: r)) as [n' r']. exact G. }
  destruct (scan size b rest) as [x rest']. destruct Hs as (E & Hlen). cbn [flat_map snd] in *.
  rewrite IH; auto.
  - apply Forall_forall. intros z Hz. rewrite Forall_forall in H0. auto.
  - cbn [length] in Hl. lia.
Qed.

Lemma seen_snoc2 : forall bs partial prev a x,
  seen partial prev (bs ++ [a; x]) = bits_of (bs ++ [a]) ++ wbits (in_last partial) (pick partial (Some a) x).
Proof.
  induction bs as [|b bs IH]; intros partial prev a x.
  - cbn [app seen]. rewrite bits_of_one. reflexivity.
  - change ((b :: bs) ++ [a; x]) with (b :: (bs ++ [a; x])).
    assert (Hne : bs ++ [a; x] <> []) by (destruct bs; discriminate).
    destruct (bs ++ [a; x]) as [|c r] eqn:E; [congruence|].
    change (seen partial prev (b :: c :: r)) with (wbits 64 b ++ seen partial (Some b) (c :: r)).
    rewrite <- E, IH. change ((b :: bs) ++ [a]) with (b :: (bs ++ [a])).
    change (bits_of (b :: bs ++ [a])) with (wbits 64 b ++ bits_of (bs ++ [a])). now rewrite <- app_assoc.
Qed.

(** ** When the range is right *)

Definition uniform (b : bool) (l : list bool) : bool := forallb (Bool.eqb b) l.

(** The bits after the last whole block, and the block before them. *)
Definition whole (l : list bool) : nat := (64 * (length l / 64))%nat.
Definition tail_of (l : list bool) : list bool := skipn (whole l) l.
Definition before_tail (l : list bool) : list bool := firstn 64 (skipn (whole l - 64) l).

Lemma uniform_repeat : forall b l, uniform b l = true <-> l = repeat b (length l).
Proof.
  intros b. induction l as [|x l IH]; cbn; [tauto|]. split; intros H.
  - apply andb_true_iff in H. destruct H as [Hx Hl]. apply eqb_prop in Hx. subst. f_equal. apply IH. auto.
  - injection H as -> Hl. rewrite eqb_reflx. cbn. apply IH. auto.
Qed.

Lemma uniform_wbits : forall a, a < 2 ^ 64 -> forall b, uniform b (wbits 64 a) = true <-> a = if b then all else 0.
Proof.
  intros a Ha b. rewrite uniform_repeat, wbits_length. split; intros H.
  - apply (wbits_inj 64); auto; [destruct b; [apply all_lt|reflexivity]|]. rewrite H.
    destruct b; rewrite wbits_run by (auto; lia); reflexivity.
  - subst a. destruct b; rewrite wbits_run by (auto; lia); reflexivity.
Qed.

Lemma whole_parts : forall bs a x p, (0 < p < 64)%nat ->
  let l := bits_of (bs ++ [a]) ++ wbits p x in
  whole l = length (bits_of (bs ++ [a])) /\ tail_of l = wbits p x /\ before_tail l = wbits 64 a.
Proof.
  intros bs a x p Hp l.
  assert (Hw : whole l = length (bits_of (bs ++ [a]))).
  { unfold whole, l. rewrite app_length, !bits_of_length, wbits_length.
    rewrite (Nat.mul_comm 64 (length _)), Nat.div_add_l by lia. rewrite Nat.div_small by lia. lia. }
  split; auto. unfold tail_of, before_tail. rewrite Hw. split.
  - unfold l. rewrite skipn_app, skipn_all, Nat.sub_diag. reflexivity.
  - rewrite bits_of_length, app_length. cbn [length].
    replace (64 * (length bs + 1) - 64)%nat with (length (bits_of bs)) by (rewrite bits_of_length; lia).
    unfold l. rewrite bits_of_app, bits_of_one, <- app_assoc, skipn_app, skipn_all, Nat.sub_diag. cbn [app skipn].
    apply firstn_exact. apply wbits_length.
Qed.

(** Three shapes of a bitvector, as its range sees it. *)
Lemma range_shapes : forall v l, holds_bits v l ->
  let c := flat_map blist (nb_range v) in
  (length l mod 64 = 0 /\ c = l)%nat \/ (length l < 64 /\ c = l)%nat \/
  exists bs a x p, v = BV (bs ++ [a; x]) (64 * N.of_nat (length bs + 1) + N.of_nat p) /\ (0 < p < 64)%nat /\
    a < 2 ^ 64 /\ x < 2 ^ 64 /\ l = bits_of (bs ++ [a]) ++ wbits p x /\
    c = bits_of (bs ++ [a]) ++ wbits p (pick (N.of_nat p) (Some a) x).
Proof.
  intros v l H. cbv zeta. unfold nb_range. rewrite range_seen by (try eapply holds_blocks; eauto; lia).
  destruct H as [|bs b p size Hbs Hb Hp Hs]; [auto|].
  cbn [bv_blocks bv_size]. rewrite (partial_snoc bs p size Hp Hs).
  destruct bs as [|a bs] using rev_ind; [|clear IHbs].
  - cbn [app seen bits_of flat_map]. rewrite wbits_length. unfold pick, joined, in_last.
    destruct (p =? 64)%nat eqn:E.
    + apply Nat.eqb_eq in E. subst p. left. auto.
    + apply Nat.eqb_neq in E. replace (N.of_nat p =? 0) with false by lia. rewrite Nat2N.id. right. left. split; auto; lia.
  - rewrite <- app_assoc. change ([a] ++ [b]) with [a; b]. rewrite seen_snoc2.
    rewrite app_length, bits_of_length, wbits_length, mod_snoc_nat by auto.
    apply Forall_app in Hbs. destruct Hbs as [Hbs Ha]. inversion_clear Ha.
    rewrite app_length in Hs. cbn [length] in Hs.
    destruct (p =? 64)%nat eqn:E.
    + apply Nat.eqb_eq in E. subst p. left. split; auto.
    + apply Nat.eqb_neq in E. right. right. exists bs, a, b, p. unfold in_last.
      replace (N.of_nat p =? 0) with false by lia. rewrite Nat2N.id. repeat split; auto; try lia.
      now rewrite Hs.
Qed.

Lemma mask_bit_eq : forall x a p, p < 64 ->
  (N.land x (mask p) =? N.land a (mask p)) = Bool.eqb (N.testbit x p) (N.testbit a p).
Proof.
  intros x a p Hp.
  assert (G : forall y, N.land y (mask p) = if N.testbit y p then 2 ^ p else 0).
  { intros y. rewrite mask_pow2 by auto. apply N.bits_inj. intros i. rewrite N.land_spec, N.pow2_bits_eqb.
    destruct (p =? i) eqn:E.
    - apply N.eqb_eq in E. subst i. rewrite andb_true_r. destruct (N.testbit y p); [|now rewrite N.bits_0].
      now rewrite N.pow2_bits_true.
    - rewrite andb_false_r. destruct (N.testbit y p); [|now rewrite N.bits_0].
      rewrite N.pow2_bits_eqb, E. reflexivity. }
  rewrite !G. pose proof (N.pow_nonzero 2 p ltac:(lia)).
  destruct (N.testbit x p), (N.testbit a p); cbn [Bool.eqb]; lia.
Qed.

(** ** Bitmaps built by appending and flipping have a tidy last block *)

Definition tidy (v : bitvec) : Prop :=
  forall bs x p, bv_blocks v = bs ++ [x] -> bv_size v = 64 * N.of_nat (length bs) + N.of_nat p ->
  (0 < p < 64)%nat -> forall i, N.of_nat p <= i < 64 -> N.testbit x i = N.testbit x (N.of_nat p - 1).

Lemma last_wbits : forall p x d, (0 < p)%nat -> last (wbits p x) d = N.testbit x (N.of_nat p - 1).
Proof.
  intros p x d Hp. destruct p as [|p]; [lia|]. rewrite wbits_S, last_last. f_equal. lia.
Qed.

Lemma push_tidy : forall v l x v', holds_bits v l -> bv_push v x = Some v' -> tidy v'.
Proof.
  intros v l x v' H E bs y p Hb Hs Hp i Hi.
  destruct H as [|bs0 b0 p0 size Hbs Hb0 Hp0 Hs0].
  - cbn in E. injection E as <-. cbn [bv_blocks bv_size] in *.
    destruct bs; [|destruct bs; discriminate]. cbn [app length] in *. injection Hb as <-.
    destruct x.
    + change (N.testbit all i = N.testbit all (N.of_nat p - 1)). rewrite !testbit_all. lia.
    + change (N.testbit 0 i = N.testbit 0 (N.of_nat p - 1)). now rewrite !N.bits_0.
  - unfold bv_push, partial_bits, width in E. cbn [bv_size bv_blocks] in E.
    rewrite (partial_snoc bs0 p0 size Hp0 Hs0) in E. destruct (p0 =? 64)%nat eqn:E64.
    + cbn [N.eqb] in E. injection E as <-. cbn [bv_blocks bv_size] in *.
      apply app_inj_tail in Hb. destruct Hb as [_ <-].
      destruct x.
      * change (N.testbit all i = N.testbit all (N.of_nat p - 1)). rewrite !testbit_all. lia.
      * change (N.testbit 0 i = N.testbit 0 (N.of_nat p - 1)). now rewrite !N.bits_0.
    + apply Nat.eqb_neq in E64. replace (N.of_nat p0 =? 0) with false in E by lia.
      rewrite (on_back_snoc _ bs0 b0) in E. cbn [option_map] in E.
      match type of E with Some ?a = Some v' => assert (E' : a = v') by congruence end. subst v'. clear E.
      cbn [bv_blocks bv_size] in *. apply app_inj_tail in Hb. destruct Hb as [-> <-].
      change (if x then N.lor b0 (wshl all (N.of_nat p0)) else N.land b0 (wnot (wshl all (N.of_nat p0))))
        with (fill_from x (N.of_nat p0) b0).
      assert (p = p0 + 1)%nat by lia. subst p.
      rewrite !testbit_fill_from by lia.
      replace (i <? N.of_nat p0) with false by lia. now replace (N.of_nat (p0 + 1) - 1 <? N.of_nat p0) with false by lia.
Qed.

Lemma resize_tidy : forall v l value n v', holds_bits v l -> tidy v ->
  bv_resize v (bv_size v + n) value = Some v' -> tidy v'.
Proof.
  intros v l value n v' H T E.
  destruct (N.eq_dec n 0) as [->|Hn].
  { replace v' with v; auto. unfold bv_resize in E. rewrite N.add_0_r, N.leb_refl in E.
    destruct (holds_firstn v l H) as [_ Hl].
    unfold vec_resize in E. rewrite <- Hl, Nat.sub_diag, firstn_all in E. cbn [repeat] in E.
    rewrite app_nil_r in E. destruct v as [bs sz]. cbn [bv_blocks bv_size] in E. congruence. }
  intros bs y p Hb Hs Hp i Hi.
  assert (Hgrow : forall bs0 m, 64 * N.of_nat (length bs0) < m ->
    vec_resize bs0 (bits_to_blocks m) (if value then all else none) = bs ++ [y] ->
    y = if value then all else none).
  { intros bs0 m Hm E0. destruct (size_split m ltac:(lia)) as (k & q & Hq & Em).
    rewrite Em, btb_spec in E0 by auto. unfold vec_resize in E0. rewrite firstn_all2 in E0 by lia.
    replace (N.to_nat (N.of_nat k + 1) - length bs0)%nat with ((k - length bs0) + 1)%nat in E0 by lia.
    rewrite repeat_app in E0. cbn [repeat] in E0. rewrite app_assoc in E0. apply app_inj_tail in E0. now destruct E0. }
  assert (Hdone : y = (if value then all else none) -> N.testbit y i = N.testbit y (N.of_nat p - 1)).
  { intros ->. destruct value; [rewrite !testbit_all; lia|]. change none with 0. now rewrite !N.bits_0. }
  unfold bv_resize in E. replace (bv_size v + n <=? bv_size v) with false in E by lia.
  destruct H as [|bs0 b0 p0 size Hbs Hb0 Hp0 Hs0].
  - cbn [bv_size bv_blocks] in *. change (0 <? partial_bits {| bv_blocks := []; bv_size := 0 |}) with false in E.
    cbv iota zeta in E. match type of E with Some ?a = Some v' => assert (E' : a = v') by congruence end.
    subst v'. cbn [bv_blocks] in Hb. apply Hdone. apply Hgrow in Hb; auto. cbn. lia.
  - unfold partial_bits, width in E. cbn [bv_size bv_blocks] in *.
    rewrite (partial_snoc bs0 p0 size Hp0 Hs0) in E. destruct (p0 =? 64)%nat eqn:E64.
    + apply Nat.eqb_eq in E64. subst p0. change (0 <? 0) with false in E. cbv iota zeta in E.
      match type of E with Some ?a = Some v' => assert (E' : a = v') by congruence end.
      subst v'. cbn [bv_blocks] in Hb. apply Hdone. apply Hgrow in Hb; auto. rewrite app_length. cbn [length]. lia.
    + apply Nat.eqb_neq in E64. replace (0 <? N.of_nat p0) with true in E by lia.
      rewrite (on_back_snoc _ bs0 b0) in E.
      change (if value then N.lor b0 (wshl all (N.of_nat p0)) else N.land b0 (wnot (wshl all (N.of_nat p0))))
        with (fill_from value (N.of_nat p0) b0) in E.
      destruct (size + n - size <=? 64 - N.of_nat p0) eqn:Ef.
      * match type of E with Some ?a = Some v' => assert (E' : a = v') by congruence end.
        subst v'. cbn [bv_blocks bv_size] in *. apply app_inj_tail in Hb. destruct Hb as [-> <-].
        assert (Hpn : N.of_nat p = N.of_nat p0 + n) by lia.
        rewrite !testbit_fill_from by lia.
        replace (i <? N.of_nat p0) with false by lia.
        now replace (N.of_nat p - 1 <? N.of_nat p0) with false by lia.
      * cbv zeta in E. match type of E with Some ?a = Some v' => assert (E' : a = v') by congruence end.
        subst v'. cbn [bv_blocks bv_size] in *. apply Hdone. apply Hgrow in Hb; auto. rewrite app_length. cbn [length]. lia.
Qed.

Lemma flip_tidy : forall v, tidy v -> tidy (bv_flip v).
Proof.
  intros v T bs y p Hb Hs Hp i Hi. unfold bv_flip in *. cbn [bv_blocks bv_size] in *.
  destruct (bv_blocks v) as [|c bs0] eqn:E using rev_ind; [destruct bs; discriminate|]. clear IHbs0.
  rewrite map_app in Hb. cbn [map] in Hb. apply app_inj_tail in Hb. destruct Hb as [Hb <-].
  rewrite !testbit_wnot. rewrite (T bs0 c p); auto.
  - replace (i <? 64) with true by lia. now replace (N.of_nat p - 1 <? 64) with true by lia.
  - rewrite Hs, <- Hb, map_length. reflexivity.
Qed.

(** What the range of a tidy bitmap yields. *)
Definition misread (l : list bool) : bool :=
  (0 <? whole l)%nat && negb (length (tail_of l) =? 0)%nat
  && uniform (last l false) (before_tail l) && negb (uniform (last l false) (tail_of l)).

Lemma last_app' : forall {A} (a b : list A) d, b <> [] -> last (a ++ b) d = last b d.
Proof.
  intros A a b d Hb. destruct b as [|x b] using rev_ind; [congruence|]. now rewrite app_assoc, !last_last.
Qed.

Lemma tidy_range : forall v l, holds_bits v l -> tidy v ->
  flat_map blist (nb_range v)
  = if misread l then firstn (whole l) l ++ repeat (last l false) (length (tail_of l)) else l.
Proof.
  intros v l H T. destruct (range_shapes v l H) as [[Hl E] | [ [Hl E] | Hx ] ].
  - rewrite E. unfold misread, tail_of. rewrite skipn_length.
    assert (whole l = length l) by (unfold whole; pose proof (Nat.div_mod (length l) 64 ltac:(lia)); lia).
    replace (length l - whole l =? 0)%nat with true by (symmetry; apply Nat.eqb_eq; lia).
    cbn [negb]. now rewrite andb_false_r.
  - rewrite E. unfold misread. replace (whole l) with O by (unfold whole; rewrite Nat.div_small; lia). reflexivity.
  - destruct Hx as (bs & a & x & p & Ev & Hp & Ha & Hx & El & E). rewrite E.
    destruct (whole_parts bs a x p Hp) as (Hw & Ht & Hb). rewrite <- El in Hw, Ht, Hb.
    unfold misread. rewrite Ht, Hb, Hw, wbits_length, bits_of_length, app_length. cbn [length].
    replace (0 <? 64 * (length bs + 1))%nat with true by (symmetry; apply Nat.ltb_lt; lia).
    replace (p =? 0)%nat with false by (symmetry; apply Nat.eqb_neq; lia). cbn [negb andb].
    assert (Hne : wbits p x <> []) by (intro G; apply (f_equal (@length bool)) in G; rewrite wbits_length in G; cbn in G; lia).
    assert (Hlast : last l false = N.testbit x (N.of_nat p)).
    { rewrite El, last_app' by auto. rewrite last_wbits by lia. symmetry.
      eapply (T (bs ++ [a]) x p); [rewrite Ev; cbn [bv_blocks]; now rewrite <- app_assoc | | lia | lia].
      rewrite Ev. cbn [bv_size]. rewrite app_length. cbn [length]. lia. }
    unfold pick, joined. replace (0 <? N.of_nat p) with true by lia. cbn [andb].
    rewrite mask_bit_eq by lia. rewrite <- Hlast.
    assert (Hpre : firstn (64 * (length bs + 1)) l = bits_of (bs ++ [a])).
    { rewrite El. apply firstn_exact. rewrite bits_of_length, app_length. cbn [length]. lia. }
    rewrite Hpre.
    destruct (all_or_none a) eqn:Ea.
    + apply all_or_none_spec in Ea; auto.
      assert (Hbit : N.testbit a (N.of_nat p) = negb (a =? 0)).
      { destruct Ea as [-> | ->]; [now rewrite N.bits_0|]. rewrite testbit_all. replace (N.of_nat p <? 64) with true by lia. reflexivity. }
      rewrite Hbit. cbn [andb].
      destruct (Bool.eqb (last l false) (negb (a =? 0))) eqn:Eq.
      * apply eqb_prop in Eq.
        replace (uniform (last l false) (wbits 64 a)) with true.
        2:{ symmetry. apply uniform_wbits; auto. rewrite Eq. destruct Ea as [-> | ->]; reflexivity. }
        cbn [andb]. destruct (uniform (last l false) (wbits p x)) eqn:Eu; cbn [negb].
        -- apply uniform_repeat in Eu. rewrite wbits_length in Eu. rewrite wbits_run by (auto; lia).
           rewrite <- Eq, <- Eu. auto.
        -- rewrite wbits_run by (auto; lia). now rewrite Eq.
      * replace (uniform (last l false) (wbits 64 a)) with false; [cbn [andb]; auto|].
        symmetry. apply not_true_iff_false. intro Hu. apply uniform_wbits in Hu; auto.
        rewrite Hu in Eq. destruct (last l false); discriminate.
    + cbn [andb]. replace (uniform (last l false) (wbits 64 a)) with false; [cbn [andb]; auto|].
      symmetry. apply not_true_iff_false. intro Hu. apply uniform_wbits in Hu; auto.
      assert (all_or_none a = true); [|congruence]. apply all_or_none_spec; auto. destruct (last l false); auto.
Qed.

(** For every bitmap: the range is right unless the block before the tail is
    uniform and the tail is not the same bit throughout. *)
Lemma any_range : forall v l, holds_bits v l ->
  (length l mod 64 = 0)%nat \/ (length l < 64)%nat \/
  (forall b, uniform b (before_tail l) = false) \/ (exists b, uniform b (before_tail l) && uniform b (tail_of l) = true) ->
  flat_map blist (nb_range v) = l.
Proof.
  intros v l H Hc. destruct (range_shapes v l H) as [[Hl E] | [ [Hl E] | Hx ] ]; auto.
  destruct Hx as (bs & a & x & p & Ev & Hp & Ha & Hx & El & E). rewrite E.
  destruct (whole_parts bs a x p Hp) as (Hw & Ht & Hb). rewrite <- El in Hw, Ht, Hb.
  rewrite Ht, Hb in Hc.
  assert (Hlen : length l = (64 * (length bs + 1) + p)%nat).
  { rewrite El, app_length, bits_of_length, wbits_length, app_length. cbn [length]. lia. }
  destruct Hc as [Hc | [Hc | [Hc | [b Hc] ] ] ].
  - rewrite Hlen, mod_snoc_nat in Hc by lia. destruct (p =? 64)%nat eqn:E64; [apply Nat.eqb_eq in E64|]; lia.
  - lia.
  - unfold pick, joined. replace (all_or_none a) with false; [now rewrite andb_false_r|].
    symmetry. apply not_true_iff_false. intro Hu. apply all_or_none_spec in Hu; auto.
    destruct Hu as [-> | ->].
    + specialize (Hc false). apply not_true_iff_false in Hc. apply Hc. apply uniform_wbits; auto.
    + specialize (Hc true). apply not_true_iff_false in Hc. apply Hc. apply uniform_wbits; auto.
  - apply andb_true_iff in Hc. destruct Hc as [H1 H2]. rewrite El. f_equal.
    unfold pick. destruct (joined (N.of_nat p) (Some a) x); auto.
    apply uniform_wbits in H1; auto. apply uniform_repeat in H2. rewrite wbits_length in H2. rewrite H2.
    subst a. destruct b; rewrite wbits_run by (auto; lia); reflexivity.
Qed.
