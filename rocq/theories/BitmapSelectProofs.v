(** Proofs about rank, select, bitwise iteration, frame, any and all. *)
From Coq Require Import List ZArith NArith Lia Bool Sorted ZifyBool ZifyNat ZifyN.
From Verif Require Import NBits WordModel WordProofs EwahModel EwahProofs BitmapAlgoModel BitmapAlgoProofs.
Import ListNotations.
Open Scope N_scope.

(** * Positions of a bit value *)

Fixpoint pos_from (bit : bool) (n : N) (l : list bool) : list N :=
  match l with
  | [] => []
  | x :: l' => if Bool.eqb x bit then n :: pos_from bit (n + 1) l' else pos_from bit (n + 1) l'
  end.

Lemma pos_from_app : forall bit a n b,
  pos_from bit n (a ++ b) = pos_from bit n a ++ pos_from bit (n + N.of_nat (length a)) b.
Proof.
  induction a as [|x a IH]; intros n b; cbn [app pos_from length].
  - now rewrite N.add_0_r.
  - rewrite IH. replace (n + N.of_nat (S (length a))) with (n + 1 + N.of_nat (length a)) by lia.
    destruct (Bool.eqb x bit); reflexivity.
Qed.

Lemma pos_from_shift : forall bit l n m, pos_from bit (m + n) l = map (N.add m) (pos_from bit n l).
Proof.
  induction l as [|x l IH]; intros n m; cbn [pos_from map]; auto.
  replace (m + n + 1) with (m + (n + 1)) by lia. rewrite IH.
  destruct (Bool.eqb x bit); reflexivity.
Qed.

Lemma pos_from_0 : forall bit l n, pos_from bit n l = map (N.add n) (pos_from bit 0 l).
Proof. intros. rewrite <- pos_from_shift. f_equal. lia. Qed.

Lemma in_pos_from : forall bit l n p, In p (pos_from bit n l) <->
  n <= p < n + N.of_nat (length l) /\ nth (N.to_nat (p - n)) l false = bit.
Proof.
  induction l as [|x l IH]; intros n p; cbn [pos_from length].
  - cbn. split; [tauto|lia].
  - assert (H : forall q, In q (pos_from bit (n + 1) l) <->
      n < q < n + N.of_nat (S (length l)) /\ nth (N.to_nat (q - n)) (x :: l) false = bit).
    { intros q. rewrite IH. split; intros [H1 H2]; (split; [lia|]).
      - replace (N.to_nat (q - n)) with (S (N.to_nat (q - (n + 1)))) by lia. exact H2.
      - replace (N.to_nat (q - n)) with (S (N.to_nat (q - (n + 1)))) in H2 by lia. exact H2. }
    destruct (Bool.eqb x bit) eqn:E.
    + cbn [In]. rewrite H. split.
      * intros [->|[H1 H2]]; [|split; auto; lia]. split; [lia|].
        rewrite N.sub_diag. cbn. now apply eqb_prop.
      * intros [H1 H2]. destruct (N.eq_dec n p); auto. right. split; auto. lia.
    + rewrite H. split; intros [H1 H2]; (split; [|auto]); [lia|].
      destruct (N.eq_dec n p) as [->|]; [|lia]. rewrite N.sub_diag in H2. cbn in H2.
      subst. rewrite eqb_reflx in E. discriminate.
Qed.

Lemma pos_from_sorted : forall bit l n, StronglySorted N.lt (pos_from bit n l).
Proof.
  induction l as [|x l IH]; intros n; cbn [pos_from].
  - constructor.
  - destruct (Bool.eqb x bit); auto. constructor; auto.
    apply Forall_forall. intros p Hp. apply in_pos_from in Hp. lia.
Qed.

Lemma pos_from_negb : forall l n, pos_from true n (map negb l) = pos_from false n l.
Proof. induction l as [|[] l IH]; intros n; cbn; auto. now rewrite IH. Qed.

Lemma pos_from_repeat : forall bit k n, pos_from bit n (repeat bit k) = map (fun i => n + N.of_nat i) (seq 0 k).
Proof.
  induction k as [|k IH]; intros n; cbn [repeat pos_from seq map]; auto.
  rewrite eqb_reflx, IH. f_equal; [lia|]. rewrite <- seq_shift, map_map.
  apply map_ext. intros. lia.
Qed.

Lemma pos_from_repeat_neg : forall bit k n, pos_from bit n (repeat (negb bit) k) = [].
Proof. induction k as [|k IH]; intros n; cbn [repeat pos_from]; auto. destruct bit; cbn; auto. Qed.

(** * First, last and next elements of a sorted list *)

Definition last_error {A} (l : list A) : option A := hd_error (rev l).

Lemma last_error_app : forall {A} (a b : list A), last_error (a ++ b) = match last_error b with Some x => Some x | None => last_error a end.
Proof.
  intros A a b. unfold last_error. rewrite rev_app_distr. destruct (rev b); reflexivity.
Qed.

Lemma last_error_map : forall {A B} (f : A -> B) l, last_error (map f l) = option_map f (last_error l).
Proof. intros. unfold last_error. rewrite <- map_rev. now destruct (rev l). Qed.

Lemma hd_error_map : forall {A B} (f : A -> B) l, hd_error (map f l) = option_map f (hd_error l).
Proof. intros A B f []; reflexivity. Qed.

Lemma first_char : forall (c : N -> bool) l r, StronglySorted N.lt l ->
  match r with
  | Some p => In p l /\ c p = true /\ forall q, In q l -> c q = true -> p <= q
  | None => forall q, In q l -> c q = false
  end -> hd_error (filter c l) = r.
Proof.
  induction l as [|x l IH]; intros r S H.
  - destruct r as [p|]; [destruct H as [[] _]|reflexivity].
  - inversion S as [|? ? S1 S2]; subst. cbn [filter]. destruct (c x) eqn:C.
    + destruct r as [p|].
      * destruct H as (H1 & H2 & H3). cbn. f_equal.
        specialize (H3 x (or_introl eq_refl) C). destruct H1 as [->|H1]; auto.
        rewrite Forall_forall in S2. specialize (S2 p H1). lia.
      * rewrite (H x (or_introl eq_refl)) in C. discriminate.
    + apply IH; auto. destruct r as [p|].
      * destruct H as (H1 & H2 & H3). destruct H1 as [->|H1]; [congruence|].
        split; auto. split; auto. intros. apply H3; auto. now right.
      * intros. apply H. now right.
Qed.

Lemma filter_true_id : forall {A} (l : list A), filter (fun _ => true) l = l.
Proof. induction l; cbn; f_equal; auto. Qed.

Lemma hd_char : forall l r, StronglySorted N.lt l ->
  match r with
  | Some p => In p l /\ forall q, In q l -> p <= q
  | None => l = []
  end -> hd_error l = r.
Proof.
  intros l r S H. rewrite <- (filter_true_id l). apply first_char; auto.
  destruct r as [p|]; [destruct H; auto|subst; cbn; tauto].
Qed.

Lemma last_char : forall l r, StronglySorted N.lt l ->
  match r with
  | Some p => In p l /\ forall q, In q l -> q <= p
  | None => l = []
  end -> last_error l = r.
Proof.
  intros l r S H. destruct r as [p|]; [|subst; reflexivity].
  destruct H as [H1 H2]. induction l as [|x l IH]; [destruct H1|].
  inversion S as [|? ? S1 S2]; subst. change (x :: l) with ([x] ++ l). rewrite last_error_app.
  destruct l as [|y l]; [destruct H1 as [->|[]]; reflexivity|].
  destruct H1 as [->|H1].
  - rewrite Forall_forall in S2. specialize (S2 y (or_introl eq_refl)).
    specialize (H2 y (or_intror (or_introl eq_refl))). lia.
  - rewrite IH; auto. intros. apply H2. now right.
Qed.

(** * Words *)

Lemma in_pos_wbits : forall n x p, In p (pos_from true 0 (wbits n x)) <-> p < N.of_nat n /\ N.testbit x p = true.
Proof.
  intros n x p. rewrite in_pos_from, wbits_length, N.sub_0_r, N.add_0_l.
  split; intros [H1 H2].
  - rewrite nth_wbits in H2 by lia. rewrite N2Nat.id in H2. split; auto. lia.
  - rewrite nth_wbits by lia. rewrite N2Nat.id. split; auto. lia.
Qed.

Lemma count_true_pos : forall l n, length (pos_from true n l) = count_true l.
Proof.
  induction l as [|[] l IH]; intros n; cbn; auto.
Qed.

Lemma popcount_pos : forall n x, x < 2 ^ N.of_nat n ->
  popcount x = N.of_nat (length (pos_from true 0 (wbits n x))).
Proof. intros. rewrite count_true_pos. now apply popcount_wbits. Qed.

Lemma ctz_first : forall n x, x <> 0 -> x < 2 ^ N.of_nat n ->
  hd_error (pos_from true 0 (wbits n x)) = Some (count_trailing_zeros x).
Proof.
  intros n x Hx Hl. apply hd_char; [apply pos_from_sorted|].
  destruct (ctz_spec x Hx) as [C1 C2]. split.
  - apply in_pos_wbits. split; auto.
    destruct (N.lt_ge_cases (count_trailing_zeros x) (N.of_nat n)); auto.
    rewrite (testbit_small x (N.of_nat n)) in C1 by lia. discriminate.
  - intros q Hq. apply in_pos_wbits in Hq as [_ Hq].
    destruct (N.le_gt_cases (count_trailing_zeros x) q); auto.
    rewrite C2 in Hq by auto. discriminate.
Qed.

Lemma wselect_go_spec : forall fuel x i cum j, cum < i -> (j + N.of_nat fuel <= 64) ->
  wselect_go fuel true x i cum j =
  nth_error (pos_from true j (wbits fuel (N.shiftr x j))) (N.to_nat (i - cum - 1)).
Proof.
  induction fuel as [|f IH]; intros x i cum j Hc Hj.
  - cbn. now destruct (N.to_nat (i - cum - 1)).
  - cbn [wselect_go]. rewrite test_testbit by lia. rewrite wbits_cons. cbn [pos_from].
    rewrite N.shiftr_spec', N.add_0_l, N.shiftr_shiftr.
    destruct (N.testbit x j); cbn [Bool.eqb].
    + destruct (N.eqb_spec (cum + 1) i).
      * replace (N.to_nat (i - cum - 1)) with 0%nat by lia. reflexivity.
      * rewrite IH by lia. replace (N.to_nat (i - cum - 1)) with (S (N.to_nat (i - (cum + 1) - 1))) by lia.
        reflexivity.
    + rewrite IH by lia. reflexivity.
Qed.

Lemma wselect_spec : forall x i, 0 < i ->
  wselect true x i = nth_error (pos_from true 0 (wbits 64 x)) (N.to_nat (i - 1)).
Proof.
  intros. unfold wselect. rewrite wselect_go_spec by (cbn; lia). rewrite N.shiftr_0_r.
  f_equal. lia.
Qed.

(** * Bit sequences *)

(** The word that has a 1 exactly where [b] has [bit]. *)
Definition sel_word (bit : bool) (b : bits) : N :=
  if bit then bdata b else N.land (wnot (bdata b)) (lsb_fill (bsize b)).

Lemma sel_word_spec : forall bit b, good b -> bsize b <= 64 ->
  sel_word bit b < 2 ^ bsize b /\
  pos_from true 0 (wbits (N.to_nat (bsize b)) (sel_word bit b)) = pos_from bit 0 (blist b).
Proof.
  intros bit b [W P] L.
  assert (B : blist b = wbits (N.to_nat (bsize b)) (bdata b)).
  { unfold blist, width. assert (64 <? bsize b = false) as -> by lia. reflexivity. }
  assert (D : bdata b < 2 ^ bsize b).
  { unfold bwf in W. destruct (N.ltb_spec 64 (bsize b)); [lia|auto]. }
  unfold sel_word. destruct bit.
  - split; auto. now rewrite B.
  - rewrite lsb_fill_ones by lia. split.
    + rewrite N.land_comm. apply land_lt, ones_lt.
    + rewrite wbits_land_ones by lia. unfold wnot, all. rewrite wbits_lxor_ones by lia.
      now rewrite pos_from_negb, B.
Qed.

Lemma run_pos : forall bit b, bwf b -> 64 < bsize b ->
  pos_from bit 0 (blist b) =
  if bdata b =? (if bit then all else none) then map N.of_nat (seq 0 (N.to_nat (bsize b))) else [].
Proof.
  intros bit b W L. unfold bwf in W. destruct (N.ltb_spec 64 (bsize b)); [|lia].
  unfold blist, width. assert (64 <? bsize b = true) as -> by lia.
  assert (E : (bdata b =? (if bit then all else none)) = Bool.eqb (negb (bdata b =? 0)) bit).
  { destruct W as [-> | ->]; destruct bit; reflexivity. }
  rewrite E. destruct (Bool.eqb (negb (bdata b =? 0)) bit) eqn:Q.
  - apply eqb_prop in Q. rewrite Q, pos_from_repeat. apply map_ext. intros. lia.
  - assert (negb (bdata b =? 0) = negb bit) as ->.
    { destruct (negb (bdata b =? 0)), bit; auto; discriminate. }
    apply pos_from_repeat_neg.
Qed.

Lemma of_nat_seq_sorted : forall k n, StronglySorted N.lt (map N.of_nat (seq n k)).
Proof.
  induction k as [|k IH]; intros n; cbn; constructor; auto.
  apply Forall_forall. intros x Hx. apply in_map_iff in Hx as (y & <- & Hy). apply in_seq in Hy. lia.
Qed.

Lemma brank_spec : forall bit b, good b ->
  brank bit b = N.of_nat (length (pos_from bit 0 (blist b))).
Proof.
  intros bit b G. unfold brank, width. destruct (N.ltb_spec 64 (bsize b)).
  - rewrite run_pos by (auto; apply G). destruct (bdata b =? _); [|reflexivity].
    rewrite map_length, seq_length. lia.
  - destruct (sel_word_spec bit b G) as [S1 S2]; [auto|].
    change (if bit then bdata b else N.land (wnot (bdata b)) (lsb_fill (bsize b))) with (sel_word bit b).
    rewrite <- S2. apply popcount_pos. now rewrite N2Nat.id.
Qed.

Lemma brank_count : forall (bit : bool) b, good b ->
  (if bit then brank true b else bsize b - brank true b) = N.of_nat (length (pos_from bit 0 (blist b))).
Proof.
  intros bit b G. destruct bit; [now apply brank_spec|].
  rewrite brank_spec by auto. pose proof (count_true_negb (blist b)) as C.
  rewrite blist_length in C. rewrite <- pos_from_negb, !count_true_pos. lia.
Qed.

Lemma firstn_pos : forall bit l k n, pos_from bit n (firstn k l) = filter (fun q => q <? n + N.of_nat k) (pos_from bit n l).
Proof.
  intros bit l k n. rewrite <- (firstn_skipn k l) at 2. rewrite pos_from_app, filter_app.
  assert (F2 : filter (fun q => q <? n + N.of_nat k) (pos_from bit (n + N.of_nat (length (firstn k l))) (skipn k l)) = []).
  { destruct (Nat.le_gt_cases (length l) k).
    - rewrite skipn_all2 by lia. reflexivity.
    - rewrite firstn_length, Nat.min_l by lia.
      generalize (skipn k l). intro m.
      assert (A : forall q, In q (pos_from bit (n + N.of_nat k) m) -> (q <? n + N.of_nat k) = false).
      { intros q Hq. apply in_pos_from in Hq. lia. }
      revert A. generalize (pos_from bit (n + N.of_nat k) m). induction l0 as [|y ys IH]; intros A; auto.
      cbn [filter]. rewrite A by now left. apply IH. intros. apply A. now right. }
  rewrite F2, app_nil_r.
  assert (A : forall q, In q (pos_from bit n (firstn k l)) -> (q <? n + N.of_nat k) = true).
  { intros q Hq. apply in_pos_from in Hq. rewrite firstn_length in Hq. lia. }
  revert A. generalize (pos_from bit n (firstn k l)). induction l0 as [|y ys IH]; intros A; auto.
  cbn [filter]. rewrite A by now left. f_equal. apply IH. intros. apply A. now right.
Qed.

Lemma brank_at_spec : forall bit b i, good b -> i < bsize b ->
  brank_at bit b i = N.of_nat (length (pos_from bit 0 (firstn (N.to_nat (i + 1)) (blist b)))).
Proof.
  intros bit b i [W P] Hi. unfold brank_at, width.
  set (data := if bit then bdata b else wnot (bdata b)).
  assert (D64 : data < 2 ^ 64).
  { subst data. pose proof (bwf_lt b W). destruct bit; auto. now apply wnot_lt. }
  destruct (N.ltb_spec 64 (bsize b)).
  - unfold bwf in W. destruct (N.ltb_spec 64 (bsize b)); [|lia].
    unfold blist, width. assert (64 <? bsize b = true) as -> by lia.
    rewrite firstn_repeat, Nat.min_l by lia.
    assert (E : (data =? none) = negb (Bool.eqb (negb (bdata b =? 0)) bit)).
    { subst data. destruct W as [-> | ->]; destruct bit; reflexivity. }
    rewrite E. destruct (Bool.eqb (negb (bdata b =? 0)) bit) eqn:Q; cbn [negb].
    + apply eqb_prop in Q. rewrite Q, pos_from_repeat, map_length, seq_length. lia.
    + assert (negb (bdata b =? 0) = negb bit) as ->.
      { destruct (negb (bdata b =? 0)), bit; auto; discriminate. }
      rewrite pos_from_repeat_neg. reflexivity.
  - assert (B : firstn (N.to_nat (i + 1)) (blist b) = wbits (N.to_nat (i + 1)) (bdata b)).
    { apply firstn_blist; auto; lia. }
    assert (Q : pos_from bit 0 (wbits (N.to_nat (i + 1)) (bdata b)) = pos_from true 0 (wbits (N.to_nat (i + 1)) data)).
    { subst data. destruct bit; auto. rewrite <- pos_from_negb. f_equal. symmetry.
      unfold wnot, all. apply wbits_lxor_ones. lia. }
    rewrite B, Q. change (64 - 1) with 63.
    assert (R : popcount (N.land data (N.ones (i + 1))) = N.of_nat (length (pos_from true 0 (wbits (N.to_nat (i + 1)) data)))).
    { rewrite (popcount_pos (N.to_nat (i + 1))).
      - rewrite wbits_land_ones by lia. reflexivity.
      - rewrite N2Nat.id, N.land_comm. apply land_lt, ones_lt. }
    destruct (N.eqb_spec i 63) as [->|].
    + rewrite <- R. f_equal. rewrite N.land_ones, N.mod_small; auto.
    + unfold wrank_at. rewrite lsb_fill_ones by lia. exact R.
Qed.

Lemma pos_app_le : forall bit a b n k, (k < length (pos_from bit n a))%nat ->
  nth_error (pos_from bit n (a ++ b)) k = nth_error (pos_from bit n a) k.
Proof. intros. rewrite pos_from_app. now apply nth_error_app1. Qed.

Lemma nth_error_seq_N : forall k n, (k < n)%nat -> nth_error (map N.of_nat (seq 0 n)) k = Some (N.of_nat k).
Proof.
  intros k n H. rewrite nth_error_map. rewrite (nth_error_nth' _ 0%nat) by now rewrite seq_length.
  rewrite seq_nth by auto. reflexivity.
Qed.

Lemma bselect_spec : forall bit b k, good b -> 0 < k <= bsize b ->
  (bit = true \/ k <= N.of_nat (length (pos_from bit 0 (blist b)))) ->
  bselect bit b k = nth_error (pos_from bit 0 (blist b)) (N.to_nat (k - 1)).
Proof.
  intros bit b k [W P] Hk Hc. unfold bselect, width.
  destruct (N.ltb_spec 64 (bsize b)).
  - rewrite run_pos by auto.
    assert (E : ((if bit then bdata b else wnot (bdata b)) =? all) = (bdata b =? (if bit then all else none))).
    { unfold bwf in W. destruct (N.ltb_spec 64 (bsize b)); [|lia]. destruct W as [-> | ->]; destruct bit; reflexivity. }
    rewrite E. destruct (bdata b =? _).
    + rewrite nth_error_seq_N by lia. f_equal. lia.
    + now destruct (N.to_nat (k - 1)).
  - rewrite wselect_spec by lia.
    assert (B : blist b = wbits (N.to_nat (bsize b)) (bdata b)).
    { unfold blist, width. assert (64 <? bsize b = false) as -> by lia. reflexivity. }
    assert (SP : forall x, wbits 64 x = wbits (N.to_nat (bsize b)) x ++ wbits (64 - N.to_nat (bsize b)) (N.shiftr x (N.of_nat (N.to_nat (bsize b))))).
    { intros x. rewrite <- wbits_app. f_equal. lia. }
    assert (D : bdata b < 2 ^ bsize b).
    { unfold bwf in W. destruct (N.ltb_spec 64 (bsize b)); [lia|auto]. }
    destruct bit.
    + rewrite B. f_equal. rewrite SP, pos_from_app.
      assert (N.shiftr (bdata b) (N.of_nat (N.to_nat (bsize b))) = 0) as ->.
      { rewrite N2Nat.id, N.shiftr_div_pow2. now apply N.div_small. }
      rewrite wbits_0. rewrite (pos_from_repeat_neg true). now rewrite app_nil_r.
    + destruct Hc as [|Hc]; [discriminate|]. rewrite SP.
      assert (Q : pos_from true 0 (wbits (N.to_nat (bsize b)) (wnot (bdata b))) = pos_from false 0 (blist b)).
      { rewrite B, <- pos_from_negb. f_equal. unfold wnot, all. apply wbits_lxor_ones. lia. }
      rewrite pos_app_le; rewrite Q; auto. lia.
Qed.

Lemma find_first_spec : forall bit b, good b ->
  find_first bit b = hd_error (pos_from bit 0 (blist b)).
Proof.
  intros bit b G. unfold find_first, width. pose proof G as [W P].
  destruct (N.ltb_spec 64 (bsize b)).
  - rewrite run_pos by auto.
    assert (HS : hd_error (map N.of_nat (seq 0 (N.to_nat (bsize b)))) = Some 0).
    { destruct (N.to_nat (bsize b)) eqn:E; [lia|reflexivity]. }
    destruct bit; destruct (bdata b =? _); auto.
  - destruct (sel_word_spec bit b G) as [S1 S2]; [auto|]. rewrite <- S2.
    assert (SL : sel_word bit b < 2 ^ 64).
    { eapply N.lt_le_trans; [exact S1|]. apply N.pow_le_mono_r; lia. }
    assert (WF : (if bit then wfind_first true (bdata b)
                  else wfind_first false (N.lor (bdata b) (msb_mask (64 - bsize b)))) =
                 (if count_trailing_zeros (sel_word bit b) =? 64 then None else Some (count_trailing_zeros (sel_word bit b)))).
    { unfold wfind_first, width. destruct bit; [reflexivity|].
      assert (wnot (N.lor (bdata b) (msb_mask (64 - bsize b))) = sel_word false b) as ->; [|reflexivity].
      assert (D : bdata b < 2 ^ 64) by now apply bwf_lt.
      assert (M : forall i, N.testbit (msb_mask (64 - bsize b)) i = (bsize b <=? i) && (i <? 64)).
      { intros i. unfold msb_mask. rewrite testbit_wnot, testbit_wshr, testbit_all.
        destruct (N.ltb_spec (i + (64 - bsize b)) 64), (N.ltb_spec i 64), (N.leb_spec (bsize b) i); cbn; auto; lia. }
      apply eq_of_testbit with (k := 64).
      - apply wnot_lt, lor_lt; auto. apply testbit_lt_pow2. intros i Hi. rewrite M. lia.
      - exact SL.
      - intros i Hi. unfold sel_word. rewrite lsb_fill_ones by lia.
        rewrite testbit_wnot, N.lor_spec, M, N.land_spec, testbit_wnot, testbit_ones.
        assert (i <? 64 = true) as -> by lia.
        destruct (N.testbit (bdata b) i), (N.leb_spec (bsize b) i), (N.ltb_spec i (bsize b)); cbn; auto; lia. }
    destruct bit; rewrite WF; clear WF.
    + destruct (N.eqb_spec (count_trailing_zeros (sel_word true b)) 64) as [E|E].
      * apply ctz_64 in E; auto. rewrite E, wbits_0. now rewrite (pos_from_repeat_neg true).
      * assert (NZ : sel_word true b <> 0) by (intro Z; apply E; now apply ctz_64).
        symmetry. apply ctz_first; auto. now rewrite N2Nat.id.
    + destruct (N.eqb_spec (count_trailing_zeros (sel_word false b)) 64) as [E|E].
      * apply ctz_64 in E; auto. rewrite E, wbits_0. now rewrite (pos_from_repeat_neg true).
      * assert (NZ : sel_word false b <> 0) by (intro Z; apply E; now apply ctz_64).
        symmetry. apply ctz_first; auto. now rewrite N2Nat.id.
Qed.

Lemma find_last_spec : forall bit b, good b ->
  find_last bit b = last_error (pos_from bit 0 (blist b)).
Proof.
  intros bit b G. unfold find_last, width. pose proof G as [W P].
  destruct (N.ltb_spec 64 (bsize b)).
  - rewrite run_pos by auto. destruct (bdata b =? _); [|reflexivity].
    symmetry. apply last_char; [apply of_nat_seq_sorted|]. split.
    + apply in_map_iff. exists (N.to_nat (bsize b - 1)). split; [lia|]. apply in_seq. lia.
    + intros q Hq. apply in_map_iff in Hq as (y & <- & Hy). apply in_seq in Hy. lia.
  - destruct (sel_word_spec bit b G) as [S1 S2]; [auto|]. rewrite <- S2.
    change (if bit then bdata b else N.land (wnot (bdata b)) (lsb_fill (bsize b))) with (sel_word bit b).
    assert (SL : sel_word bit b < 2 ^ 64).
    { eapply N.lt_le_trans; [exact S1|]. apply N.pow_le_mono_r; lia. }
    symmetry. apply last_char; [apply pos_from_sorted|]. unfold wfind_last, width.
    destruct (N.eq_dec (sel_word bit b) 0) as [Z|Z].
    + rewrite Z. cbn. rewrite wbits_0. apply (pos_from_repeat_neg true).
    + destruct (clz_spec _ Z SL) as (C0 & C1 & C2).
      assert (count_leading_zeros (sel_word bit b) =? 64 = false) as -> by lia.
      split.
      * apply in_pos_wbits. split; auto.
        rewrite N2Nat.id. destruct (N.lt_ge_cases (64 - count_leading_zeros (sel_word bit b) - 1) (bsize b)); auto.
        rewrite (testbit_small _ (bsize b)) in C1 by (auto; lia). discriminate.
      * intros q Hq. apply in_pos_wbits in Hq as [_ Hq].
        destruct (N.le_gt_cases q (64 - count_leading_zeros (sel_word bit b) - 1)); auto.
        rewrite C2 in Hq by lia. discriminate.
Qed.

Lemma find_next_spec : forall bit b i, good b -> i < bsize b ->
  find_next bit b i = hd_error (filter (fun q => i <? q) (pos_from bit 0 (blist b))).
Proof.
  intros bit b i G Hi. unfold find_next, width. pose proof G as [W P]. symmetry.
  destruct (N.leb_spec (bsize b - 1) i).
  - apply first_char; [apply pos_from_sorted|]. intros q Hq. apply in_pos_from in Hq.
    rewrite blist_length in Hq. lia.
  - destruct (N.ltb_spec 64 (bsize b)).
    + rewrite run_pos by auto. destruct (bdata b =? _); [|reflexivity].
      apply first_char; [apply of_nat_seq_sorted|]. split; [|split].
      * apply in_map_iff. exists (N.to_nat (i + 1)). split; [lia|]. apply in_seq. lia.
      * lia.
      * intros q _ Hq. lia.
    + destruct (sel_word_spec bit b G) as [S1 S2]; [auto|]. rewrite <- S2.
      change (if bit then bdata b else N.land (wnot (bdata b)) (lsb_fill (bsize b))) with (sel_word bit b).
      unfold wfind_next, width. change (64 - 1) with 63. assert (i =? 63 = false) as -> by lia.
      set (top := N.land (sel_word bit b) (wshl all (i + 1))).
      assert (T : forall j, N.testbit top j = N.testbit (sel_word bit b) j && (i <? j)).
      { intros j. subst top. rewrite N.land_spec, testbit_wshl, testbit_all.
        destruct (N.testbit (sel_word bit b) j) eqn:Q; auto. cbn [andb].
        assert (j < bsize b).
        { destruct (N.lt_ge_cases j (bsize b)); auto. rewrite (testbit_small _ (bsize b)) in Q by auto. discriminate. }
        lia. }
      apply first_char; [apply pos_from_sorted|].
      destruct (N.eqb_spec top 0) as [Z|Z].
      * intros q Hq. apply in_pos_wbits in Hq as [_ Hq]. specialize (T q).
        rewrite Z, N.bits_0, Hq in T. auto.
      * destruct (ctz_spec top Z) as [C1 C2]. rewrite T in C1. apply andb_prop in C1 as [C1 C3].
        split; [|split; auto].
        -- apply in_pos_wbits. split; auto. rewrite N2Nat.id.
           destruct (N.lt_ge_cases (count_trailing_zeros top) (bsize b)); auto.
           rewrite (testbit_small _ (bsize b)) in C1 by auto. discriminate.
        -- intros q Hq Hi2. apply in_pos_wbits in Hq as [_ Hq].
           destruct (N.le_gt_cases (count_trailing_zeros top) q); auto.
           specialize (C2 q ltac:(auto)). rewrite T, Hq, Hi2 in C2. discriminate.
Qed.

(** * Whole bitmaps *)

Lemma flat_good_length : forall bs, Forall good bs ->
  length (flat_map blist bs) = fold_right (fun b n => (N.to_nat (bsize b) + n)%nat) 0%nat bs.
Proof.
  induction bs as [|b bs IH]; intros F; auto. apply Forall_cons_iff in F as [_ F].
  cbn [flat_map fold_right]. now rewrite app_length, blist_length, IH.
Qed.

Lemma rank_go_spec : forall bit bs res n i, Forall good bs -> n <= i ->
  i < n + N.of_nat (length (flat_map blist bs)) ->
  rank_go bit bs res n i = res + N.of_nat (length (pos_from bit 0 (firstn (N.to_nat (i - n + 1)) (flat_map blist bs)))).
Proof.
  induction bs as [|b bs IH]; intros res n i F H1 H2.
  - cbn in H2. lia.
  - apply Forall_cons_iff in F as [G F]. cbn [rank_go flat_map] in *.
    rewrite app_length, blist_length in H2.
    assert (n <=? i = true) as -> by lia. cbn [andb].
    destruct (N.ltb_spec i (n + bsize b)).
    + rewrite firstn_app, blist_length.
      assert (N.to_nat (i - n + 1) - N.to_nat (bsize b) = 0)%nat as -> by lia.
      cbn [firstn]. rewrite app_nil_r. rewrite brank_at_spec by (auto; lia). reflexivity.
    + rewrite IH by (auto; lia). rewrite brank_count by auto.
      rewrite firstn_app, blist_length, (firstn_all2 (blist b)) by (rewrite blist_length; lia).
      rewrite pos_from_app, app_length.
      replace (N.to_nat (i - n + 1) - N.to_nat (bsize b))%nat with (N.to_nat (i - (n + bsize b) + 1)) by lia.
      rewrite (pos_from_0 bit _ (0 + _)), map_length. lia.
Qed.

Lemma select_go_spec : forall bit bs rnk n i, Forall good bs -> rnk < i ->
  select_go bit bs rnk n i = nth_error (pos_from bit n (flat_map blist bs)) (N.to_nat (i - rnk - 1)).
Proof.
  induction bs as [|b bs IH]; intros rnk n i F Hi.
  - cbn. now destruct (N.to_nat (i - rnk - 1)).
  - apply Forall_cons_iff in F as [G F]. cbn [select_go flat_map]. rewrite brank_count by auto.
    rewrite pos_from_app, blist_length, N2Nat.id.
    set (c := length (pos_from bit 0 (blist b))).
    assert (C : length (pos_from bit n (blist b)) = c) by (rewrite pos_from_0; apply map_length).
    destruct (N.leb_spec i (rnk + N.of_nat c)).
    + rewrite nth_error_app1 by lia. rewrite pos_from_0, nth_error_map.
      rewrite bselect_spec; auto.
      * split; [lia|]. 
        assert (c <= length (blist b))%nat.
        { subst c. clear. generalize 0. induction (blist b) as [|x l IH]; intros n; cbn; [lia|].
          destruct (Bool.eqb x bit); cbn; specialize (IH (n + 1)); lia. }
        rewrite blist_length in *. lia.
      * right. fold c. lia.
    + rewrite IH by (auto; lia). rewrite nth_error_app2 by lia. f_equal. lia.
Qed.

Lemma select_last_go_spec : forall bs n last, Forall good bs ->
  select_last_go bs n last = match last_error (pos_from true n (flat_map blist bs)) with Some x => Some x | None => last end.
Proof.
  induction bs as [|b bs IH]; intros n last F; auto.
  apply Forall_cons_iff in F as [G F]. cbn [select_last_go flat_map].
  rewrite IH by auto. rewrite pos_from_app, last_error_app, blist_length, N2Nat.id.
  destruct (last_error (pos_from true (n + bsize b) (flat_map blist bs))); auto.
  rewrite find_last_spec by auto. rewrite (pos_from_0 true (blist b) n), last_error_map.
  destruct (last_error (pos_from true 0 (blist b))); reflexivity.
Qed.

Lemma frame_last_spec : forall bit bs n s, Forall good bs ->
  frame_last bit bs n s = match last_error (pos_from bit n (flat_map blist bs)) with Some x => x | None => s end.
Proof.
  induction bs as [|b bs IH]; intros n s F; auto.
  apply Forall_cons_iff in F as [G F]. cbn [frame_last flat_map].
  rewrite IH by auto. rewrite pos_from_app, last_error_app, blist_length, N2Nat.id.
  destruct (last_error (pos_from bit (n + bsize b) (flat_map blist bs))); auto.
  rewrite find_last_spec by auto. rewrite (pos_from_0 bit (blist b) n), last_error_map.
  destruct (last_error (pos_from bit 0 (blist b))); reflexivity.
Qed.

Lemma frame_go_spec : forall bit bs n, Forall good bs ->
  frame_go bit bs n =
  match hd_error (pos_from bit n (flat_map blist bs)), last_error (pos_from bit n (flat_map blist bs)) with
  | Some a, Some b => Some (a, b)
  | _, _ => None
  end.
Proof.
  induction bs as [|b bs IH]; intros n F; auto.
  pose proof F as F0. apply Forall_cons_iff in F as [G F]. cbn [frame_go].
  rewrite find_first_spec by auto. 
  destruct (hd_error (pos_from bit 0 (blist b))) as [x|] eqn:H.
  - rewrite frame_last_spec by auto. cbn [flat_map]. rewrite pos_from_app.
    rewrite (pos_from_0 bit (blist b) n). destruct (pos_from bit 0 (blist b)) as [|y ys] eqn:Q; [discriminate|].
    injection H as ->. cbn [map app hd_error].
    match goal with |- context[last_error ?l] => destruct (last_error l) eqn:Z; auto end.
    unfold last_error in Z. cbn [rev] in Z. destruct (rev _ ++ [n + x]) eqn:V.
    + apply app_eq_nil in V as [_ V]. discriminate.
    + discriminate.
  - cbn [flat_map]. rewrite pos_from_app, (pos_from_0 bit (blist b) n).
    destruct (pos_from bit 0 (blist b)); [|discriminate]. cbn [map app].
    rewrite IH by auto. now rewrite blist_length, N2Nat.id.
Qed.

Lemma any_spec : forall bit bs, Forall good bs -> any bit bs = existsb (Bool.eqb bit) (flat_map blist bs).
Proof.
  intros bit. induction bs as [|b bs IH]; intros F; auto.
  apply Forall_cons_iff in F as [G F]. cbn [any flat_map]. rewrite IH by auto. rewrite existsb_app. f_equal.
  assert (E : existsb (Bool.eqb bit) (blist b) = match pos_from bit 0 (blist b) with [] => false | _ => true end).
  { generalize 0. induction (blist b) as [|x l IHl]; intros n; auto. cbn [existsb pos_from].
    assert (Bool.eqb bit x = Bool.eqb x bit) as -> by (destruct bit, x; reflexivity).
    destruct (Bool.eqb x bit); cbn [orb]; auto. }
  rewrite E. clear E IH F. pose proof G as [W P].
  unfold width. destruct (N.ltb_spec 64 (bsize b)) as [R|R].
  - rewrite run_pos by auto. unfold bwf in W. destruct (N.ltb_spec 64 (bsize b)); [|lia].
    destruct (N.ltb_spec (bsize b) 64); [lia|].
    destruct (N.to_nat (bsize b)) eqn:Z; [lia|].
    destruct W as [-> | ->]; destruct bit; reflexivity.
  - destruct (sel_word_spec bit b G R) as [S1 S2]. rewrite <- S2.
    assert (Q : match pos_from true 0 (wbits (N.to_nat (bsize b)) (sel_word bit b)) with [] => false | _ => true end
                = negb (sel_word bit b =? 0)).
    { destruct (N.eqb_spec (sel_word bit b) 0) as [Z|Z].
      - rewrite Z, wbits_0, (pos_from_repeat_neg true). reflexivity.
      - pose proof (ctz_first (N.to_nat (bsize b)) _ Z ltac:(now rewrite N2Nat.id)) as C.
        destruct (pos_from true 0 _); [discriminate|reflexivity]. }
    rewrite Q. destruct bit; [reflexivity|]. f_equal.
    assert (D : bdata b < 2 ^ bsize b).
    { unfold bwf in W. destruct (N.ltb_spec 64 (bsize b)); [lia|auto]. }
    assert (D64 : bdata b < 2 ^ 64) by now apply bwf_lt.
    set (x := if bsize b <? 64 then N.lor (bdata b) (msb_fill (64 - bsize b)) else bdata b).
    assert (X : x = wnot (sel_word false b)).
    { assert (SL : sel_word false b < 2 ^ 64).
      { eapply N.lt_le_trans; [exact S1|]. apply N.pow_le_mono_r; lia. }
      assert (M : forall i, N.testbit (msb_fill (64 - bsize b)) i = (bsize b <=? i) && (i <? 64)).
      { intros i. unfold msb_fill, width. rewrite testbit_wshl, testbit_all.
        replace (64 - (64 - bsize b)) with (bsize b) by lia. lia. }
      apply eq_of_testbit with (k := 64).
      - subst x. destruct (bsize b <? 64); auto. apply lor_lt; auto.
        apply testbit_lt_pow2. intros i Hi. rewrite M. lia.
      - now apply wnot_lt.
      - intros i Hi. unfold sel_word. rewrite lsb_fill_ones by lia.
        rewrite testbit_wnot, N.land_spec, testbit_wnot, testbit_ones.
        assert (i <? 64 = true) as -> by lia.
        subst x. destruct (N.ltb_spec (bsize b) 64).
        + rewrite N.lor_spec, M. assert (i <? 64 = true) as -> by lia.
          destruct (N.testbit (bdata b) i), (N.leb_spec (bsize b) i), (N.ltb_spec i (bsize b)); cbn; auto; lia.
        + assert (i <? bsize b = true) as -> by lia. destruct (N.testbit (bdata b) i); reflexivity. }
    rewrite X. unfold wnot. 
    destruct (N.eqb_spec (sel_word false b) 0) as [-> | Z]; [reflexivity|].
    apply N.eqb_neq. intro Y. apply Z. 
    rewrite <- (N.lxor_0_l all) in Y at 2. apply N.bits_inj. intro i.
    apply (f_equal (fun w => N.testbit w i)) in Y. rewrite !N.lxor_spec in Y.
    destruct (N.testbit (sel_word false b) i), (N.testbit 0 i) eqn:B0, (N.testbit all i); auto; discriminate.
Qed.

(** * Bitwise iteration *)

Definition at_pos (L : list bool) (r : brange) (p : option N) : Prop :=
  match p with
  | None => br_rng r = [] /\ br_i r = None
  | Some p => exists pre b rest i, br_rng r = b :: rest /\ br_i r = Some i /\
      br_n r = N.of_nat (length pre) /\ p = br_n r + i /\ i < bsize b /\
      L = pre ++ blist b ++ flat_map blist rest /\ Forall good (b :: rest)
  end.

Definition after (bit : bool) (L : list bool) (p : N) : list N :=
  filter (fun q => p <? q) (pos_from bit 0 L).

Lemma filter_none : forall {A} (c : A -> bool) l, (forall x, In x l -> c x = false) -> filter c l = [].
Proof.
  induction l as [|x l IH]; intros H; auto. cbn [filter]. rewrite H by now left. apply IH. intros. apply H. now right.
Qed.
Lemma filter_every : forall {A} (c : A -> bool) l, (forall x, In x l -> c x = true) -> filter c l = l.
Proof.
  induction l as [|x l IH]; intros H; auto. cbn [filter]. rewrite H by now left. f_equal. apply IH. intros. apply H. now right.
Qed.
Lemma filter_map_comm : forall {A B} (c : B -> bool) (f : A -> B) l, filter c (map f l) = map f (filter (fun x => c (f x)) l).
Proof. induction l as [|x l IH]; auto. cbn. destruct (c (f x)); cbn; now rewrite IH. Qed.

Lemma after_split : forall bit pre b R i, i < bsize b ->
  after bit (pre ++ blist b ++ R) (N.of_nat (length pre) + i) =
  map (N.add (N.of_nat (length pre))) (filter (fun q => i <? q) (pos_from bit 0 (blist b)))
  ++ pos_from bit (N.of_nat (length pre) + bsize b) R.
Proof.
  intros bit pre b R i Hi. unfold after. rewrite !pos_from_app, !filter_app, N.add_0_l.
  rewrite filter_none.
  2:{ intros q Hq. apply in_pos_from in Hq. lia. }
  cbn [app]. f_equal.
  - rewrite (pos_from_0 bit (blist b)), filter_map_comm. f_equal. apply filter_ext. intros q. lia.
  - rewrite blist_length, N2Nat.id. apply filter_every. intros q Hq. apply in_pos_from in Hq. lia.
Qed.

Lemma select_loop_spec : forall bit rng pre, Forall good rng ->
  at_pos (pre ++ flat_map blist rng) (br_select_loop bit rng (N.of_nat (length pre)))
    (hd_error (pos_from bit (N.of_nat (length pre)) (flat_map blist rng))).
Proof.
  induction rng as [|b rest IH]; intros pre F.
  - cbn. auto.
  - pose proof F as F0. apply Forall_cons_iff in F as [G F]. cbn [br_select_loop flat_map].
    rewrite find_first_spec by auto. rewrite pos_from_app, (pos_from_0 bit (blist b) (N.of_nat (length pre))).
    destruct (pos_from bit 0 (blist b)) as [|i ps] eqn:Q; cbn [hd_error map app].
    + specialize (IH (pre ++ blist b) F). rewrite app_length, blist_length in IH.
      replace (N.of_nat (length pre + N.to_nat (bsize b))) with (N.of_nat (length pre) + bsize b) in IH by lia.
      rewrite <- app_assoc in IH. rewrite blist_length, N2Nat.id. exact IH.
    + exists pre, b, rest, i. cbn [br_rng br_i br_n]. repeat split; auto.
      assert (In i (pos_from bit 0 (blist b))) as Hi by (rewrite Q; now left).
      apply in_pos_from in Hi. rewrite blist_length in Hi. lia.
Qed.

Lemma br_select_spec : forall bit L r p, at_pos L r (Some p) ->
  exists r', br_select bit r = Some r' /\ at_pos L r' (hd_error (after bit L p)).
Proof.
  intros bit L r p (pre & b & rest & i & E1 & E2 & E3 & E4 & E5 & E6 & E7).
  unfold br_select. rewrite E1, E2. pose proof E7 as E8. apply Forall_cons_iff in E8 as [G F].
  subst p L. rewrite E3, after_split by auto. rewrite find_next_spec by auto.
  destruct (filter (fun q => i <? q) (pos_from bit 0 (blist b))) as [|i' ps] eqn:Q; cbn [hd_error map app].
  - eexists. split; [reflexivity|].
    pose proof (select_loop_spec bit rest (pre ++ blist b) F) as H.
    rewrite app_length, blist_length in H.
    replace (N.of_nat (length pre + N.to_nat (bsize b))) with (N.of_nat (length pre) + bsize b) in H by lia.
    rewrite <- app_assoc in H. exact H.
  - eexists. split; [reflexivity|]. exists pre, b, rest, i'. cbn [br_rng br_i br_n]. repeat split; auto.
    assert (In i' (filter (fun q => i <? q) (pos_from bit 0 (blist b)))) as Hi by (rewrite Q; now left).
    apply filter_In in Hi as [Hi _]. apply in_pos_from in Hi. rewrite blist_length in Hi. lia.
Qed.

Lemma at_pos_lt : forall L r p, at_pos L r (Some p) -> p < N.of_nat (length L).
Proof.
  intros L r p (pre & b & rest & i & E1 & E2 & E3 & E4 & E5 & E6 & E7).
  subst. rewrite !app_length, blist_length. lia.
Qed.

Lemma br_next_spec : forall L r p, at_pos L r (Some p) ->
  exists r', br_next r = Some r' /\ at_pos L r' (if p + 1 <? N.of_nat (length L) then Some (p + 1) else None).
Proof.
  intros L r p (pre & b & rest & i & E1 & E2 & E3 & E4 & E5 & E6 & E7).
  unfold br_next. rewrite E1, E2. destruct (N.eqb_spec (i + 1) (bsize b)) as [Q|Q].
  - eexists. split; [reflexivity|]. destruct rest as [|b' rest'].
    + assert (p + 1 <? N.of_nat (length L) = false) as ->.
      { subst. rewrite !app_length, blist_length. cbn [flat_map length]. lia. }
      cbn. auto.
    + apply Forall_cons_iff in E7 as [G F]. pose proof F as F'. apply Forall_cons_iff in F' as [[G1 G2] _].
      assert (p + 1 <? N.of_nat (length L) = true) as ->.
      { subst. cbn [flat_map]. rewrite !app_length, !blist_length. lia. }
      exists (pre ++ blist b), b', rest', 0. cbn [br_rng br_i br_n]. repeat split; auto.
      * rewrite app_length, blist_length. lia.
      * lia.
      * subst L. cbn [flat_map]. now rewrite <- !app_assoc.
  - eexists. split; [reflexivity|].
    assert (p + 1 <? N.of_nat (length L) = true) as ->.
    { subst. rewrite !app_length, blist_length. lia. }
    exists pre, b, rest, (i + 1). cbn [br_rng br_i br_n]. repeat split; auto; lia.
Qed.

Lemma next_loop_spec : forall rng pre k, Forall good rng -> 0 < k ->
  at_pos (pre ++ flat_map blist rng) (br_next_loop rng (N.of_nat (length pre)) k)
    (if k <=? N.of_nat (length (flat_map blist rng)) then Some (N.of_nat (length pre) + (k - 1)) else None).
Proof.
  induction rng as [|b rest IH]; intros pre k F Hk.
  - cbn [flat_map length br_next_loop]. assert (k <=? N.of_nat 0 = false) as -> by lia. cbn. auto.
  - pose proof F as F0. apply Forall_cons_iff in F as [G F]. cbn [br_next_loop flat_map].
    assert (0 <? k = true) as -> by lia. rewrite app_length, blist_length.
    destruct (N.leb_spec k (bsize b)).
    + assert (k <=? N.of_nat (N.to_nat (bsize b) + length (flat_map blist rest)) = true) as -> by lia.
      exists pre, b, rest, (k - 1). cbn [br_rng br_i br_n]. repeat split; auto. lia.
    + specialize (IH (pre ++ blist b) (k - bsize b) F ltac:(lia)). rewrite app_length, blist_length in IH.
      replace (N.of_nat (length pre + N.to_nat (bsize b))) with (N.of_nat (length pre) + bsize b) in IH by lia.
      rewrite <- app_assoc in IH.
      destruct (N.leb_spec (k - bsize b) (N.of_nat (length (flat_map blist rest)))).
      * assert (k <=? N.of_nat (N.to_nat (bsize b) + length (flat_map blist rest)) = true) as -> by lia.
        replace (N.of_nat (length pre) + (k - 1)) with (N.of_nat (length pre) + bsize b + (k - bsize b - 1)) by lia.
        exact IH.
      * assert (k <=? N.of_nat (N.to_nat (bsize b) + length (flat_map blist rest)) = false) as -> by lia.
        exact IH.
Qed.

Lemma br_next_k_spec : forall L r p k, at_pos L r (Some p) -> 0 < k ->
  exists r', br_next_k k r = Some r' /\ at_pos L r' (if p + k <? N.of_nat (length L) then Some (p + k) else None).
Proof.
  intros L r p k H Hk. pose proof H as (pre & b & rest & i & E1 & E2 & E3 & E4 & E5 & E6 & E7).
  unfold br_next_k. assert (k =? 0 = false) as -> by lia. rewrite E1, E2.
  pose proof E7 as E8. apply Forall_cons_iff in E8 as [[G1 G2] F].
  assert (bempty b = false) as -> by (unfold bempty; lia).
  destruct (N.leb_spec k (bsize b - i - 1)).
  - assert (at_pos L (BRange (b :: rest) (Some (i + (k - 1))) (br_n r)) (Some (p + (k - 1)))) as A.
    { exists pre, b, rest, (i + (k - 1)). cbn [br_rng br_i br_n]. repeat split; auto; lia. }
    destruct (br_next_spec _ _ _ A) as (r' & -> & R'). exists r'. split; auto.
    replace (p + (k - 1) + 1) with (p + k) in R' by lia. exact R'.
  - eexists. split; [reflexivity|].
    pose proof (next_loop_spec rest (pre ++ blist b) (k - (bsize b - i - 1)) F ltac:(lia)) as A.
    rewrite app_length, blist_length in A.
    replace (N.of_nat (length pre + N.to_nat (bsize b))) with (br_n r + bsize b) in A by lia.
    rewrite <- app_assoc, <- E6 in A.
    match type of A with at_pos _ _ (if ?c then _ else _) => replace c with (p + k <? N.of_nat (length L)) in A end.
    2:{ subst L. rewrite !app_length, blist_length. lia. }
    replace (br_n r + bsize b + (k - (bsize b - i - 1) - 1)) with (p + k) in A by lia. exact A.
Qed.

Lemma at_pos_value : forall L r p, at_pos L r (Some p) -> br_value r = Some (nth (N.to_nat p) L false).
Proof.
  intros L r p (pre & b & rest & i & E1 & E2 & E3 & E4 & E5 & E6 & E7).
  unfold br_value. rewrite E1, E2. f_equal. subst L.
  rewrite app_nth2 by lia. rewrite app_nth1 by (rewrite blist_length; lia).
  rewrite bits_at_spec by auto. f_equal. lia.
Qed.

Lemma at_pos_done : forall L r p, at_pos L r p -> br_done r = match p with None => true | Some _ => false end.
Proof.
  intros L r [p|] H.
  - destruct H as (pre & b & rest & i & E1 & E2 & _). unfold br_done. now rewrite E1.
  - destruct H as [E1 E2]. unfold br_done. now rewrite E1, E2.
Qed.

Lemma at_pos_get : forall L r p, at_pos L r p -> br_get r = p.
Proof.
  intros L r [p|] H.
  - destruct H as (pre & b & rest & i & E1 & E2 & E3 & E4 & _). unfold br_get. rewrite E2. cbn. now f_equal.
  - destruct H as [E1 E2]. unfold br_get. now rewrite E2.
Qed.

Lemma from_after : forall bit L x, 
  hd_error (filter (fun q => x <=? q) (pos_from bit 0 L)) =
  if (x <? N.of_nat (length L)) && Bool.eqb (nth (N.to_nat x) L false) bit then Some x
  else hd_error (after bit L x).
Proof.
  intros bit L x. destruct (_ && _) eqn:E.
  - apply andb_prop in E as [E1 E2]. apply eqb_prop in E2.
    apply first_char; [apply pos_from_sorted|]. split; [|split].
    + apply in_pos_from. rewrite N.sub_0_r. split; auto. lia.
    + lia.
    + intros. lia.
  - f_equal. apply filter_ext_in. intros q Hq. apply in_pos_from in Hq as [H1 H2].
    rewrite N.sub_0_r in H2.
    destruct (N.eq_dec q x) as [->|]; [|lia].
    subst bit. rewrite eqb_reflx, andb_true_r in E. lia.
Qed.

Lemma br_select_from_spec : forall bit L r p x, at_pos L r (Some p) -> p <= x ->
  exists r', br_select_from bit x r = Some r' /\
    at_pos L r' (hd_error (filter (fun q => x <=? q) (pos_from bit 0 L))).
Proof.
  intros bit L r p x A Hx. unfold br_select_from. rewrite (at_pos_get _ _ _ A).
  assert (x <? p = false) as -> by lia.
  assert (exists r1, (if p <? x then br_next_k (x - p) r else Some r) = Some r1 /\
    at_pos L r1 (if x <? N.of_nat (length L) then Some x else None)) as (r1 & -> & A1).
  { destruct (N.ltb_spec p x).
    - destruct (br_next_k_spec L r p (x - p) A ltac:(lia)) as (r1 & -> & A1). exists r1. split; auto.
      replace (p + (x - p)) with x in A1 by lia. exact A1.
    - assert (x = p) by lia. subst x. exists r. split; auto. pose proof (at_pos_lt _ _ _ A).
      assert (p <? N.of_nat (length L) = true) as -> by lia. exact A. }
  rewrite (at_pos_done _ _ _ A1). rewrite from_after.
  destruct (N.ltb_spec x (N.of_nat (length L))); cbn [andb].
  - rewrite (at_pos_value _ _ _ A1). destruct (Bool.eqb (nth (N.to_nat x) L false) bit) eqn:E.
    + exists r1. auto.
    + destruct (br_select_spec bit L r1 x A1) as (r2 & -> & A2). eauto.
  - exists r1. split; auto. unfold after. rewrite filter_none; auto.
    intros q Hq. apply in_pos_from in Hq. lia.
Qed.

Lemma filter_le_app : forall bit L i,
  pos_from bit 0 L = pos_from bit 0 (firstn (N.to_nat (i + 1)) L) ++ after bit L i.
Proof.
  intros bit L i. rewrite firstn_pos. unfold after.
  pose proof (pos_from_sorted bit L 0) as S. revert S. generalize (pos_from bit 0 L).
  induction l as [|x l IH]; intros S; auto. inversion S as [|? ? S1 S2]; subst. cbn [filter].
  destruct (N.ltb_spec x (0 + N.of_nat (N.to_nat (i + 1)))), (N.ltb_spec i x); try lia.
  - cbn [app]. f_equal. auto.
  - assert (filter (fun q => q <? 0 + N.of_nat (N.to_nat (i + 1))) l = []) as ->.
    { apply filter_none. intros q Hq. rewrite Forall_forall in S2. specialize (S2 q Hq). lia. }
    cbn [app]. f_equal. symmetry. apply filter_every. intros q Hq.
    rewrite Forall_forall in S2. specialize (S2 q Hq). lia.
Qed.

Lemma pos_length_le : forall bit l n, (length (pos_from bit n l) <= length l)%nat.
Proof.
  induction l as [|x l IH]; intros n; cbn; [lia|].
  destruct (Bool.eqb x bit); cbn; specialize (IH (n + 1)); lia.
Qed.

Lemma select_k_loop_spec : forall rng pre k, Forall good rng -> 0 < k ->
  at_pos (pre ++ flat_map blist rng) (br_select_k_loop true rng (N.of_nat (length pre)) k)
    (nth_error (pos_from true (N.of_nat (length pre)) (flat_map blist rng)) (N.to_nat (k - 1))).
Proof.
  induction rng as [|b rest IH]; intros pre k F Hk.
  - cbn [flat_map pos_from br_select_k_loop]. destruct (N.to_nat (k - 1)); cbn; auto.
  - pose proof F as F0. apply Forall_cons_iff in F as [G F]. cbn [br_select_k_loop flat_map].
    set (ps := pos_from true 0 (blist b)).
    assert (LP : (length ps <= N.to_nat (bsize b))%nat).
    { subst ps. rewrite <- blist_length. apply pos_length_le. }
    assert (NX : (length ps <= N.to_nat (k - 1))%nat ->
      at_pos (pre ++ blist b ++ flat_map blist rest)
        (br_select_k_loop true rest (N.of_nat (length pre) + bsize b) (k - brank true b))
        (nth_error (pos_from true (N.of_nat (length pre)) (blist b ++ flat_map blist rest)) (N.to_nat (k - 1)))).
    { intros Hge. rewrite brank_spec by auto. fold ps.
      specialize (IH (pre ++ blist b) (k - N.of_nat (length ps)) F ltac:(lia)).
      rewrite app_length, blist_length in IH.
      replace (N.of_nat (length pre + N.to_nat (bsize b))) with (N.of_nat (length pre) + bsize b) in IH by lia.
      rewrite <- app_assoc in IH.
      rewrite pos_from_app, nth_error_app2; rewrite (pos_from_0 true (blist b)), map_length; fold ps; auto.
      rewrite blist_length, N2Nat.id.
      replace (N.to_nat (k - 1) - length ps)%nat with (N.to_nat (k - N.of_nat (length ps) - 1)) by lia.
      exact IH. }
    destruct (N.leb_spec k (bsize b)).
    + rewrite bselect_spec by (auto; lia). fold ps.
      destruct (nth_error ps (N.to_nat (k - 1))) as [i|] eqn:Q.
      * assert (Hlt : (N.to_nat (k - 1) < length ps)%nat) by (apply nth_error_Some; congruence).
        rewrite pos_from_app, nth_error_app1; rewrite (pos_from_0 true (blist b)); fold ps; [|now rewrite map_length].
        rewrite nth_error_map, Q. cbn [option_map].
        exists pre, b, rest, i. cbn [br_rng br_i br_n]. repeat split; auto.
        apply nth_error_In in Q. subst ps. apply in_pos_from in Q. rewrite blist_length in Q. lia.
      * apply NX. now apply nth_error_None.
    + apply NX. lia.
Qed.

Lemma br_select_k_spec : forall L r p k, at_pos L r (Some p) -> 0 < k ->
  exists r', br_select_k true k r = Some r' /\ at_pos L r' (nth_error (after true L p) (N.to_nat (k - 1))).
Proof.
  intros L r p k H Hk. pose proof H as (pre & b & rest & i & E1 & E2 & E3 & E4 & E5 & E6 & E7).
  unfold br_select_k. assert (k =? 0 = false) as -> by lia. rewrite E1, E2.
  pose proof E7 as E8. apply Forall_cons_iff in E8 as [G F].
  rewrite brank_spec, brank_at_spec by auto.
  set (prev := pos_from true 0 (firstn (N.to_nat (i + 1)) (blist b))).
  assert (SPL : pos_from true 0 (blist b) = prev ++ filter (fun q => i <? q) (pos_from true 0 (blist b))).
  { apply (filter_le_app true (blist b) i). }
  set (tl := filter (fun q => i <? q) (pos_from true 0 (blist b))) in *.
  assert (AF : after true L p = map (N.add (N.of_nat (length pre))) tl ++ pos_from true (N.of_nat (length pre) + bsize b) (flat_map blist rest)).
  { subst L p. rewrite E3. now apply after_split. }
  assert (LEN : length (pos_from true 0 (blist b)) = (length prev + length tl)%nat) by (rewrite SPL at 1; apply app_length).
  assert (LL : (length (pos_from true 0 (blist b)) <= N.to_nat (bsize b))%nat) by (rewrite <- blist_length; apply pos_length_le).
  rewrite AF. destruct (N.leb_spec k (N.of_nat (length (pos_from true 0 (blist b))) - N.of_nat (length prev))).
  - assert (SE : bselect true b (N.of_nat (length prev) + k) = nth_error tl (N.to_nat (k - 1))).
    { rewrite bselect_spec by (auto; lia). rewrite SPL.
      rewrite nth_error_app2 by lia. f_equal. lia. }
    rewrite SE. rewrite nth_error_app1 by (rewrite map_length; lia). rewrite nth_error_map.
    destruct (nth_error tl (N.to_nat (k - 1))) as [i'|] eqn:Q.
    + eexists. split; [reflexivity|]. exists pre, b, rest, i'. cbn [br_rng br_i br_n option_map]. repeat split; auto; [congruence|].
      apply nth_error_In in Q. subst tl. apply filter_In in Q as [Q _]. apply in_pos_from in Q.
      rewrite blist_length in Q. lia.
    + apply nth_error_None in Q. lia.
  - eexists. split; [reflexivity|].
    rewrite nth_error_app2 by (rewrite map_length; lia). rewrite map_length.
    pose proof (select_k_loop_spec rest (pre ++ blist b) (k - (N.of_nat (length (pos_from true 0 (blist b))) - N.of_nat (length prev))) F ltac:(lia)) as A.
    rewrite app_length, blist_length in A.
    replace (N.of_nat (length pre + N.to_nat (bsize b))) with (br_n r + bsize b) in A by lia.
    rewrite <- app_assoc, <- E6 in A. rewrite E3 in *.
    match type of A with at_pos _ _ (nth_error _ ?x) => match goal with |- at_pos _ _ (nth_error _ ?y) => replace y with x by lia end end.
    exact A.
Qed.

Lemma br_init_spec : forall bs, Forall good bs ->
  at_pos (flat_map blist bs) (br_init bs) (match flat_map blist bs with [] => None | _ => Some 0 end).
Proof.
  intros [|b bs] F; [cbn; auto|]. pose proof F as F0. apply Forall_cons_iff in F0 as [[G1 G2] _].
  cbn [flat_map]. destruct (blist b) as [|x l] eqn:B.
  { apply (f_equal (@length bool)) in B. rewrite blist_length in B. cbn in B. lia. }
  cbn [app]. exists [], b, bs, 0. cbn [br_init br_rng br_i br_n]. repeat split; auto. now rewrite B.
Qed.

Lemma select_init_spec : forall bit bs, Forall good bs ->
  exists r, select_init bit bs = Some r /\ at_pos (flat_map blist bs) r (hd_error (pos_from bit 0 (flat_map blist bs))).
Proof.
  intros bit bs F. unfold select_init. pose proof (br_init_spec bs F) as A.
  destruct bs as [|b bs]; [exists (br_init []); auto|].
  destruct (flat_map blist (b :: bs)) as [|x l] eqn:FL.
  { destruct A as [A _]. discriminate. }
  assert (V : bits_at b 0 = x).
  { pose proof (at_pos_value _ _ _ A) as V. cbn in V. congruence. }
  rewrite V. cbn [pos_from]. destruct (Bool.eqb x bit) eqn:E.
  - eexists. split; [reflexivity|]. exact A.
  - destruct (br_select_spec bit _ _ _ A) as (r & -> & A'). exists r. split; auto.
    unfold after in A'. cbn [pos_from] in A'. rewrite E in A'. rewrite filter_every in A'; [exact A'|].
    intros q Hq. apply in_pos_from in Hq. lia.
Qed.

Lemma sorted_after_head : forall bit L p ps, 
  filter (fun q => p <=? q) (pos_from bit 0 L) = p :: ps -> after bit L p = ps.
Proof.
  intros bit L p ps. unfold after. pose proof (pos_from_sorted bit L 0) as S. revert S.
  generalize (pos_from bit 0 L). induction l as [|x l IH]; intros S H; [discriminate|].
  inversion S as [|? ? S1 S2]; subst. rewrite Forall_forall in S2. cbn [filter] in *.
  destruct (N.leb_spec p x).
  - injection H as -> <-. assert (p <? p = false) as -> by lia.
    apply filter_ext_in. intros q Hq. specialize (S2 q Hq). lia.
  - assert (p <? x = false) as -> by lia. auto.
Qed.

Lemma collect_select : forall bit L fuel r p,
  at_pos L r p -> p = hd_error (match p with Some q => filter (fun x => q <=? x) (pos_from bit 0 L) | None => [] end) ->
  (match p with Some q => length (filter (fun x => (q <=? x)%N) (pos_from bit 0 L)) | None => 0%nat end <= fuel)%nat ->
  br_collect (br_select bit) fuel r =
  Some (match p with Some q => filter (fun x => q <=? x) (pos_from bit 0 L) | None => [] end).
Proof.
  intros bit L. induction fuel as [|f IH]; intros r [p|] A H Hf.
  - destruct (filter _ _); [discriminate|cbn in Hf; lia].
  - cbn. now rewrite (at_pos_done _ _ _ A).
  - cbn [br_collect]. rewrite (at_pos_done _ _ _ A), (at_pos_get _ _ _ A).
    destruct (br_select_spec bit L r p A) as (r' & -> & A').
    destruct (filter (fun x => p <=? x) (pos_from bit 0 L)) as [|y ps] eqn:Q; [discriminate|].
    injection H as <-. pose proof (sorted_after_head bit L p ps Q) as AH. rewrite AH in A'.
    assert (PS : match hd_error ps with Some q => filter (fun x => q <=? x) (pos_from bit 0 L) | None => [] end = ps).
    { destruct ps as [|q ps']; auto. cbn [hd_error].
      rewrite <- AH. unfold after. apply filter_ext_in. intros x Hx.
      (* elements between p and q do not exist *)
      assert (Hq : In q (after bit L p)) by (rewrite AH; now left). unfold after in Hq. apply filter_In in Hq as [_ Hq].
      destruct (N.ltb_spec p x).
      - assert (In x (after bit L p)) as Hx2 by (unfold after; apply filter_In; split; auto; lia).
        rewrite AH in Hx2. destruct Hx2 as [->|Hx2]; [lia|].
        assert (SS : StronglySorted N.lt (after bit L p)).
        { unfold after. pose proof (pos_from_sorted bit L 0) as S. revert S. clear. generalize (pos_from bit 0 L).
          induction l as [|y l IH]; intros S; cbn; [constructor|]. inversion S as [|? ? S1 S2]; subst.
          destruct (p <? y); auto. constructor; auto. rewrite Forall_forall in *. intros z Hz.
          apply filter_In in Hz as [Hz _]. auto. }
        rewrite AH in SS. inversion SS as [|? ? _ S2]; subst. rewrite Forall_forall in S2. specialize (S2 x Hx2). lia.
      - lia. }
    rewrite (IH r' (hd_error ps) A').
    + rewrite PS. reflexivity.
    + now rewrite PS.
    + assert (match hd_error ps with Some q => length (filter (fun x => q <=? x) (pos_from bit 0 L)) | None => 0%nat end = length ps) as ->.
      { rewrite <- PS at 2. destruct (hd_error ps); reflexivity. }
      cbn [length] in Hf. lia.
  - cbn. now rewrite (at_pos_done _ _ _ A).
Qed.

Lemma collect_select_all : forall bit bs r, Forall good bs -> select_init bit bs = Some r ->
  forall fuel, (length (flat_map blist bs) <= fuel)%nat ->
  br_collect (br_select bit) fuel r = Some (pos_from bit 0 (flat_map blist bs)).
Proof.
  intros bit bs r F E fuel Hf. destruct (select_init_spec bit bs F) as (r' & E' & A).
  assert (r' = r) by congruence. subst r'. set (L := flat_map blist bs) in *.
  assert (Q : match hd_error (pos_from bit 0 L) with Some q => filter (fun x => q <=? x) (pos_from bit 0 L) | None => [] end
    = pos_from bit 0 L).
  { pose proof (pos_from_sorted bit L 0) as S. destruct (pos_from bit 0 L) as [|y ps]; auto. cbn [hd_error].
    inversion S as [|? ? S1 S2]; subst. rewrite Forall_forall in S2. apply filter_every.
    intros x [<-|Hx]; [lia|]. specialize (S2 x Hx). lia. }
  rewrite (collect_select bit L fuel r _ A).
  - now rewrite Q.
  - now rewrite Q.
  - pose proof (pos_length_le bit L 0).
    assert (match hd_error (pos_from bit 0 L) with Some q => length (filter (fun x => q <=? x) (pos_from bit 0 L)) | None => 0%nat end = length (pos_from bit 0 L)) as ->.
    { transitivity (length (match hd_error (pos_from bit 0 L) with Some q => filter (fun x => q <=? x) (pos_from bit 0 L) | None => [] end)).
      - destruct (hd_error (pos_from bit 0 L)); reflexivity.
      - now rewrite Q. }
    lia.
Qed.

(** * Traversal along intervals *)

Section SelectWithSpec.
  Context {A : Type} (f : A -> N * N) (g : A -> bool).

  (** The elements visited from a list: up to and including the first error. *)
  Fixpoint visit (l : list A) : list A * bool :=
    match l with
    | [] => ([], false)
    | x :: l' => if g x then ([x], true) else (x :: fst (visit l'), snd (visit l'))
    end.

  Definition hit_from (L : list bool) (p : N) (x : A) : bool :=
    existsb (fun q => (p <=? q) && (fst (f x) <=? q) && (q <? snd (f x))) (pos_from true 0 L).

  Lemma hit_from_spec : forall L p x, hit_from L p x = true <->
    exists q, In q (pos_from true 0 L) /\ p <= q /\ fst (f x) <= q < snd (f x).
  Proof.
    intros L p x. unfold hit_from. rewrite existsb_exists. split.
    - intros (q & H1 & H2). exists q. split; auto. lia.
    - intros (q & H1 & H2). exists q. split; auto. lia.
  Qed.

  Lemma hit_from_ext : forall L p p' x,
    (forall q, In q (pos_from true 0 L) -> fst (f x) <= q < snd (f x) -> (p <= q <-> p' <= q)) ->
    hit_from L p x = hit_from L p' x.
  Proof.
    intros L p p' x H. apply eq_true_iff_eq. rewrite !hit_from_spec.
    split; intros (q & H1 & H2 & H3); exists q; repeat split; auto; try apply H3; now apply (H q H1 H3).
  Qed.

  Lemma filter_lower_bound : forall L p l, filter (hit_from L p) (lower_bound f l p) = filter (hit_from L p) l.
  Proof.
    induction l as [|x l IH]; auto. cbn [lower_bound]. destruct (N.leb_spec (snd (f x)) p); auto.
    cbn [filter]. destruct (hit_from L p x) eqn:E; auto.
    apply hit_from_spec in E as (q & _ & H1 & H2). lia.
  Qed.

  Lemma lower_bound_length : forall l p, (length (lower_bound f l p) <= length l)%nat.
  Proof. induction l as [|x l IH]; intros p; cbn; auto. destruct (_ <=? _); cbn; auto. Qed.

  Lemma lower_bound_sorted : forall R l p, StronglySorted R l -> StronglySorted R (lower_bound f l p).
  Proof.
    induction l as [|x l IH]; intros p S; auto. cbn [lower_bound].
    destruct (_ <=? _); auto. apply IH. now inversion S.
  Qed.

  Lemma lower_bound_Forall : forall P l p, Forall P l -> Forall P (lower_bound f l p).
  Proof.
    induction l as [|x l IH]; intros p S; auto. cbn [lower_bound].
    destruct (_ <=? _); auto. apply IH. now inversion S.
  Qed.

  Lemma hd_from_facts : forall L x p, hd_error (filter (fun q => x <=? q) (pos_from true 0 L)) = Some p ->
    In p (pos_from true 0 L) /\ x <= p /\ forall q, In q (pos_from true 0 L) -> x <= q -> p <= q.
  Proof.
    intros L x p. pose proof (pos_from_sorted true L 0) as S. revert S. generalize (pos_from true 0 L).
    induction l as [|y l IH]; intros S H; [discriminate|]. inversion S as [|? ? S1 S2]; subst.
    rewrite Forall_forall in S2. cbn [filter] in H. destruct (N.leb_spec x y).
    - injection H as ->. split; [now left|]. split; auto. intros q [->|Hq] _; [lia|]. specialize (S2 q Hq). lia.
    - destruct (IH S1 H) as (H1 & H2 & H3). split; [now right|]. split; auto.
      intros q [->|Hq] Hx; [lia|auto].
  Qed.

  Lemma hd_from_none : forall L x, hd_error (filter (fun q => x <=? q) (pos_from true 0 L)) = None ->
    forall q, In q (pos_from true 0 L) -> q < x.
  Proof.
    intros L x H q Hq. destruct (N.lt_ge_cases q x); auto.
    assert (In q (filter (fun q => x <=? q) (pos_from true 0 L))) as Hi by (apply filter_In; split; auto; lia).
    destruct (filter _ _); [destruct Hi|discriminate].
  Qed.

  Definition before (x y : A) : Prop := snd (f x) <= fst (f y).

  Lemma select_with_loop_spec : forall L fuel l rng p,
    (length l <= fuel)%nat -> at_pos L rng (Some p) -> In p (pos_from true 0 L) ->
    StronglySorted before l -> Forall (fun x => fst (f x) < snd (f x)) l ->
    select_with_loop f g fuel rng l = Some (visit (filter (hit_from L p) l)).
  Proof.
    intros L. induction fuel as [|fu IH]; intros l rng p Hf A0 I0 S V.
    { destruct l; [reflexivity|cbn in Hf; lia]. }
    destruct l as [|x l]; [reflexivity|].
    cbn [select_with_loop]. rewrite (at_pos_done _ _ _ A0), (at_pos_get _ _ _ A0).
    destruct (f x) as [first last] eqn:FX.
    inversion S as [|? ? S1 S2]; subst. inversion V as [|? ? V1 V2]; subst. rewrite FX in V1. cbn [fst snd] in V1.
    rewrite Forall_forall in S2.
    assert (FI : forall y, In y (x :: l) -> first <= fst (f y)).
    { intros y [<-|Hy]; [rewrite FX; cbn; lia|]. specialize (S2 y Hy). unfold before in S2. rewrite FX in S2. cbn in S2. lia. }
    assert (FL : forall y, In y l -> last <= fst (f y)).
    { intros y Hy. specialize (S2 y Hy). unfold before in S2. rewrite FX in S2. cbn in S2. lia. }
    set (target := if p <? first then hd_error (filter (fun q => first <=? q) (pos_from true 0 L)) else Some p).
    assert (exists rng1, (if p <? first then br_select_from true first rng else Some rng) = Some rng1 /\ at_pos L rng1 target)
      as (rng1 & -> & A1).
    { subst target. destruct (N.ltb_spec p first).
      - apply (br_select_from_spec true L rng p first A0). lia.
      - eauto. }
    rewrite (at_pos_done _ _ _ A1), (at_pos_get _ _ _ A1).
    destruct target as [p1|] eqn:TG; subst target.
    2:{ destruct (N.ltb_spec p first); [|discriminate]. rewrite filter_none; auto.
        intros y Hy. destruct (hit_from L p y) eqn:E; auto. apply hit_from_spec in E as (q & H1 & H2 & H3).
        pose proof (hd_from_none _ _ TG q H1). specialize (FI y Hy). lia. }
    assert (P1 : p <= p1 /\ first <= p1 /\ In p1 (pos_from true 0 L) /\
      forall y, In y (x :: l) -> hit_from L p y = hit_from L p1 y).
    { destruct (N.ltb_spec p first).
      - destruct (hd_from_facts _ _ _ TG) as (H1 & H2 & H3). split; [lia|]. split; [lia|]. split; auto.
        intros y Hy. apply hit_from_ext. intros q Hq Hr. specialize (FI y Hy). specialize (H3 q Hq). lia.
      - injection TG as ->. split; [lia|]. split; auto. }
    destruct P1 as (P1 & P2 & I1 & P3).
    assert (first <=? p1 = true) as -> by lia. cbn [andb].
    rewrite (filter_ext_in _ _ _ P3).
    cbn [length] in Hf. destruct (N.ltb_spec p1 last).
    - assert (HX : hit_from L p1 x = true).
      { apply hit_from_spec. exists p1. rewrite FX. cbn. repeat split; auto; lia. }
      cbn [filter]. rewrite HX. cbn [visit]. destruct (g x); auto.
      destruct (br_select_from_spec true L rng1 p1 last A1) as (rng2 & -> & A2); [lia|].
      rewrite (at_pos_done _ _ _ A2), (at_pos_get _ _ _ A2).
      destruct (hd_error (filter (fun q => last <=? q) (pos_from true 0 L))) as [p2|] eqn:T2.
      + destruct (hd_from_facts _ _ _ T2) as (H1 & H2 & H3).
        cbn [lower_bound]. rewrite FX. cbn [snd]. assert (last <=? p2 = true) as -> by lia.
        rewrite (IH _ _ p2); auto.
        * rewrite filter_lower_bound. cbn [option_map].
          assert (E : filter (hit_from L p2) l = filter (hit_from L p1) l).
          { apply filter_ext_in. intros y Hy. apply hit_from_ext. intros q Hq Hr.
            specialize (FL y Hy). specialize (H3 q Hq). lia. }
          rewrite E. reflexivity.
        * pose proof (lower_bound_length l p2). lia.
        * now apply lower_bound_sorted.
        * now apply lower_bound_Forall.
      + rewrite (filter_none (hit_from L p1) l); auto. intros y Hy.
        destruct (hit_from L p1 y) eqn:E; auto. apply hit_from_spec in E as (q & Q1 & Q2 & Q3).
        pose proof (hd_from_none _ _ T2 q Q1). specialize (FL y Hy). lia.
    - cbn [lower_bound]. rewrite FX. cbn [snd]. assert (last <=? p1 = true) as -> by lia.
      rewrite (IH _ _ p1); auto.
      + rewrite filter_lower_bound. cbn [filter].
        assert (HX : hit_from L p1 x = false).
        { destruct (hit_from L p1 x) eqn:E; auto. apply hit_from_spec in E as (q & Q1 & Q2 & Q3).
          rewrite FX in Q3. cbn in Q3. lia. }
        now rewrite HX.
      + pose proof (lower_bound_length l p1). lia.
      + now apply lower_bound_sorted.
      + now apply lower_bound_Forall.
  Qed.

  Lemma select_with_spec : forall bs l, Forall good bs ->
    StronglySorted before l -> Forall (fun x => fst (f x) < snd (f x)) l ->
    select_with f g bs l = Some (visit (filter (hit_from (flat_map blist bs) 0) l)).
  Proof.
    intros bs l F S V. unfold select_with. destruct (select_init_spec true bs F) as (r & -> & A0).
    set (L := flat_map blist bs) in *. destruct (pos_from true 0 L) as [|p ps] eqn:Q; cbn [hd_error] in A0.
    - rewrite filter_none.
      + destruct l; cbn; auto. now rewrite (at_pos_done _ _ _ A0).
      + intros x _. unfold hit_from. now rewrite Q.
    - rewrite (select_with_loop_spec L _ l r p); auto.
      + do 2 f_equal. apply filter_ext_in. intros y _. apply hit_from_ext. intros q Hq _.
        pose proof (pos_from_sorted true L 0) as SS. rewrite Q in *. inversion SS as [|? ? _ S2]; subst.
        rewrite Forall_forall in S2. destruct Hq as [->|Hq]; [lia|]. specialize (S2 q Hq). lia.
      + rewrite Q. now left.
  Qed.
End SelectWithSpec.
