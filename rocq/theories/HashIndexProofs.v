(** Proofs about the hash index. *)
From Coq Require Import List ZArith NArith Lia Bool Sorted ZifyBool ZifyNat ZifyN.
From Verif Require Import WordProofs BitmapSelectProofs OperatorModel PropsBitmapOps BitmapOps CoderProofs ValueIndexModel ValueIndexProofs HashIndexModel.
Import ListNotations.
Open Scope N_scope.

(** Histories whose appends all succeeded. *)
Lemma run_success : forall {B S V X} (ops : bitmap_ops B) content, bitmap_laws ops content ->
  forall (impl : index_impl B S V X) (I : S -> list (option V) -> Prop),
  (forall s v pos s' vals, i_append impl s v (N.of_nat pos) = Some s' -> I s vals -> (length vals <= pos)%nat ->
     I s' (vals ++ repeat None (pos - length vals) ++ [Some v])) ->
  forall h i0 col i, VInv content I i0 col -> vi_run ops impl i0 h = Some i ->
  exists col', column col h = Some col' /\ VInv content I i col'.
Proof.
  intros B S V X ops content laws impl I A. induction h as [|[x pos] h IH]; intros i0 col i J; cbn [vi_run column].
  - intros E. injection E as <-. eauto.
  - destruct (vi_append ops impl i0 x (N.of_nat pos)) as [i1|] eqn:E1; [|discriminate]. intros R.
    pose proof (append_once ops content laws impl I i0 col x pos J) as Q.
    assert (H : forall v vals, x = Some v -> I (vi_state i0) vals -> (length vals <= pos)%nat ->
      exists s', i_append impl (vi_state i0) v (N.of_nat pos) = Some s' /\ I s' (vals ++ repeat None (pos - length vals) ++ [Some v])).
    { intros v vals -> IV L. unfold vi_append in E1. destruct (N.of_nat pos <? vi_offset ops i0); [discriminate|].
      destruct (i_append impl (vi_state i0) v (N.of_nat pos)) as [s'|] eqn:E2; [|discriminate]. exists s'. split; auto. eapply A; eauto. }
    specialize (Q H). destruct (write col x pos) as [col'|].
    + destruct Q as (i2 & E2 & J2). rewrite E1 in E2. injection E2 as <-. eapply IH; eauto.
    + rewrite E1 in Q. discriminate.
Qed.

(** The values of a list with holes, in order. *)
Definition somes {V} (l : list (option V)) : list V := flat_map (fun o => match o with Some v => [v] | None => [] end) l.

Lemma somes_app : forall {V} (a b : list (option V)), somes (a ++ b) = somes a ++ somes b.
Proof. intros. apply flat_map_app. Qed.
Lemma somes_none : forall {V} n, somes (repeat (@None V) n) = [].
Proof. induction n; auto. Qed.
Lemma in_somes : forall {V} (l : list (option V)) v, In v (somes l) <-> In (Some v) l.
Proof.
  intros V l v. unfold somes. rewrite in_flat_map. split.
  - intros ([w|] & I & H); [|destruct H]. destruct H as [<-|[] ]. auto.
  - intros H. exists (Some v). split; auto. now left.
Qed.

(** The value at position [p] is the one with the number of the earlier ones. *)
Lemma position_of_value : forall {V} (col : list (cell V)) k p v, nth_error col p = Some (Val v) ->
  exists q, nth_error (pos_from true k (map is_val col)) q = Some (k + N.of_nat p) /\ nth_error (somes (map value_of col)) q = Some v.
Proof.
  intros V. induction col as [|c col IH]; intros k p v H; [destruct p; discriminate|].
  cbn [map pos_from somes flat_map]. destruct p as [|p].
  - injection H as ->. exists 0%nat. cbn. split; auto. f_equal. lia.
  - cbn [nth_error] in H. destruct (IH (k + 1) p v H) as (q & E1 & E2).
    destruct c as [| |w]; cbn [is_val value_of Bool.eqb app].
    + exists q. split; auto. rewrite E1. f_equal. lia.
    + exists q. split; auto. rewrite E1. f_equal. lia.
    + exists (S q). cbn [nth_error]. split; auto. rewrite E1. f_equal. lia.
Qed.

Lemma length_positions : forall {V} (col : list (cell V)) k, length (pos_from true k (map is_val col)) = length (somes (map value_of col)).
Proof.
  intros V. induction col as [|c col IH]; intros k; [reflexivity|]. cbn [map pos_from somes flat_map].
  destruct c as [| |w]; cbn [is_val value_of Bool.eqb app length]; [apply IH|apply IH|f_equal; apply IH].
Qed.

Lemma pos_from_good : forall {B} (content : B -> list bool) b l n, good content false b l -> pos_from true n (content b) = pos_from true n l.
Proof.
  intros B content b l n (k & <-). rewrite pos_from_app. rewrite (pos_from_repeat_neg true k). now rewrite app_nil_r.
Qed.

Lemma sorted_nth : forall l, StronglySorted N.lt l -> forall i j x y, (i < j)%nat -> nth_error l i = Some x -> nth_error l j = Some y -> x < y.
Proof.
  induction 1 as [|z l S IH F]; intros i j x y L E1 E2; [destruct i; discriminate|].
  destruct j as [|j]; [lia|]. cbn [nth_error] in E2. destruct i as [|i].
  - injection E1 as ->. rewrite Forall_forall in F. apply F. eapply nth_error_In; eauto.
  - eapply (IH i j); eauto. lia.
Qed.

Lemma NoDup_app_one : forall {A} (l : list A) x, NoDup l -> ~ In x l -> NoDup (l ++ [x]).
Proof.
  intros A l x N I. apply NoDup_rev in N. rewrite <- (rev_involutive (l ++ [x])), rev_app_distr. apply NoDup_rev. cbn [rev app].
  constructor; auto. now rewrite <- in_rev.
Qed.

Lemma skipn_skipn : forall {A} (l : list A) i j, skipn i (skipn j l) = skipn (i + j) l.
Proof.
  induction l as [|y l IH]; intros i [|j]; rewrite ?Nat.add_0_r; rewrite ?skipn_nil; auto.
  rewrite Nat.add_succ_r. cbn [skipn]. apply IH.
Qed.
Lemma Forall2_length : forall {A C} (R : A -> C -> Prop) l m, Forall2 R l m -> length l = length m.
Proof. induction 1; cbn; congruence. Qed.
Lemma Forall2_impl : forall {A C} (R R' : A -> C -> Prop), (forall x y, R x y -> R' x y) -> forall l m, Forall2 R l m -> Forall2 R' l m.
Proof. induction 2; constructor; auto. Qed.
Lemma Forall2_nth : forall {A C} (R : A -> C -> Prop) l m, Forall2 R l m -> forall q y, nth_error m q = Some y ->
  exists x, nth_error l q = Some x /\ R x y.
Proof.
  induction 1 as [|x y l m H F IH]; intros q z E; [destruct q; discriminate|].
  destruct q as [|q]; [injection E as <-; exists x; auto|]. apply IH. exact E.
Qed.

Section Proofs.
  Context {B : Type} (ops : bitmap_ops B) (content : B -> list bool).
  Context (laws : bitmap_laws ops content).
  Context {V D : Type} (eqv : V -> V -> bool) (eqd : D -> D -> bool) (hash : option V -> nat -> D).
  Context (EV : forall x y, eqv x y = true <-> x = y) (ED : forall x y, eqd x y = true <-> x = y).
  Context (ones : B -> list N) (ONES : forall b, ones b = occurrences true (content b)).

  Notation bit := (bit content).
  Notation len := (len content).
  Notation find_seed := (find_seed eqv).

  Lemma seen_spec : forall d l, seen eqd d l = true <-> In d l.
  Proof.
    intros d l. unfold seen. rewrite existsb_exists. split.
    - intros (x & I & E). apply ED in E. now subst.
    - intros H. exists d. split; auto. now apply ED.
  Qed.

  (** Appends: every stored value has a seed, digests with these seeds are
      distinct, and the digests of smaller seeds were taken. *)
  Definition HInv (s : hindex V D) (vals : list (option V)) : Prop :=
    Forall2 (fun d v => exists seed, find_seed v (h_seeds s) = Some seed /\ d = hash (Some v) seed) (h_digests s) (somes vals) /\
    (forall v seed, find_seed v (h_seeds s) = Some seed -> In v (somes vals) /\ forall j, (j <= seed)%nat -> In (hash (Some v) j) (h_unique s)) /\
    (forall v w a b, find_seed v (h_seeds s) = Some a -> find_seed w (h_seeds s) = Some b -> hash (Some v) a = hash (Some w) b -> v = w) /\
    NoDup (map fst (h_seeds s)).

  Lemma HInv_new : HInv h_new [].
  Proof. split; [constructor|]. split; [intros; discriminate|]. split; [intros; discriminate|constructor]. Qed.

  Lemma find_seed_app : forall x l m, find_seed x (l ++ m) = match find_seed x l with Some s => Some s | None => find_seed x m end.
  Proof. induction l as [|[y s] l IH]; intros m; cbn [app HashIndexModel.find_seed]; auto. destruct (eqv y x); auto. Qed.

  Lemma find_seed_add : forall l x s y, find_seed x l = None ->
    find_seed y (l ++ [(x, s)]) = if eqv x y then Some s else find_seed y l.
  Proof.
    intros l x s y H. rewrite find_seed_app. cbn [HashIndexModel.find_seed]. destruct (eqv x y) eqn:E.
    - apply EV in E. subst. now rewrite H.
    - now destruct (find_seed y l).
  Qed.

  Lemma find_seed_in : forall x k l, In (x, k) l -> find_seed x l <> None.
  Proof.
    intros x k. induction l as [|[y s] l IH]; intros H; [destruct H|]. cbn [HashIndexModel.find_seed]. destruct (eqv y x) eqn:Q; [discriminate|].
    destruct H as [H|H]; auto. injection H as -> ->. rewrite (proj2 (EV x x) eq_refl) in Q. discriminate.
  Qed.
  Lemma find_seed_some : forall x k l, find_seed x l = Some k -> In (x, k) l.
  Proof.
    intros x k. induction l as [|[y s] l IH]; cbn [HashIndexModel.find_seed]; [discriminate|]. destruct (eqv y x) eqn:Q.
    - intros E. injection E as ->. apply EV in Q. subst. now left.
    - intros H. right. auto.
  Qed.

  (** A new value, or one that is known. *)
  Lemma make_digest_spec : forall s vals x, HInv s vals -> forall rounds i d s',
    (forall j, (j < i)%nat -> In (hash (Some x) j) (h_unique s)) ->
    make_digest eqv eqd hash rounds i s x = Some (Some (d, s')) ->
    (find_seed x (h_seeds s) = None /\ ~ In d (h_unique s) /\ exists seed, d = hash (Some x) seed /\
       (forall j, (j < seed)%nat -> In (hash (Some x) j) (h_unique s)) /\
       s' = {| h_digests := h_digests s; h_unique := d :: h_unique s; h_seeds := h_seeds s ++ [(x, seed)] |}) \/
    (s' = s /\ exists seed, find_seed x (h_seeds s) = Some seed /\ d = hash (Some x) seed).
  Proof.
    intros s vals x HI. induction rounds as [|r IH]; intros i d s' P; cbn [make_digest]; [discriminate|].
    destruct (seen eqd (hash (Some x) i) (h_unique s)) eqn:SN; cbn [negb].
    - destruct (find_seed x (h_seeds s)) as [seed|] eqn:F.
      + intros E. injection E as <- <-. right. split; auto. exists seed. auto.
      + apply IH. intros j J. destruct (Nat.eq_dec j i) as [->|NE]; [now apply seen_spec|]. apply P. lia.
    - destruct (find_seed x (h_seeds s)) as [seed|] eqn:F; [discriminate|]. intros E. injection E as <- <-. left.
      split; auto. split. { intros I. apply seen_spec in I. congruence. }
      exists i. auto.
  Qed.

  Lemma HInv_append : forall s v pos s' vals, h_append eqv eqd hash s v (N.of_nat pos) = Some s' -> HInv s vals -> (length vals <= pos)%nat ->
    HInv s' (vals ++ repeat None (pos - length vals) ++ [Some v]).
  Proof.
    intros s v pos s' vals E HI _. unfold h_append in E. destruct (h_immutable s); [discriminate|].
    destruct (make_digest eqv eqd hash max_hash_rounds 0 s v) as [[[d s1]|]|] eqn:M; try discriminate. injection E as <-.
    assert (SM : somes (vals ++ repeat None (pos - length vals) ++ [Some v]) = somes vals ++ [v]).
    { rewrite !somes_app, somes_none. reflexivity. }
    destruct HI as (F2 & KN & INJ & ND).
    assert (HI : HInv s vals) by (unfold HInv; auto).
    destruct (make_digest_spec s vals v HI max_hash_rounds 0 d s1 ltac:(intros j J; lia) M) as [(NF & NU & seed & -> & LOW & ->)|(-> & seed & FS & ->)];
      unfold HInv; cbn [h_digests h_unique h_seeds]; rewrite SM.
    - assert (OTHER : forall w k, find_seed w (h_seeds s) = Some k -> eqv v w = false).
      { intros w k H. destruct (eqv v w) eqn:Q; auto. apply EV in Q. subst. congruence. }
      split; [|split; [|split] ].
      + apply Forall2_app.
        * eapply Forall2_impl; [|exact F2]. intros d w (k & Hk & ->). exists k. split; auto.
          rewrite find_seed_add by auto. now rewrite (OTHER w k Hk).
        * constructor; [|constructor]. exists seed. split; auto. rewrite find_seed_add by auto. now rewrite (proj2 (EV v v) eq_refl).
      + intros w k H. rewrite find_seed_add in H by auto. destruct (eqv v w) eqn:Q.
        * apply EV in Q. subst w. injection H as <-. split; [apply in_app_iff; right; now left|]. intros j J.
          destruct (Nat.eq_dec j seed) as [->|NE]; [now left|]. right. apply LOW. lia.
        * destruct (KN w k H) as [K1 K2]. split; [apply in_app_iff; now left|]. intros j J. right. auto.
      + intros w1 w2 a b H1 H2 EQ. rewrite find_seed_add in H1, H2 by auto.
        destruct (eqv v w1) eqn:Q1, (eqv v w2) eqn:Q2.
        * apply EV in Q1, Q2. congruence.
        * injection H1 as <-. apply EV in Q1. subst w1. exfalso. apply NU. rewrite EQ. now apply (KN w2 b H2).
        * injection H2 as <-. apply EV in Q2. subst w2. exfalso. apply NU. rewrite <- EQ. now apply (KN w1 a H1).
        * eapply INJ; eauto.
      + rewrite map_app. cbn [map fst]. apply NoDup_app_one; auto. intros I. apply in_map_iff in I as ([y k] & Q & I). cbn [fst] in Q. subst y.
        now apply (find_seed_in v k) in I.
    - split; [|split; [|split] ].
      + apply Forall2_app; auto. constructor; [|constructor]. eauto.
      + intros w k H. destruct (KN w k H). split; auto. apply in_app_iff. now left.
      + exact INJ.
      + exact ND.
  Qed.

  (** The scan. *)
  Lemma scan_loop_spec : forall pred P (DS : list D) off, StronglySorted N.lt P -> length P = length DS -> (forall p, In p P -> p < N.of_nat off) ->
    forall ds i last result,
    skipn i DS = ds -> (last <= i)%nat ->
    (forall q p d, (q < i)%nat -> nth_error P q = Some p -> nth_error DS q = Some d -> bit result (N.to_nat p) = pred d) ->
    (forall q p, (i <= q)%nat -> nth_error P q = Some p -> (len result <= N.to_nat p)%nat) -> (len result <= off)%nat ->
    exists r, scan_loop ops pred ds i last (skipn last P) result = Some r /\ (len r <= off)%nat /\
      forall q p d, nth_error P q = Some p -> nth_error DS q = Some d -> bit r (N.to_nat p) = pred d.
  Proof.
    intros pred P DS off SP LP PO. induction ds as [|d ds IH]; intros i last result E L DONE REST LR; cbn [scan_loop].
    - exists result. split; auto. split; auto. intros q p d Hp Hd. apply (DONE q p d); auto.
      assert (q < length DS)%nat by (apply nth_error_Some; congruence).
      assert (length (skipn i DS) = 0)%nat by now rewrite E. rewrite skipn_length in H0. lia.
    - assert (LI : (i < length DS)%nat) by (assert (Q : length (skipn i DS) = S (length ds)) by (now rewrite E); rewrite skipn_length in Q; lia).
      assert (ND : nth_error DS i = Some d).
      { rewrite <- (firstn_skipn i DS), E, nth_error_app2; rewrite firstn_length; [|lia]. replace (i - Nat.min i (length DS))%nat with 0%nat by lia. reflexivity. }
      assert (ES : skipn (S i) DS = ds).
      { replace (S i) with (1 + i)%nat by lia. rewrite <- skipn_skipn, E. reflexivity. }
      assert (SK : skipn (i - last) (skipn last P) = skipn i P) by (rewrite skipn_skipn; f_equal; lia).
      destruct (nth_error P i) as [p|] eqn:NP; [|apply nth_error_None in NP; lia].
      assert (SH : skipn i P = p :: skipn (S i) P).
      { clear -NP. revert i NP. induction P as [|y P IHP]; intros [|i] NP; cbn in *; try discriminate; [now injection NP as ->|]. now apply IHP. }
      destruct (pred d) eqn:PD.
      + rewrite SK. destruct (skipn i P) as [|p0 rest] eqn:SHP; [discriminate SH|].
        assert (p0 = p) by congruence. subst p0. rewrite <- SHP.
        set (r2 := b_app ops (b_app ops result false (p - b_size ops result)) true 1).
        assert (LP1 : (len result <= N.to_nat p)%nat) by (apply (REST i p); auto).
        assert (L2 : len r2 = S (N.to_nat p)).
        { subst r2. rewrite !(len_app _ _ laws), (size_len _ _ laws). lia. }
        apply IH; auto.
        * intros q p' d' Q Hp Hd. subst r2. rewrite !(bit_app _ _ laws), !(len_app _ _ laws), (size_len _ _ laws).
          destruct (Nat.eq_dec q i) as [->|NE].
          -- assert (p' = p) by congruence. assert (d' = d) by congruence. subst.
             replace (N.to_nat p <? len result + N.to_nat (p - N.of_nat (len result)))%nat with false by lia.
             rewrite PD, andb_true_r. lia.
          -- assert (p' < p) by (eapply (sorted_nth P SP q i); eauto; lia).
             replace (N.to_nat p' <? len result + N.to_nat (p - N.of_nat (len result)))%nat with true by lia.
             rewrite andb_false_r.
             pose proof (DONE q p' d' ltac:(lia) Hp Hd) as DQ.
             destruct (Nat.ltb_spec (N.to_nat p') (len result)) as [QQ|QQ]; [exact DQ|].
             rewrite <- DQ. unfold BitmapOps.bit, BitmapOps.len in *. now rewrite nth_overflow.
        * intros q p' Q Hp. assert (p < p') by (eapply (sorted_nth P SP i q); eauto; lia). lia.
        * rewrite L2. assert (p < N.of_nat off) by (apply PO; eapply nth_error_In; eauto). lia.
      + apply IH; auto.
        * intros q p' d' Q Hp Hd. destruct (Nat.eq_dec q i) as [->|NE]; [|apply (DONE q p' d'); auto; lia].
          assert (p' = p) by congruence. assert (d' = d) by congruence. subst. rewrite PD.
          pose proof (REST i p (le_n _) NP). unfold BitmapOps.bit, BitmapOps.len in *. now rewrite nth_overflow.
        * intros q p' Q Hp. apply (REST q p'); auto. lia.
  Qed.

  Lemma mask_positions : forall i (col : list (cell V)), VInv content HInv i col -> ones (vi_mask i) = pos_from true 0 (map is_val col).
  Proof. intros i col J. rewrite ONES, <- occurrences_pos. apply pos_from_good. apply J. Qed.

  Lemma scan_spec : forall i (col : list (cell V)) pred, VInv content HInv i col ->
    exists r, scan ops ones (vi_mask i) (vi_state i) pred = Some r /\ (len r <= length col)%nat /\
      forall p v, nth_error col p = Some (Val v) -> exists seed, find_seed v (h_seeds (vi_state i)) = Some seed /\ bit r p = pred (hash (Some v) seed).
  Proof.
    intros i col pred J. pose proof (mask_positions i col J) as MP. destruct J as (GM & GN & M & vals & j & (F2 & KN & INJ & ND) & EVL).
    assert (SV : somes vals = somes (map value_of col)) by (now rewrite <- EVL, somes_app, somes_none, app_nil_r).
    assert (LD : length (ones (vi_mask i)) = length (h_digests (vi_state i))).
    { rewrite MP, length_positions, <- SV. symmetry. eapply Forall2_length; eauto. }
    assert (PO : forall p, In p (ones (vi_mask i)) -> p < N.of_nat (length col)).
    { intros p I. rewrite MP in I. apply in_pos_from in I. rewrite map_length in I. lia. }
    assert (LE : len (b_empty ops) = 0%nat).
    { unfold BitmapOps.len. assert (Q : content (b_empty ops) = []) by apply (law_empty _ _ laws). now rewrite Q. }
    assert (SP : StronglySorted N.lt (ones (vi_mask i))) by (rewrite MP; apply pos_from_sorted).
    destruct (scan_loop_spec pred (ones (vi_mask i)) (h_digests (vi_state i)) (length col) SP LD PO (h_digests (vi_state i)) 0 0 (b_empty ops))
      as (r & E & L & H); auto; try lia.
    unfold scan. exists (match ones (vi_mask i) with [] => b_empty ops | _ => r end). split.
    { destruct (ones (vi_mask i)); auto. }
    split. { destruct (ones (vi_mask i)); auto. lia. }
    intros p v Hv. destruct (position_of_value col 0 p v Hv) as (q & E1 & E2). rewrite <- MP in E1. rewrite <- SV in E2.
    destruct (Forall2_nth _ _ _ F2 q v E2) as (d & Hd & seed & FS & ->). exists seed. split; auto.
    rewrite <- (H q _ _ E1 Hd). replace (N.to_nat (0 + N.of_nat p)) with p by lia.
    destruct (ones (vi_mask i)); [destruct q; discriminate|]. reflexivity.
  Qed.

  (** What the digest of an operand says about a stored value. *)
  Definition digest_matches (s : hindex V D) (x : option V) (v : V) : bool :=
    match find_seed v (h_seeds s) with Some seed => eqd (find_digest eqv hash s x) (hash (Some v) seed) | None => false end.

  Definition hash_truth (s : hindex V D) (op : relop) (x : hash_operand V) (v : V) : bool :=
    match op, x with
    | op_eq, HScalar x => digest_matches s (Some x) v
    | op_ne, HScalar x => negb (digest_matches s (Some x) v)
    | op_in, HList xs => existsb (fun x => digest_matches s x v) xs
    | op_not_in, HList xs => negb (existsb (fun x => digest_matches s x v) xs)
    | _, _ => false
    end.
  Definition hash_op (op : relop) (x : hash_operand V) : Prop :=
    match op, x with op_eq, HScalar _ | op_ne, HScalar _ | op_in, HList _ | op_not_in, HList _ => True | _, _ => False end.

  Lemma hash_lookup_spec : forall i (col : list (cell V)) op x, VInv content HInv i col -> hash_op op x ->
    exists r, hash_lookup ops eqv eqd hash ones i op x = Some r /\ content r = map (cell_result op (hash_truth (vi_state i) op x)) col.
  Proof.
    intros i col op x J O.
    assert (LD : length (ones (vi_mask i)) = length (h_digests (vi_state i))).
    { rewrite (mask_positions i col J), length_positions. destruct J as (_ & _ & _ & vals & j & (F2 & _) & EVL).
      rewrite <- EVL, somes_app, somes_none, app_nil_r. symmetry. eapply Forall2_length; eauto. }
    assert (G : forall pred, (forall v seed, find_seed v (h_seeds (vi_state i)) = Some seed -> pred (hash (Some v) seed) = hash_truth (vi_state i) op x v) ->
      exists r, option_map (vi_finish ops i op) (scan ops ones (vi_mask i) (vi_state i) pred) = Some r /\
      content r = map (cell_result op (hash_truth (vi_state i) op x)) col).
    { intros pred HP. destruct (scan_spec i col pred J) as (r & -> & L & H). eexists. split; [reflexivity|].
      eapply finish_spec; eauto. intros p v Hv. destruct (H p v Hv) as (seed & FS & ->). now apply HP. }
    unfold hash_lookup, h_lookup. rewrite LD, Nat.eqb_refl. cbn [negb].
    destruct op, x; try contradiction; apply G; intros v seed FS; cbn [hash_truth]; unfold digest_matches; rewrite ?FS; auto.
    - clear O G. induction xs as [|y ys IH]; cbn [map existsb]; auto. now rewrite IH.
    - clear O G. f_equal. induction xs as [|y ys IH]; cbn [map existsb]; auto. now rewrite IH.
  Qed.

  Lemma digest_same : forall i (col : list (cell V)) v, VInv content HInv i col -> In (Val v) col -> digest_matches (vi_state i) (Some v) v = true.
  Proof.
    intros i col v J I. destruct J as (_ & _ & _ & vals & j & (F2 & KN & INJ & ND) & EVL).
    assert (IV : In v (somes vals)).
    { apply in_somes. apply (in_map value_of) in I. cbn [value_of] in I. rewrite <- EVL in I. apply in_app_iff in I as [I|I]; auto.
      apply repeat_spec in I. discriminate. }
    apply In_nth_error in IV as (q & E). destruct (Forall2_nth _ _ _ F2 q v E) as (d & _ & seed & FS & _).
    unfold digest_matches, find_digest. rewrite FS. now apply ED.
  Qed.

  Lemma digest_other : forall i (col : list (cell V)) x v, VInv content HInv i col -> In (Val x) col -> x <> v ->
    digest_matches (vi_state i) (Some x) v = false.
  Proof.
    intros i col x v J I NE. pose proof (digest_same i col x J I) as SX. destruct J as (_ & _ & _ & vals & j & (F2 & KN & INJ & ND) & EVL).
    unfold digest_matches, find_digest in *. destruct (find_seed x (h_seeds (vi_state i))) as [a|] eqn:FX; [|discriminate].
    destruct (find_seed v (h_seeds (vi_state i))) as [b|] eqn:FV; auto. destruct (eqd (hash (Some x) a) (hash (Some v) b)) eqn:Q; auto.
    apply ED in Q. exfalso. apply NE. eapply INJ; eauto.
  Qed.

  (** Without a collision an absent value (or nil) matches nothing. *)
  Lemma digest_absent : forall i (col : list (cell V)) x v, VInv content HInv i col -> (forall w, x = Some w -> ~ In (Val w) col) ->
    (forall j, hash x 0 <> hash (Some v) j) -> digest_matches (vi_state i) x v = false.
  Proof.
    intros i col x v J NI NC. destruct J as (_ & _ & _ & vals & j & (F2 & KN & INJ & ND) & EVL). unfold digest_matches.
    assert (FD : find_digest eqv hash (vi_state i) x = hash x 0).
    { unfold find_digest. destruct x as [w|]; auto. destruct (find_seed w (h_seeds (vi_state i))) as [a|] eqn:FX; auto.
      exfalso. apply (NI w eq_refl). destruct (KN w a FX) as [K _]. apply in_somes in K.
      assert (In (Some w) (map value_of col)) by (rewrite <- EVL; apply in_app_iff; now left).
      apply in_map_iff in H as ([| |u] & E & H); try discriminate. injection E as ->. auto. }
    rewrite FD. destruct (find_seed v (h_seeds (vi_state i))) as [b|]; auto.
    destruct (eqd (hash x 0) (hash (Some v) b)) eqn:Q; auto. apply ED in Q. exfalso. eapply NC; eauto.
  Qed.

  (** Lookups after storing and loading the index. *)
  Lemma find_seed_filter : forall x l, NoDup (map fst l) ->
    match find_seed x l with
    | Some (S k) => find_seed x (filter (fun p => Nat.ltb 0 (snd p)) l) = Some (S k)
    | _ => find_seed x (filter (fun p => Nat.ltb 0 (snd p)) l) = None
    end.
  Proof.
    intros x. induction l as [|[y s] l IH]; intros N; [reflexivity|]. cbn [HashIndexModel.find_seed filter snd map fst] in *.
    inversion N as [|? ? N1 N2]; subst. specialize (IH N2). destruct (eqv y x) eqn:Q.
    - apply EV in Q. subst y. destruct s as [|s]; cbn [Nat.ltb Nat.leb].
      + destruct (find_seed x l) as [k|] eqn:F; [|exact IH]. exfalso. apply N1. apply find_seed_some in F.
        apply (in_map fst) in F. exact F.
      + cbn [HashIndexModel.find_seed]. now rewrite (proj2 (EV x x) eq_refl).
    - destruct (Nat.ltb 0 s); cbn [HashIndexModel.find_seed]; rewrite ?Q; auto.
  Qed.

  Lemma reload_digest : forall s vals x, HInv s vals -> find_digest eqv hash (h_reload s) x = find_digest eqv hash s x.
  Proof.
    intros s vals [v|] (_ & _ & _ & ND); [|reflexivity]. unfold find_digest, h_reload. cbn [h_seeds].
    pose proof (find_seed_filter v (h_seeds s) ND) as F. destruct (find_seed v (h_seeds s)) as [[|k]|]; now rewrite F.
  Qed.
End Proofs.
