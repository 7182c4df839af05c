(** Proofs about the bitmap coders. *)
From Coq Require Import List ZArith NArith Lia Bool ZifyBool ZifyNat ZifyN.
From Verif Require Import NBits WordProofs EwahProofs OperatorModel PropsBitmapOps BitmapOps CoderModel.
Import ListNotations.
Open Scope N_scope.

(** * List helpers *)

Lemma nth_error_update : forall {A} (f : A -> A) l i j,
  nth_error (update i f l) j = if Nat.eqb i j then option_map f (nth_error l j) else nth_error l j.
Proof.
  induction l as [|x l IH]; intros i j.
  - destruct i, j; cbn; try reflexivity. now destruct (Nat.eqb i j).
  - destruct i, j; cbn [update nth_error Nat.eqb]; auto.
Qed.

Lemma update_length : forall {A} (f : A -> A) l i, length (update i f l) = length l.
Proof. induction l as [|x l IH]; intros [|i]; cbn; auto. Qed.

Lemma nth_error_mapi : forall {A C} (f : nat -> A -> C) l i j,
  nth_error (mapi i f l) j = option_map (f (i + j)%nat) (nth_error l j).
Proof.
  induction l as [|x l IH]; intros i j.
  - destruct j; reflexivity.
  - destruct j; cbn [mapi nth_error option_map]; [now rewrite Nat.add_0_r|].
    rewrite IH. now replace (S i + j)%nat with (i + S j)%nat by lia.
Qed.

Lemma mapi_length : forall {A C} (f : nat -> A -> C) l i, length (mapi i f l) = length l.
Proof. induction l as [|x l IH]; intros i; cbn; auto. Qed.

Lemma nth_error_zip : forall {A C D} (f : A -> C -> D) xs ys j, length xs = length ys ->
  nth_error (zip_with f xs ys) j =
  match nth_error xs j, nth_error ys j with Some x, Some y => Some (f x y) | _, _ => None end.
Proof.
  induction xs as [|x xs IH]; intros [|y ys] j L; try discriminate.
  - destruct j; reflexivity.
  - destruct j; cbn [zip_with nth_error]; auto.
Qed.

Lemma zip_length : forall {A C D} (f : A -> C -> D) xs ys, length xs = length ys ->
  length (zip_with f xs ys) = length xs.
Proof. induction xs as [|x xs IH]; intros [|y ys] L; try discriminate; cbn; auto. Qed.

Lemma map_repeat : forall {A C} (f : A -> C) x n, map f (repeat x n) = repeat (f x) n.
Proof. induction n; cbn; congruence. Qed.

Lemma nth_map_default : forall {A C} (f : A -> C) l p d e, (p < length l)%nat ->
  nth p (map f l) d = f (nth p l e).
Proof. intros. rewrite (nth_indep _ _ (f e)) by now rewrite map_length. apply map_nth. Qed.

Section Proofs.
  Context {B : Type} (ops : bitmap_ops B) (content : B -> list bool).
  Context (laws : bitmap_laws ops content).

  Notation bit := (bit content).
  Notation len := (len content).

  (** A stored bitmap is the wanted column up to trailing default bits. *)
  Definition good (d : bool) (bm : B) (l : list bool) : Prop := exists k, content bm ++ repeat d k = l.

  Lemma good_fill : forall d bm l n, good d bm l -> n = N.of_nat (length l) ->
    content (fill ops d n bm) = l.
  Proof.
    intros d bm l n (k & H) E. unfold fill. rewrite (law_app _ _ laws), (law_size _ _ laws), <- H.
    do 2 f_equal. subst n. rewrite <- H, app_length, repeat_length. lia.
  Qed.

  Lemma good_full : forall d bm l, content bm = l -> good d bm l.
  Proof. intros d bm l H. exists 0%nat. cbn. now rewrite app_nil_r. Qed.

  Lemma good_ext : forall d bm l n, good d bm l -> good d bm (l ++ repeat d n).
  Proof.
    intros d bm l n (k & H). exists (k + n)%nat. now rewrite <- H, repeat_app, app_assoc.
  Qed.

  Lemma good_len : forall d bm l, good d bm l -> (len bm <= length l)%nat.
  Proof. intros d bm l (k & <-). rewrite app_length. unfold BitmapOps.len. lia. Qed.

  Lemma good_bit_false : forall bm l p, good false bm l -> bit bm p = nth p l false.
  Proof.
    intros bm l p (k & <-). unfold BitmapOps.bit.
    destruct (Nat.lt_ge_cases p (length (content bm))) as [H|H].
    - now rewrite app_nth1.
    - rewrite nth_overflow by lia. rewrite app_nth2 by lia.
      now rewrite nth_repeat.
  Qed.

  Lemma good_bit_lt : forall d bm l p, good d bm l -> (p < len bm)%nat -> bit bm p = nth p l false.
  Proof. intros d bm l p (k & <-) H. unfold BitmapOps.bit, BitmapOps.len in *. now rewrite app_nth1. Qed.

  Lemma len_fill : forall d n bm, (len bm <= n)%nat -> len (fill ops d (N.of_nat n) bm) = n.
  Proof.
    intros d n bm H. unfold fill. rewrite (len_app _ _ laws), (size_len _ _ laws). lia.
  Qed.

  Lemma bit_fill_false : forall n bm p, bit (fill ops false n bm) p = bit bm p.
  Proof.
    intros n bm p. unfold fill. rewrite (bit_app _ _ laws), andb_false_r.
    destruct (Nat.ltb_spec p (len bm)) as [H|H]; auto.
    unfold BitmapOps.bit, BitmapOps.len in *. now rewrite nth_overflow.
  Qed.

  (** * Vector coders *)

  Section Vector.
    Context {V : Type}.
    Variable (d : bool) (k : nat) (col : nat -> option V -> bool).

    Definition Inv (c : vcoder B) (rows : list (option V)) : Prop :=
      vsize c = N.of_nat (length rows) /\ length (vmaps c) = k /\
      forall i bm, nth_error (vmaps c) i = Some bm -> good d bm (map (col i) rows).

    Lemma Inv_new : Inv (vnew ops (N.of_nat k)) [].
    Proof.
      unfold vnew. split; [reflexivity|]. cbn [vmaps]. rewrite repeat_length. split; [lia|].
      intros i bm H. apply nth_error_In, repeat_spec in H. subst bm. apply good_full. apply (law_empty _ _ laws).
    Qed.

    Lemma Inv_fill : forall c rows i bm, Inv c rows -> nth_error (vmaps c) i = Some bm ->
      content (fill ops d (vsize c) bm) = map (col i) rows.
    Proof.
      intros c rows i bm (S & _ & G) H. apply good_fill; auto. now rewrite map_length.
    Qed.

    Lemma Inv_touch : forall c rows i, Inv c rows -> Inv (touch ops d c i) rows.
    Proof.
      intros c rows i I. pose proof I as (S & L & G). unfold touch. split; [exact S|].
      cbn [vmaps]. rewrite update_length. split; [exact L|].
      intros j bm H. rewrite nth_error_update in H. destruct (Nat.eqb_spec (N.to_nat i) j) as [E|E]; auto.
      destruct (nth_error (vmaps c) j) as [b|] eqn:N; [|discriminate]. injection H as <-.
      apply good_full. now apply Inv_fill.
    Qed.

    Lemma Inv_skip : forall c rows n, (forall i, col i None = d) -> Inv c rows -> Inv (vskip c n) (rows ++ repeat None (N.to_nat n)).
    Proof.
      intros c rows n col_none (S & L & G). unfold vskip. split; [|split]; cbn [vmaps vsize]; auto.
      - rewrite app_length, repeat_length. lia.
      - intros i bm H. rewrite map_app, map_repeat, col_none. apply good_ext. auto.
    Qed.

    Lemma Inv_append : forall c rows o rows', Inv c rows -> Inv o rows' ->
      exists c', vappend ops d c o = Some c' /\ Inv c' (rows ++ rows').
    Proof.
      intros c rows o rows' I (S' & L' & G'). pose proof I as (S & L & G). unfold vappend.
      rewrite L, L', Nat.eqb_refl. eexists. split; [reflexivity|]. split; [|split]; cbn [vsize vmaps].
      - rewrite app_length. lia.
      - rewrite zip_length; congruence.
      - intros i bm H. rewrite nth_error_zip in H by congruence.
        destruct (nth_error (vmaps c) i) as [a|] eqn:Ea; [|discriminate].
        destruct (nth_error (vmaps o) i) as [b|] eqn:Eb; [|discriminate]. injection H as <-.
        destruct (G' i b Eb) as (j & Q). exists j.
        rewrite (law_append _ _ laws), (Inv_fill c rows i a I Ea), <- app_assoc, Q. now rewrite map_app.
    Qed.

    (** Extending every touched bitmap, leaving the others. *)
    Lemma Inv_extend : forall c rows v n (touched : nat -> bool) (ms : list B),
      Inv c rows -> length ms = k ->
      (forall i bm, nth_error (vmaps c) i = Some bm ->
         nth_error ms i = Some (if touched i then b_app ops (fill ops d (vsize c) bm) (col i (Some v)) n else bm)) ->
      (forall i, (i < k)%nat -> touched i = false -> col i (Some v) = d) ->
      Inv {| vsize := vsize c + n; vmaps := ms |} (rows ++ repeat (Some v) (N.to_nat n)).
    Proof.
      intros c rows v n touched ms I L' M T. pose proof I as (S & L & G). split; [|split]; cbn [vsize vmaps]; auto.
      - rewrite app_length, repeat_length. lia.
      - intros i bm H. assert (Hi : (i < k)%nat).
        { rewrite <- L'. apply nth_error_Some. congruence. }
        destruct (nth_error (vmaps c) i) as [b|] eqn:E.
        2:{ apply nth_error_None in E. lia. }
        rewrite (M i b E) in H. injection H as <-. rewrite map_app, map_repeat.
        destruct (touched i) eqn:Q.
        + apply good_full. rewrite (law_app _ _ laws). f_equal. now apply Inv_fill.
        + rewrite T by auto. apply good_ext. auto.
    Qed.

    Lemma Inv_lazy : forall c rows i, Inv c rows -> (N.to_nat i < k)%nat ->
      exists bm, lazy_at ops d c i = Some bm /\ content bm = map (col (N.to_nat i)) rows.
    Proof.
      intros c rows i I H. pose proof I as (S & L & G). unfold lazy_at.
      destruct (nth_error (vmaps c) (N.to_nat i)) as [b|] eqn:E.
      - eexists. split; [reflexivity|]. now apply Inv_fill.
      - apply nth_error_None in E. lia.
    Qed.
  End Vector.

  (** * Equality coder *)

  Definition eq_col (i : nat) (r : option N) : bool :=
    match r with Some v => v =? N.of_nat i | None => false end.

  Lemma eq_encode_inv : forall k c rows x n, Inv false k eq_col c rows -> x < N.of_nat k ->
    exists c', eq_encode ops c x n = Some c' /\ Inv false k eq_col c' (rows ++ repeat (Some x) (N.to_nat n)).
  Proof.
    intros k c rows x n I H. pose proof I as (S & L & G). unfold eq_encode, vcount. rewrite L.
    replace (x <? N.of_nat k) with true by lia. eexists. split; [reflexivity|].
    apply (Inv_extend false k eq_col c rows x n (fun i => Nat.eqb (N.to_nat x) i)); auto.
    - now rewrite update_length.
    - intros i bm E. rewrite nth_error_update, E. cbn [option_map eq_col].
      destruct (Nat.eqb_spec (N.to_nat x) i) as [Q|Q]; auto.
      replace (x =? N.of_nat i) with true by lia. reflexivity.
    - intros i Hi Q. unfold eq_col. lia.
  Qed.

  Lemma existsb_firstn : forall {A} (f : A -> bool) l n,
    existsb f (firstn n l) = true <-> exists i x, (i < n)%nat /\ nth_error l i = Some x /\ f x = true.
  Proof.
    intros A f. induction l as [|x l IH]; intros n.
    - rewrite firstn_nil. split; [discriminate|]. intros ([|i] & y & _ & E & _); discriminate.
    - destruct n as [|n]; cbn [firstn existsb].
      + split; [discriminate|]. intros (i & y & H & _). lia.
      + rewrite orb_true_iff, IH. split.
        * intros [H|(i & y & H1 & H2 & H3)]; [exists 0%nat, x; repeat split; auto; lia|].
          exists (S i), y. repeat split; auto. lia.
        * intros ([|i] & y & H1 & H2 & H3); [left; now injection H2 as ->|].
          right. exists i, y. repeat split; auto. lia.
  Qed.

  Lemma existsb_skipn : forall {A} (f : A -> bool) l n,
    existsb f (skipn n l) = true <-> exists i x, (n <= i)%nat /\ nth_error l i = Some x /\ f x = true.
  Proof.
    intros A f. induction l as [|x l IH]; intros n.
    - rewrite skipn_nil. split; [discriminate|]. intros ([|i] & y & _ & E & _); discriminate.
    - destruct n as [|n]; cbn [skipn].
      + rewrite existsb_exists. split.
        * intros (y & H & F). apply In_nth_error in H as (i & H). exists i, y. repeat split; auto. lia.
        * intros (i & y & _ & H & F). exists y. split; auto. now apply nth_error_In in H.
      + rewrite IH. split.
        * intros (i & y & H1 & H2 & H3). exists (S i), y. repeat split; auto. lia.
        * intros ([|i] & y & H1 & H2 & H3); [lia|]. exists i, y. repeat split; auto. lia.
  Qed.

  Lemma eq_bit : forall k c rows i bm p, Inv false k eq_col c rows -> nth_error (vmaps c) i = Some bm ->
    bit bm p = eq_col i (nth p rows None).
  Proof.
    intros k c rows i bm p (S & L & G) E. rewrite (good_bit_false bm _ p (G i bm E)).
    destruct (Nat.lt_ge_cases p (length rows)) as [H|H].
    - now apply nth_map_default.
    - rewrite !nth_overflow by (try rewrite map_length; lia). reflexivity.
  Qed.

  (** Disjunction over a sub-range of the bitmaps. *)
  Lemma eq_disj : forall k c rows (sub : list B) (test : N -> bool), Inv false k eq_col c rows ->
    (forall f : B -> bool, existsb f sub = true <->
       exists i x, test (N.of_nat i) = true /\ nth_error (vmaps c) i = Some x /\ f x = true) ->
    (forall r v, In r rows -> r = Some v -> v < N.of_nat k) ->
    content (fill ops false (vsize c) (b_nary_or ops sub)) =
    map (fun r => match r with Some v => test v | None => false end) rows.
  Proof.
    intros k c rows sub test I X V. pose proof I as (S & L & G).
    assert (LEN : (len (b_nary_or ops sub) <= length rows)%nat).
    { rewrite (len_nary_or _ _ laws). apply max_length_le. intros l Hl. apply in_map_iff in Hl as (b & <- & Hb).
      assert (Q : existsb (fun x => (length (content x) =? length (content b))%nat) sub = true).
      { apply existsb_exists. exists b. split; auto. apply Nat.eqb_refl. }
      apply X in Q as (i & x & _ & E & Q). apply Nat.eqb_eq in Q.
      pose proof (good_len _ _ _ (G i x E)) as LL. rewrite map_length in LL. unfold BitmapOps.len in LL. lia. }
    apply content_ext.
    - rewrite map_length, S. now apply len_fill.
    - intros p Hp. rewrite map_length in Hp. rewrite bit_fill_false, (bit_nary_or _ _ laws).
      rewrite (nth_map_default _ _ _ _ None) by auto.
      pose proof (nth_In rows None Hp) as IN. apply eq_true_iff_eq. rewrite X. split.
      + intros (i & x & T & E & Bt). rewrite (eq_bit k c rows i x p I E) in Bt.
        destruct (nth p rows None) as [v|]; [|discriminate]. cbn in Bt. now replace v with (N.of_nat i) by lia.
      + destruct (nth p rows None) as [v|] eqn:R; [|discriminate]. intros T.
        assert (Hv : v < N.of_nat k) by (eapply V; eauto).
        destruct (nth_error (vmaps c) (N.to_nat v)) as [x|] eqn:E.
        2:{ apply nth_error_None in E. lia. }
        exists (N.to_nat v), x. rewrite N2Nat.id. repeat split; auto.
        rewrite (eq_bit k c rows _ x p I E), R. unfold eq_col. lia.
  Qed.

  (** The six comparison operators. *)
  Definition compare_op (op : relop) (v x : N) : bool :=
    match op with
    | op_eq => v =? x
    | op_ne => negb (v =? x)
    | op_lt => v <? x
    | op_le => v <=? x
    | op_gt => x <? v
    | op_ge => x <=? v
    | _ => false
    end.
  Definition comparison (op : relop) : Prop :=
    match op with op_eq | op_ne | op_lt | op_le | op_gt | op_ge => True | _ => False end.

  Lemma eq_decode_spec : forall k c rows op x, Inv false k eq_col c rows ->
    (forall r v, In r rows -> r = Some v -> v < N.of_nat k) ->
    comparison op -> x < N.of_nat k ->
    exists r, eq_decode ops c op x = Some r /\
      content r = map (fun r => match r with Some v => compare_op op v x | None => relop_eqb op op_ne end) rows.
  Proof.
    intros k c rows op x I V CO X. pose proof I as (S & L & G). unfold eq_decode, vcount. rewrite L.
    replace (x <? N.of_nat k) with true by lia.
    destruct (Inv_lazy false k eq_col c rows x I ltac:(lia)) as (bm & E & C).
    assert (NEW : content (b_new ops (vsize c) false) = map (fun _ => false) rows).
    { rewrite (content_new _ _ laws), S, Nat2N.id. clear. induction rows; cbn; congruence. }
    destruct op; try contradiction; cbn [compare_op relop_eqb].
    - exists bm. split; auto. rewrite C. apply map_ext. intros [v|]; auto. cbn. now rewrite N2Nat.id.
    - rewrite E. eexists. split; [reflexivity|]. rewrite (law_not _ _ laws), C, map_map.
      apply map_ext. intros [v|]; auto. cbn. now rewrite N2Nat.id.
    - destruct (N.eqb_spec x 0) as [->|NZ].
      + eexists. split; [reflexivity|]. rewrite NEW. apply map_ext. intros [v|]; lia.
      + eexists. split; [reflexivity|]. apply (eq_disj k); auto.
        intros f. rewrite existsb_firstn. split; intros (i & y & H & ?); exists i, y; intuition lia.
    - eexists. split; [reflexivity|]. apply (eq_disj k); auto.
      intros f. rewrite existsb_firstn. split; intros (i & y & H & ?); exists i, y; intuition lia.
    - destruct (N.leb_spec (N.of_nat k - 1) x) as [H|H].
      + eexists. split; [reflexivity|]. rewrite NEW. apply map_ext_in. intros [v|] Hr; auto.
        pose proof (V _ _ Hr eq_refl). lia.
      + eexists. split; [reflexivity|]. apply (eq_disj k); auto.
        intros f. rewrite existsb_skipn. split; intros (i & y & Q & ?); exists i, y; intuition lia.
    - eexists. split; [reflexivity|]. apply (eq_disj k); auto.
      intros f. rewrite existsb_skipn. split; intros (i & y & Q & ?); exists i, y; intuition lia.
  Qed.

  (** * Range coder *)

  Definition range_col (i : nat) (r : option N) : bool :=
    match r with Some v => v <=? N.of_nat i | None => true end.

  Lemma range_encode_inv : forall k c rows x n, Inv true k range_col c rows -> x <= N.of_nat k ->
    exists c', range_encode ops c x n = Some c' /\ Inv true k range_col c' (rows ++ repeat (Some x) (N.to_nat n)).
  Proof.
    intros k c rows x n I H. pose proof I as (S & L & G). unfold range_encode, vcount. rewrite L.
    replace (x <? N.of_nat k + 1) with true by lia. eexists. split; [reflexivity|].
    apply (Inv_extend true k range_col c rows x n (fun i => N.of_nat i <? x)); auto.
    - now rewrite mapi_length.
    - intros i bm E. rewrite nth_error_mapi, E. cbn [option_map Nat.add range_col].
      destruct (N.ltb_spec (N.of_nat i) x); auto.
      replace (x <=? N.of_nat i) with false by lia. reflexivity.
    - intros i Hi Q. unfold range_col. lia.
  Qed.

  Definition value0 (r : option N) : N := match r with Some v => v | None => 0 end.

  Lemma range_col_value0 : forall i r, range_col i r = (value0 r <=? N.of_nat i).
  Proof. intros i [v|]; cbn; auto. lia. Qed.

  Lemma pointwise_map : forall {A} f (g h : A -> bool) l,
    pointwise f (map g l) (map h l) = map (fun x => f (g x) (h x)) l.
  Proof.
    intros A f g h l. apply list_ext.
    - rewrite pointwise_length, !map_length. lia.
    - intros i Hi. rewrite pointwise_length, !map_length, Nat.max_id in Hi.
      unfold pointwise. rewrite !map_length, Nat.max_id.
      assert (forall j d, (j < length l)%nat -> nth j (map (fun i => f (nth i (map g l) false) (nth i (map h l) false)) (seq 0 (length l))) d
        = f (nth j (map g l) false) (nth j (map h l) false)) as ->; auto.
      { intros j e Hj. rewrite (nth_map_default _ _ _ _ 0%nat) by (rewrite seq_length; auto).
        now rewrite seq_nth by auto. }
      destruct l as [|a l]; [cbn in Hi; lia|].
      now rewrite !(nth_map_default _ (a :: l) i _ a) by auto.
  Qed.

  Lemma range_decode_spec : forall k c rows op x, Inv true k range_col c rows ->
    comparison op -> x < N.of_nat k \/ (x <= N.of_nat k /\ (op = op_lt \/ op = op_ge)) ->
    exists r, range_decode ops c op x = Some r /\
      content r = map (fun r => compare_op op (value0 r) x) rows.
  Proof.
    intros k c rows op x I CO X. pose proof I as (S & L & G). unfold range_decode, vcount. rewrite L.
    replace (x <? N.of_nat k + 1) with true by lia.
    assert (NEW : forall b, content (b_new ops (vsize c) b) = map (fun _ => b) rows).
    { intros b. rewrite (content_new _ _ laws), S, Nat2N.id. clear. induction rows; cbn; congruence. }
    assert (AT : x < N.of_nat k -> exists bm, lazy_at ops true c x = Some bm /\
      content bm = map (fun r => value0 r <=? x) rows).
    { intros H. destruct (Inv_lazy true k range_col c rows x I ltac:(lia)) as (bm & E & C).
      exists bm. split; auto. rewrite C. apply map_ext. intros r. rewrite range_col_value0. now rewrite N2Nat.id. }
    assert (PR : 0 < x -> exists bm, lazy_at ops true c (x - 1) = Some bm /\
      content bm = map (fun r => value0 r <? x) rows).
    { intros H. destruct (Inv_lazy true k range_col c rows (x - 1) I ltac:(lia)) as (bm & E & C).
      exists bm. split; auto. rewrite C. apply map_ext. intros r. rewrite range_col_value0. lia. }
    destruct op; try contradiction; cbn [compare_op].
    - destruct AT as (b & -> & C); [destruct X as [?|[? [?|?]]]; [assumption|discriminate|discriminate]|]. destruct (N.ltb_spec 0 x) as [H|H].
      + destruct (PR H) as (b1 & -> & C1). eexists. split; [reflexivity|].
        rewrite (law_and _ _ laws), (law_not _ _ laws), C, C1, map_map, pointwise_map.
        apply map_ext. intros r. lia.
      + exists b. split; auto. rewrite C. apply map_ext. intros r. lia.
    - destruct AT as (b & -> & C); [destruct X as [?|[? [?|?]]]; [assumption|discriminate|discriminate]|]. destruct (N.ltb_spec 0 x) as [H|H].
      + destruct (PR H) as (b1 & -> & C1). eexists. split; [reflexivity|].
        rewrite (law_or _ _ laws), (law_not _ _ laws), C, C1, map_map, pointwise_map.
        apply map_ext. intros r. lia.
      + eexists. split; [reflexivity|]. rewrite (law_not _ _ laws), C, map_map. apply map_ext. intros r. lia.
    - destruct (N.eqb_spec x 0) as [->|NZ].
      + eexists. split; [reflexivity|]. rewrite NEW. apply map_ext. intros r. lia.
      + destruct PR as (b & -> & C); [lia|]. exists b. auto.
    - destruct AT as (b & -> & C); [destruct X as [?|[? [?|?]]]; [assumption|discriminate|discriminate]|]. exists b. auto.
    - destruct AT as (b & -> & C); [destruct X as [?|[? [?|?]]]; [assumption|discriminate|discriminate]|]. eexists. split; [reflexivity|].
      rewrite (law_not _ _ laws), C, map_map. apply map_ext. intros r. lia.
    - destruct (N.eqb_spec x 0) as [->|NZ].
      + eexists. split; [reflexivity|]. rewrite NEW. apply map_ext. intros r. lia.
      + destruct PR as (b & -> & C); [lia|]. eexists. split; [reflexivity|].
        rewrite (law_not _ _ laws), C, map_map. apply map_ext. intros r. lia.
  Qed.

  (** * Bitslice coder *)

  Definition slice_col (i : nat) (r : option N) : bool :=
    match r with Some v => negb (N.testbit v (N.of_nat i)) | None => false end.

  (** Every encoded row lies within every bitmap. *)
  Definition covered (c : vcoder B) (rows : list (option N)) : Prop :=
    forall i bm p v, nth_error (vmaps c) i = Some bm -> nth_error rows p = Some (Some v) -> (p < len bm)%nat.
  Definition SInv (k : nat) (c : vcoder B) (rows : list (option N)) : Prop :=
    Inv false k slice_col c rows /\ covered c rows.

  Lemma SInv_new : forall k, SInv k (vnew ops (N.of_nat k)) [].
  Proof. intros k. split; [apply Inv_new|]. intros i bm p v _ H. destruct p; discriminate. Qed.

  Lemma content_len : forall bm l, content bm = l -> len bm = length l.
  Proof. intros bm l <-. reflexivity. Qed.

  Lemma SInv_touch : forall k c rows i, SInv k c rows -> SInv k (touch ops false c i) rows.
  Proof.
    intros k c rows i [I C]. split; [now apply Inv_touch|].
    intros j bm p v E R. unfold touch in E. cbn [vmaps] in E. rewrite nth_error_update in E.
    destruct (Nat.eqb_spec (N.to_nat i) j); [|eapply C; eauto].
    destruct (nth_error (vmaps c) j) as [b|] eqn:Q; [|discriminate]. injection E as <-.
    rewrite (content_len _ _ (Inv_fill false k slice_col c rows j b I Q)), map_length.
    apply nth_error_Some. congruence.
  Qed.

  Lemma nth_error_repeat_eq : forall {A} (x : A) n p y, nth_error (repeat x n) p = Some y -> y = x.
  Proof. intros A x n p y H. now apply nth_error_In, repeat_spec in H. Qed.

  Lemma SInv_skip : forall k c rows n, SInv k c rows -> SInv k (vskip c n) (rows ++ repeat None (N.to_nat n)).
  Proof.
    intros k c rows n [I C]. split; [now apply Inv_skip|].
    intros i bm p v E R. destruct (Nat.lt_ge_cases p (length rows)) as [H|H].
    - rewrite nth_error_app1 in R by auto. eapply C; eauto.
    - rewrite nth_error_app2 in R by auto. apply nth_error_repeat_eq in R. discriminate.
  Qed.

  Lemma SInv_append : forall k c rows o rows', SInv k c rows -> SInv k o rows' ->
    exists c', vappend ops false c o = Some c' /\ SInv k c' (rows ++ rows').
  Proof.
    intros k c rows o rows' [I C] [I' C'].
    destruct (Inv_append false k slice_col c rows o rows' I I') as (c' & E & J).
    exists c'. split; auto. split; auto. unfold vappend in E. destruct (Nat.eqb_spec (length (vmaps c)) (length (vmaps o))) as [L|]; [|discriminate].
    injection E as <-. intros i bm p v H R. cbn [vmaps] in H. rewrite nth_error_zip in H by auto.
    destruct (nth_error (vmaps c) i) as [a|] eqn:Ea; [|discriminate].
    destruct (nth_error (vmaps o) i) as [b|] eqn:Eb; [|discriminate]. injection H as <-.
    rewrite (len_append _ _ laws), (content_len _ _ (Inv_fill false k slice_col c rows i a I Ea)), map_length.
    destruct (Nat.lt_ge_cases p (length rows)) as [H|H]; [lia|].
    rewrite nth_error_app2 in R by auto. pose proof (C' i b _ v Eb R). lia.
  Qed.

  Lemma slice_encode_inv : forall k c rows x n, SInv k c rows ->
    SInv k (slice_encode ops c x n) (rows ++ repeat (Some x) (N.to_nat n)).
  Proof.
    intros k c rows x n [I C]. pose proof I as (S & L & G). split.
    - apply (Inv_extend false k slice_col c rows x n (fun _ => true)); auto.
      + now rewrite mapi_length.
      + intros i bm E. now rewrite nth_error_mapi, E.
      + discriminate.
    - intros i bm p v E R. cbn [slice_encode vmaps] in E. rewrite nth_error_mapi in E.
      destruct (nth_error (vmaps c) i) as [b|] eqn:Q; [|discriminate]. injection E as <-.
      rewrite (len_app _ _ laws), (content_len _ _ (Inv_fill false k slice_col c rows i b I Q)), map_length.
      assert (p < length (rows ++ repeat (Some x) (N.to_nat n)))%nat by (apply nth_error_Some; congruence).
      rewrite app_length, repeat_length in H. lia.
  Qed.

  (** Bits of a value below the number of bitmaps. *)
  Lemma slice_bit : forall k c rows i bm p v, SInv k c rows -> nth_error (vmaps c) i = Some bm ->
    nth_error rows p = Some (Some v) -> bit bm p = negb (N.testbit v (N.of_nat i)) /\ (p < len bm)%nat.
  Proof.
    intros k c rows i bm p v [I C] E R. pose proof I as (S & L & G).
    split; [|eapply C; eauto]. rewrite (good_bit_false bm _ p (G i bm E)).
    assert (p < length rows)%nat by (apply nth_error_Some; congruence).
    rewrite (nth_map_default _ _ _ _ None) by auto. now rewrite (nth_error_nth _ _ _ R).
  Qed.

  Definition low (v : N) (i : nat) : N := v mod 2 ^ N.of_nat i.

  Lemma low_succ : forall v i, low v (S i) = low v i + N.b2n (N.testbit v (N.of_nat i)) * 2 ^ N.of_nat i.
  Proof.
    intros v i. unfold low. rewrite Nat2N.inj_succ, N.pow_succ_r', (N.mul_comm 2).
    rewrite N.mod_mul_r by (try apply N.pow_nonzero; lia).
    rewrite N.testbit_eqb. assert (H : (v / 2 ^ N.of_nat i) mod 2 < 2) by (apply N.mod_lt; lia).
    destruct ((v / 2 ^ N.of_nat i) mod 2) as [|q] eqn:E; [cbn; lia|].
    assert (N.pos q = 1) as -> by lia. cbn [N.eqb N.b2n Pos.eqb]. lia.
  Qed.

  Lemma low_lt : forall v i, low v i < 2 ^ N.of_nat i.
  Proof. intros. apply N.mod_lt, N.pow_nonzero. lia. Qed.

  Lemma slice_le_loop_spec : forall ms i x v p result,
    (forall j bm, nth_error ms j = Some bm -> bit bm p = negb (N.testbit v (N.of_nat (i + j))) /\ (p < len bm)%nat) ->
    (p < len result)%nat -> bit result p = (low v i <=? low x i) ->
    let r := slice_le_loop ops x i ms result in
    (p < len r)%nat /\ bit r p = (low v (i + length ms) <=? low x (i + length ms)).
  Proof.
    induction ms as [|bm ms IH]; intros i x v p result H L E; cbn [slice_le_loop length].
    - rewrite Nat.add_0_r. auto.
    - destruct (H 0%nat bm eq_refl) as (Hb & Hl). rewrite Nat.add_0_r in Hb.
      replace (i + S (length ms))%nat with (S i + length ms)%nat by lia.
      apply IH.
      + intros j b Hj. specialize (H (S j) b Hj). now replace (S i + j)%nat with (i + S j)%nat by lia.
      + destruct (N.testbit x (N.of_nat i)); rewrite ?(len_or _ _ laws), ?(len_and _ _ laws); lia.
      + rewrite !low_succ. pose proof (low_lt v i). pose proof (low_lt x i).
        destruct (N.testbit x (N.of_nat i)) eqn:X; rewrite ?(bit_or _ _ laws), ?(bit_and _ _ laws), Hb, E;
          destruct (N.testbit v (N.of_nat i)); cbn [negb N.b2n]; lia.
  Qed.

  Lemma slice_eq_loop_spec : forall ms i x v p result,
    (forall j bm, nth_error ms j = Some bm -> bit bm p = negb (N.testbit v (N.of_nat (i + j))) /\ (p < len bm)%nat) ->
    (p < len result)%nat -> bit result p = (low v i =? low x i) ->
    let r := slice_eq_loop ops x i ms result in
    (p < len r)%nat /\ bit r p = (low v (i + length ms) =? low x (i + length ms)).
  Proof.
    induction ms as [|bm ms IH]; intros i x v p result H L E; cbn [slice_eq_loop length].
    - rewrite Nat.add_0_r. auto.
    - destruct (H 0%nat bm eq_refl) as (Hb & Hl). rewrite Nat.add_0_r in Hb.
      replace (i + S (length ms))%nat with (S i + length ms)%nat by lia.
      apply IH.
      + intros j b Hj. specialize (H (S j) b Hj). now replace (S i + j)%nat with (i + S j)%nat by lia.
      + rewrite (len_and _ _ laws). lia.
      + rewrite !low_succ. pose proof (low_lt v i). pose proof (low_lt x i).
        rewrite (bit_and _ _ laws), E.
        destruct (N.testbit x (N.of_nat i)) eqn:X; rewrite ?(bit_not _ _ laws), ?Hb;
          try (replace (p <? len bm)%nat with true by lia);
          destruct (N.testbit v (N.of_nat i)); cbn [negb N.b2n andb]; lia.
  Qed.

  Lemma slice_in_loop_spec : forall ms i x v p result,
    (forall j bm, nth_error ms j = Some bm -> bit bm p = negb (N.testbit v (N.of_nat (i + j))) /\ (p < len bm)%nat) ->
    (p < len result)%nat ->
    let r := slice_in_loop ops x i ms result in
    (p < len r)%nat /\
    (bit r p = false <-> bit result p = false /\
       forall j, (j < length ms)%nat -> N.testbit x (N.of_nat (i + j)) = true -> N.testbit v (N.of_nat (i + j)) = true).
  Proof.
    induction ms as [|bm ms IH]; intros i x v p result H L; cbn [slice_in_loop length].
    - split; auto. split; [|tauto]. intros E. split; auto. intros j Hj. lia.
    - destruct (H 0%nat bm eq_refl) as (Hb & Hl). rewrite Nat.add_0_r in Hb.
      set (res := if N.testbit x (N.of_nat i) then b_or ops result bm else result).
      assert (LR : (p < len res)%nat).
      { subst res. destruct (N.testbit x (N.of_nat i)); rewrite ?(len_or _ _ laws); lia. }
      assert (BR : bit res p = bit result p || (N.testbit x (N.of_nat i) && negb (N.testbit v (N.of_nat i)))).
      { subst res. destruct (N.testbit x (N.of_nat i)); rewrite ?(bit_or _ _ laws), ?Hb; cbn; auto. now rewrite orb_false_r. }
      destruct (IH (S i) x v p res) as (IL & IB); auto.
      { intros j b Hj. specialize (H (S j) b Hj). now replace (S i + j)%nat with (i + S j)%nat by lia. }
      split; auto. rewrite IB, BR. split.
      + intros (Q & R). apply orb_false_iff in Q as (Q1 & Q2). split; auto. intros [|j] Hj Hx.
        * rewrite Nat.add_0_r in *. rewrite Hx in Q2. now destruct (N.testbit v (N.of_nat i)).
        * replace (i + S j)%nat with (S i + j)%nat in * by lia. apply R; auto. lia.
      + intros (Q & R). split.
        * rewrite Q. cbn [orb]. specialize (R 0%nat ltac:(lia)). rewrite Nat.add_0_r in R.
          destruct (N.testbit x (N.of_nat i)); auto. now rewrite R.
        * intros j Hj Hx. replace (S i + j)%nat with (i + S j)%nat in * by lia. apply R; auto. lia.
  Qed.

  Lemma slice_le_len : forall ms i x result n,
    (forall bm, In bm ms -> (len bm <= n)%nat) -> (len result <= n)%nat ->
    (len (slice_le_loop ops x i ms result) <= n)%nat.
  Proof.
    induction ms as [|bm ms IH]; intros i x result n H L; cbn [slice_le_loop]; auto.
    apply IH; [intros; apply H; now right|]. pose proof (H bm (or_introl eq_refl)).
    destruct (N.testbit x (N.of_nat i)); rewrite ?(len_or _ _ laws), ?(len_and _ _ laws); lia.
  Qed.
  Lemma slice_eq_len : forall ms i x result n,
    (forall bm, In bm ms -> (len bm <= n)%nat) -> (len result <= n)%nat ->
    (len (slice_eq_loop ops x i ms result) <= n)%nat.
  Proof.
    induction ms as [|bm ms IH]; intros i x result n H L; cbn [slice_eq_loop]; auto.
    apply IH; [intros; apply H; now right|]. pose proof (H bm (or_introl eq_refl)).
    rewrite (len_and _ _ laws). destruct (N.testbit x (N.of_nat i)); rewrite ?(len_not _ _ laws); lia.
  Qed.
  Lemma slice_in_len : forall ms i x result n,
    (forall bm, In bm ms -> (len bm <= n)%nat) -> (len result <= n)%nat ->
    (len (slice_in_loop ops x i ms result) <= n)%nat.
  Proof.
    induction ms as [|bm ms IH]; intros i x result n H L; cbn [slice_in_loop]; auto.
    apply IH; [intros; apply H; now right|]. pose proof (H bm (or_introl eq_refl)).
    destruct (N.testbit x (N.of_nat i)); rewrite ?(len_or _ _ laws); lia.
  Qed.

  Lemma low_small : forall v k, v < 2 ^ N.of_nat k -> low v k = v.
  Proof. intros. now apply N.mod_small. Qed.

  (** What a query means for a value: the six comparisons, and containment of a
      bit set. *)
  Definition slice_meaning (op : relop) (v x : N) : bool :=
    match op with
    | op_in => negb (x =? 0) && (N.land v x =? x)
    | op_not_in => negb (x =? 0) && negb (N.land v x =? x)
    | _ => compare_op op v x
    end.

  Lemma land_eq_iff : forall v x k, x < 2 ^ N.of_nat k ->
    (N.land v x = x <-> forall j, (j < k)%nat -> N.testbit x (N.of_nat j) = true -> N.testbit v (N.of_nat j) = true).
  Proof.
    intros v x k H. split.
    - intros E j _ Hx. rewrite <- E, N.land_spec in Hx. now apply andb_true_iff in Hx.
    - intros F. apply N.bits_inj. intros j. rewrite N.land_spec.
      destruct (N.testbit x j) eqn:X; [|now rewrite andb_false_r]. rewrite andb_true_r.
      assert (Hj : j < N.of_nat k).
      { destruct (N.lt_ge_cases j (N.of_nat k)) as [|Hge]; auto.
        rewrite (NBits.testbit_small x (N.of_nat k)) in X; auto; discriminate. }
      specialize (F (N.to_nat j)). rewrite N2Nat.id in F. apply F; auto. lia.
  Qed.

  Lemma slice_ineq_spec : forall k c rows op x, SInv k c rows -> (0 < k)%nat -> x < 2 ^ N.of_nat k ->
    op = op_lt \/ op = op_le \/ op = op_gt \/ op = op_ge ->
    exists r, slice_ineq ops c op x = Some r /\ (len r <= length rows)%nat /\
      forall p v, nth_error rows p = Some (Some v) -> v < 2 ^ N.of_nat k ->
        (p < len r)%nat /\ bit r p = match op with op_gt | op_ge => x <? v | _ => v <=? x end.
  Proof.
    intros k c rows op x SI K X O. pose proof SI as [I C]. pose proof I as (S & L & G).
    assert (ML : forall bm, In bm (vmaps c) -> (len bm <= length rows)%nat).
    { intros bm H. apply In_nth_error in H as (i & H). pose proof (good_len _ _ _ (G i bm H)) as Q.
      now rewrite map_length in Q. }
    unfold slice_ineq. destruct (vmaps c) as [|bm0 ms] eqn:M; [cbn in L; lia|].
    set (r0 := if N.testbit x 0 then b_new ops (vsize c) true else bm0).
    set (res := slice_le_loop ops x 1 ms r0).
    assert (L0 : (len r0 <= length rows)%nat).
    { subst r0. destruct (N.testbit x 0); [rewrite (len_new _ _ laws); lia|apply ML; now left]. }
    assert (LR : (len res <= length rows)%nat).
    { apply slice_le_len; auto. intros bm H. apply ML. now right. }
    assert (P : forall p v, nth_error rows p = Some (Some v) -> v < 2 ^ N.of_nat k ->
      (p < len res)%nat /\ bit res p = (v <=? x)).
    { intros p v R V. assert (Hp : (p < length rows)%nat) by (apply nth_error_Some; congruence).
      assert (SB : forall i bm, nth_error (vmaps c) i = Some bm ->
        bit bm p = negb (N.testbit v (N.of_nat i)) /\ (p < len bm)%nat).
      { intros i bm E. eapply slice_bit; eauto. }
      rewrite M in SB. destruct (SB 0%nat bm0 eq_refl) as (B0 & H0).
      destruct (slice_le_loop_spec ms 1 x v p r0) as (A1 & A2).
      - intros j bm Hj. exact (SB (Datatypes.S j) bm Hj).
      - subst r0. destruct (N.testbit x 0); auto. rewrite (len_new _ _ laws). lia.
      - replace (low v 1) with (N.b2n (N.testbit v 0)).
        2:{ rewrite (low_succ v 0). unfold low. cbn. rewrite N.mod_1_r. lia. }
        replace (low x 1) with (N.b2n (N.testbit x 0)).
        2:{ rewrite (low_succ x 0). unfold low. cbn. rewrite N.mod_1_r. lia. }
        subst r0. destruct (N.testbit x 0).
        + rewrite (bit_new _ _ laws). replace (p <? N.to_nat (vsize c))%nat with true by lia.
          now destruct (N.testbit v 0).
        + rewrite B0. cbn [N.of_nat]. now destruct (N.testbit v 0).
      - fold res in A1, A2. split; auto. rewrite A2. cbn [length] in L.
        replace (1 + length ms)%nat with k by lia. now rewrite !low_small by auto. }
    eexists. split; [reflexivity|].
    destruct O as [-> | [-> | [-> | ->] ] ]; (split; [rewrite ?(len_not _ _ laws); exact LR|]);
      intros p v R V; destruct (P p v R V) as (P1 & P2); rewrite ?(len_not _ _ laws), ?(bit_not _ _ laws);
      (split; [exact P1|]); rewrite P2; lia.
  Qed.

  Lemma slice_decode_spec : forall k c rows op x, SInv k c rows -> (0 < k)%nat -> x < 2 ^ N.of_nat k ->
    comparison op \/ op = op_in \/ op = op_not_in ->
    exists r, slice_decode ops c op x = Some r /\ (len r <= length rows)%nat /\
      forall p v, nth_error rows p = Some (Some v) -> v < 2 ^ N.of_nat k ->
        (p < len r)%nat /\ bit r p = slice_meaning op v x.
  Proof.
    intros k c rows op x SI K X O. pose proof SI as [I C]. pose proof I as (S & L & G).
    assert (ML : forall bm, In bm (vmaps c) -> (len bm <= length rows)%nat).
    { intros bm H. apply In_nth_error in H as (i & H). pose proof (good_len _ _ _ (G i bm H)) as Q.
      now rewrite map_length in Q. }
    assert (SB : forall p v, nth_error rows p = Some (Some v) -> forall i bm, nth_error (vmaps c) i = Some bm ->
        bit bm p = negb (N.testbit v (N.of_nat (0 + i))) /\ (p < len bm)%nat).
    { intros p v R i bm E. eapply slice_bit; eauto. }
    assert (NL : forall b, len (b_new ops (vsize c) b) = length rows).
    { intros b. rewrite (len_new _ _ laws). lia. }
    assert (NB : forall b p v, nth_error rows p = Some (Some v) -> bit (b_new ops (vsize c) b) p = b /\ (p < length rows)%nat).
    { intros b p v R. assert (p < length rows)%nat by (apply nth_error_Some; congruence).
      rewrite (bit_new _ _ laws). replace (p <? N.to_nat (vsize c))%nat with true by lia. auto. }
    assert (LT0 : forall y, low y 0 = 0) by (intros; unfold low; apply N.mod_1_r).
    destruct op; destruct O as [O|[O|O]]; try contradiction; try discriminate; cbn [slice_decode slice_meaning compare_op].
    - (* in *) destruct (N.eqb_spec x 0) as [->|NZ].
      + eexists. split; [reflexivity|]. rewrite NL. split; [lia|]. intros p v R V.
        destruct (NB false p v R) as (Q1 & Q2). auto.
      + eexists. split; [reflexivity|]. rewrite (len_not _ _ laws). split; [apply slice_in_len; auto; rewrite NL; lia|].
        intros p v R V. destruct (NB false p v R) as (Q1 & Q2).
        destruct (slice_in_loop_spec (vmaps c) 0 x v p (b_new ops (vsize c) false) (SB p v R)) as (A1 & A2); [rewrite NL; auto|].
        split; auto. rewrite (bit_not _ _ laws). replace (p <? _)%nat with true by lia.
        rewrite L in A2. cbn [Nat.add] in A2. rewrite <- (land_eq_iff v x k X) in A2. cbn [andb negb].
        destruct (N.eqb_spec (N.land v x) x) as [E|E].
        * rewrite (proj2 A2) by auto. reflexivity.
        * destruct (BitmapOps.bit content (slice_in_loop ops x 0 (vmaps c) (b_new ops (vsize c) false)) p); auto. exfalso. apply E, A2. reflexivity.
    - (* not_in *) destruct (N.eqb_spec x 0) as [->|NZ].
      + eexists. split; [reflexivity|]. rewrite NL. split; [lia|]. intros p v R V.
        destruct (NB false p v R) as (Q1 & Q2). auto.
      + eexists. split; [reflexivity|]. split; [apply slice_in_len; auto; rewrite NL; lia|].
        intros p v R V. destruct (NB false p v R) as (Q1 & Q2).
        destruct (slice_in_loop_spec (vmaps c) 0 x v p (b_new ops (vsize c) false) (SB p v R)) as (A1 & A2); [rewrite NL; auto|].
        split; auto.
        rewrite L in A2. cbn [Nat.add] in A2. rewrite <- (land_eq_iff v x k X) in A2. cbn [andb negb].
        destruct (N.eqb_spec (N.land v x) x) as [E|E].
        * rewrite (proj2 A2) by auto. reflexivity.
        * destruct (BitmapOps.bit content (slice_in_loop ops x 0 (vmaps c) (b_new ops (vsize c) false)) p); auto. exfalso. apply E, A2. reflexivity.
    - (* eq *) eexists. split; [reflexivity|]. split; [apply slice_eq_len; auto; rewrite NL; lia|].
      intros p v R V. destruct (NB true p v R) as (Q1 & Q2).
      destruct (slice_eq_loop_spec (vmaps c) 0 x v p (b_new ops (vsize c) true) (SB p v R)) as (A1 & A2); [rewrite NL; auto|now rewrite Q1, !LT0|].
      split; auto. rewrite A2, L. cbn [Nat.add]. now rewrite !low_small by auto.
    - (* ne *) eexists. split; [reflexivity|]. rewrite (len_not _ _ laws). split; [apply slice_eq_len; auto; rewrite NL; lia|].
      intros p v R V. destruct (NB true p v R) as (Q1 & Q2).
      destruct (slice_eq_loop_spec (vmaps c) 0 x v p (b_new ops (vsize c) true) (SB p v R)) as (A1 & A2); [rewrite NL; auto|now rewrite Q1, !LT0|].
      split; auto. rewrite (bit_not _ _ laws). replace (p <? _)%nat with true by lia.
      rewrite A2, L. cbn [Nat.add andb]. now rewrite !low_small by auto.
    - (* lt *) destruct (N.eqb_spec x 0) as [->|NZ].
      + eexists. split; [reflexivity|]. rewrite NL. split; [lia|]. intros p v R V.
        destruct (NB false p v R) as (Q1 & Q2). split; auto. rewrite Q1. lia.
      + destruct (slice_ineq_spec k c rows op_lt (x - 1) SI K ltac:(lia) ltac:(auto)) as (r & E & A & P).
        exists r. split; auto. split; auto. intros p v R V. destruct (P p v R V). split; auto. lia.
    - (* le *) destruct (slice_ineq_spec k c rows op_le x SI K X ltac:(auto)) as (r & E & A & P).
      exists r. split; auto.
    - (* gt *) destruct (slice_ineq_spec k c rows op_gt x SI K X ltac:(auto)) as (r & E & A & P).
      exists r. split; auto.
    - (* ge *) destruct (N.eqb_spec x 0) as [->|NZ].
      + eexists. split; [reflexivity|]. rewrite NL. split; [lia|]. intros p v R V.
        destruct (NB true p v R) as (Q1 & Q2). split; auto. rewrite Q1. lia.
      + destruct (slice_ineq_spec k c rows op_ge (x - 1) SI K ltac:(lia) ltac:(auto)) as (r & E & A & P).
        exists r. split; auto. split; auto. intros p v R V. destruct (P p v R V). split; auto. lia.
  Qed.
End Proofs.
