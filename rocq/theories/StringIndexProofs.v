(** Proofs about the indexes for strings and enumerations. *)
From Coq Require Import List ZArith NArith Lia Bool ZifyBool ZifyNat ZifyN.
From Verif Require Import NBits WordProofs OperatorModel PropsBitmapOps BitmapOps CoderModel CoderProofs MultiLevelProofs PropsCoder
  ValueIndexModel ValueIndexProofs SelProofs ArithIndexModel ArithIndexProofs AddressProofs StringIndexModel.
Import ListNotations.
Open Scope N_scope.

(** * The base of the length index *)

Lemma log10_loop_spec : forall fuel n, n < 10 ^ N.of_nat fuel -> n < 10 * 10 ^ N.of_nat (log10_loop fuel n).
Proof.
  induction fuel as [|f IH]; intros n H; cbn [log10_loop]; [cbn in H; lia|].
  destruct (N.ltb_spec n 10) as [L|L]; [cbn; lia|].
  rewrite Nat2N.inj_succ, N.pow_succ_r' in *.
  assert (D : n / 10 < 10 ^ N.of_nat f) by (apply N.div_lt_upper_bound; lia).
  specialize (IH _ D). pose proof (N.div_mod n 10 ltac:(lia)). pose proof (N.mod_lt n 10 ltac:(lia)). lia.
Qed.

Lemma size_pow10 : forall n, n < 10 ^ N.of_nat (N.to_nat (N.size n)).
Proof.
  intros n. rewrite N2Nat.id. destruct n as [|p]; [cbn; lia|].
  pose proof (N.size_gt (N.pos p)). eapply N.lt_le_trans; [exact H|]. apply N.pow_le_mono_l. lia.
Qed.

Lemma fold_mul_repeat : forall d k, fold_right N.mul 1 (repeat d k) = d ^ N.of_nat k.
Proof. intros d. induction k; cbn [repeat fold_right]; [reflexivity|]. now rewrite IHk, Nat2N.inj_succ, N.pow_succ_r'. Qed.

Lemma length_base_product : forall m, m mod 10 <> 0 -> m < fold_right N.mul 1 (length_base m).
Proof.
  intros m H. unfold length_base. replace (m mod 10 =? 0) with false by lia. rewrite fold_mul_repeat, Nat2N.inj_add.
  change (N.of_nat 1) with 1. rewrite N.add_1_r, N.pow_succ_r'. unfold log10_floor. apply log10_loop_spec, size_pow10.
Qed.

Lemma length_base_wf : forall m, m mod 10 <> 0 -> well_defined (length_base m) = true.
Proof.
  intros m H. unfold length_base, well_defined. replace (m mod 10 =? 0) with false by lia. rewrite repeat_length.
  apply andb_true_iff. split; [lia|]. apply forallb_forall. intros x I. apply repeat_spec in I. now subst.
Qed.

(** * Substrings *)

(** Character [j] and the following ones are [xs]. *)
Fixpoint match_at (w : list N) (j : nat) (xs : list N) : bool :=
  match xs with
  | [] => true
  | x :: xs' => match nth_error w j with Some b => b =? x | None => false end && match_at w (S j) xs'
  end.

Lemma skipn_S_nth : forall {A} (l : list A) j, skipn j l = match nth_error l j with Some x => x :: skipn (S j) l | None => [] end.
Proof. induction l as [|y l IH]; intros [|j]; cbn; auto. rewrite IH at 1. reflexivity. Qed.

Lemma match_at_spec : forall xs w j, match_at w j xs = true <-> exists post, skipn j w = xs ++ post.
Proof.
  induction xs as [|x xs IH]; intros w j; cbn [match_at app].
  - split; eauto.
  - rewrite andb_true_iff, IH, (skipn_S_nth w j). destruct (nth_error w j) as [b|].
    + rewrite N.eqb_eq. split.
      * intros [-> (post & ->)]. eauto.
      * intros (post & E). injection E as -> E. eauto.
    + split; [intros [Q _]; discriminate|intros (post & E); discriminate].
Qed.

(** [xs] occurs in [w]. *)
Fixpoint infixb (xs w : list N) : bool :=
  match_at w 0 xs || match w with [] => false | _ :: w' => infixb xs w' end.

Lemma infixb_spec : forall w xs, infixb xs w = true <-> exists pre post, w = pre ++ xs ++ post.
Proof.
  induction w as [|y w IH]; intros xs; cbn [infixb]; rewrite orb_true_iff, match_at_spec; cbn [skipn].
  - split.
    + intros [(post & E)|Q]; [|discriminate]. exists [], post. auto.
    + intros (pre & post & E). left. exists post. destruct pre; [auto|discriminate].
  - rewrite IH. split.
    + intros [(post & E)|(pre & post & E)]; [exists [], post; auto|]. exists (y :: pre), post. cbn. now rewrite <- E.
    + intros ([|z pre] & post & E); [left; exists post; auto|]. right. injection E as -> E. eauto.
Qed.

Lemma windows_infix : forall w xs k, (length w <= k)%nat -> (length xs <= k)%nat ->
  existsb (fun i => match_at w i xs) (seq 0 (k - length xs + 1)) = infixb xs w \/ xs = [].
Proof.
  intros w xs k LW LX. destruct xs as [|x0 xs0]; auto. left. set (xs := x0 :: xs0) in *.
  apply eq_true_iff_eq. rewrite existsb_exists, infixb_spec. split.
  - intros (i & _ & M). apply match_at_spec in M as (post & E). exists (firstn i w), post.
    rewrite <- E. symmetry. apply firstn_skipn.
  - intros (pre & post & E). exists (length pre). split.
    + apply in_seq. assert (length w = length pre + (length xs + length post))%nat by (rewrite E, !app_length; lia). lia.
    + apply match_at_spec. exists post. rewrite E, skipn_app, skipn_all, Nat.sub_diag. reflexivity.
Qed.

Lemma equal_match : forall w xs, (N.of_nat (length w) <=? N.of_nat (length xs)) && match_at w 0 xs = AddressModel.bytes_eqb w xs.
Proof.
  intros w xs. apply eq_true_iff_eq. rewrite andb_true_iff, match_at_spec, AddressProofs.bytes_eqb_spec. cbn [skipn]. split.
  - intros [L (post & ->)]. rewrite app_length in L. destruct post; [apply app_nil_r|cbn in L; lia].
  - intros ->. split; [lia|]. exists []. now rewrite app_nil_r.
Qed.

Lemma map_none : forall {A C} (l : list A), map (fun _ => @None C) l = repeat None (length l).
Proof. induction l; cbn; congruence. Qed.

(** * Bitslice coders at rows without a value *)

Lemma not_ff_bit : forall x, x < 256 -> x <> 255 -> exists j, (j < 8)%nat /\ N.testbit x (N.of_nat j) = false.
Proof.
  intros x L NE. destruct (forallb (fun j => N.testbit x (N.of_nat j)) (seq 0 8)) eqn:F.
  - exfalso. apply NE. rewrite forallb_forall in F. apply byte_ext; auto; [lia|]. intros t T.
    rewrite (F t) by (apply in_seq; lia). do 8 (destruct t as [|t]; [reflexivity|]). lia.
  - assert (Q : existsb (fun j => negb (N.testbit x (N.of_nat j))) (seq 0 8) = true).
    { revert F. induction (seq 0 8); cbn; [discriminate|]. destruct (N.testbit x (N.of_nat a)); cbn; auto. }
    apply existsb_exists in Q as (j & I & N). apply in_seq in I. exists j. split; [lia|]. now destruct (N.testbit x (N.of_nat j)).
Qed.

Section Slice.
  Context {B : Type} (ops : bitmap_ops B) (content : B -> list bool).
  Context (laws : bitmap_laws ops content).
  Notation bit := (bit content).
  Notation len := (len content).

  Lemma slice_eq_loop_false : forall ms i x p result,
    (bit result p = false \/ exists j bm, nth_error ms j = Some bm /\ bit bm p = false /\ N.testbit x (N.of_nat (i + j)) = false) ->
    bit (slice_eq_loop ops x i ms result) p = false.
  Proof.
    induction ms as [|m ms IH]; intros i x p result H; cbn [slice_eq_loop].
    - destruct H as [H|(j & bm & E & _)]; auto. destruct j; discriminate.
    - apply IH. destruct H as [H|(j & bm & E & H1 & H2)].
      + left. now rewrite (bit_and _ _ laws), H.
      + destruct j as [|j].
        * left. injection E as ->. rewrite Nat.add_0_r in H2. rewrite H2, (bit_and _ _ laws), H1. apply andb_false_r.
        * right. exists j, bm. replace (Datatypes.S i + j)%nat with (i + Datatypes.S j)%nat by lia. auto.
  Qed.

  Lemma slice_eq_none : forall c rows x p, SInv content 8 c rows -> x < 256 -> x <> 255 ->
    nth p rows None = None -> bit (slice_eq_loop ops x 0 (vmaps c) (b_new ops (vsize c) true)) p = false.
  Proof.
    intros c rows x p [(S & L & G) _] X NE H. destruct (not_ff_bit x X NE) as (j & J & T).
    destruct (nth_error (vmaps c) j) as [bm|] eqn:E; [|apply nth_error_None in E; lia].
    apply slice_eq_loop_false. right. exists j, bm. split; auto. split; auto.
    rewrite (good_bit_false _ _ _ p (G j bm E)). destruct (Nat.lt_ge_cases p (length rows)) as [Q|Q].
    - rewrite (nth_map_default _ _ _ _ None) by auto. now rewrite H.
    - rewrite nth_overflow; auto. now rewrite map_length.
  Qed.
End Slice.

Lemma sel_and_w : forall {B} (ops : bitmap_ops B) content, bitmap_laws ops content -> forall {V} off (vals : list (option V)) r s f g,
  sel content off vals r f -> wsel content off vals s g -> sel content off vals (b_and ops r s) (fun v => f v && g v).
Proof.
  intros B ops content laws V off vals r s f g [L H] [L' H']. split; [rewrite (len_and _ _ laws); lia|]. intros p v E.
  destruct (H p v E) as [Q1 Q2]. rewrite (len_and _ _ laws), (bit_and _ _ laws), Q2, (H' p v E). split; [lia|auto].
Qed.
Lemma sel_or_w : forall {B} (ops : bitmap_ops B) content, bitmap_laws ops content -> forall {V} off (vals : list (option V)) r s f g,
  sel content off vals r f -> wsel content off vals s g -> sel content off vals (b_or ops r s) (fun v => f v || g v).
Proof.
  intros B ops content laws V off vals r s f g [L H] [L' H']. split; [rewrite (len_or _ _ laws); lia|]. intros p v E.
  destruct (H p v E) as [Q1 Q2]. rewrite (len_or _ _ laws), (bit_or _ _ laws), Q2, (H' p v E). split; [lia|auto].
Qed.
Lemma all_false_wsel : forall {B} (ops : bitmap_ops B) content, bitmap_laws ops content -> forall {V} off (vals : list (option V)) r f,
  wsel content off vals r f -> b_all ops false r = true -> forall v, In (Some v) vals -> f v = false.
Proof.
  intros B ops content laws V off vals r f [L H] A v I. apply In_nth_error in I as (p & E). rewrite <- (H p v E).
  rewrite (law_all _ _ laws) in A. unfold BitmapOps.bit. destruct (Nat.lt_ge_cases p (length (content r))) as [Q|Q].
  - destruct (content r) as [|y l] eqn:C; [cbn in Q; lia|]. rewrite <- C in *. rewrite forallb_forall in A.
    specialize (A (nth p (content r) false) (nth_In _ _ Q)). destruct (nth p (content r) false); auto.
  - now rewrite nth_overflow.
Qed.

(** * The string index *)

Section Strings.
  Context {B : Type} (ops : bitmap_ops B) (content : B -> list bool).
  Context (laws : bitmap_laws ops content).
  Variable (m : nat).
  Context (MOD : N.of_nat m mod 10 <> 0).
  Notation base := (length_base (N.of_nat m)).

  (** The indexed part of a string. *)
  Definition clip (v : list N) : list N := firstn m v.
  Definition clip_key (v : list N) : option N := Some (N.of_nat (length (clip v))).
  Definition char_rows (j : nat) (vals : list (option (list N))) : list (option N) :=
    map (fun o => match o with Some v => nth_error (clip v) j | None => None end) vals.

  Definition StInv (s : strindex B) (vals : list (option (list N))) : Prop :=
    st_max s = N.of_nat m /\ NInv ops clip_key base (st_len s) vals /\
    (forall j c, nth_error (st_chars s) j = Some c -> exists rows k, rows ++ repeat None k = char_rows j vals /\ SInv content 8 c rows) /\
    (forall v, In (Some v) vals -> (length (clip v) <= length (st_chars s))%nat /\ Forall (fun b => b < 256) v).

  Lemma StInv_new : exists s, st_new ops (N.of_nat m) = Some s /\ StInv s [].
  Proof.
    unfold st_new. assert (N.of_nat m <> 0) by (intros E; rewrite E in MOD; now apply MOD).
    replace (N.of_nat m =? 0) with false by lia. unfold ml_new_range, ml_new. rewrite length_base_wf by auto. cbn [option_map].
    eexists. split; [reflexivity|]. split; [reflexivity|]. cbn [st_len st_chars]. split; [|split].
    - apply (reach_new (multi_range_ops ops base)). cbn. unfold ml_new_range, ml_new. now rewrite length_base_wf by auto.
    - intros j c HC. destruct j; discriminate.
    - intros v [].
  Qed.

  Lemma st_clip_eq : forall (s : strindex B) str, st_max s = N.of_nat m -> st_clip s str = length (clip str) /\ firstn (st_clip s str) str = clip str.
  Proof.
    intros s str E. unfold st_clip, clip. rewrite E, Nat2N.id. split; [rewrite firstn_length; lia|].
    destruct (Nat.le_ge_cases (length str) m) as [L|L].
    - rewrite Nat.min_l, !firstn_all2 by lia. reflexivity.
    - now rewrite Nat.min_r by lia.
  Qed.

  Lemma clip_fits : forall v, fits clip_key base v.
  Proof.
    intros v. exists (N.of_nat (length (clip v))). split; auto. unfold clip. rewrite firstn_length.
    pose proof (length_base_product (N.of_nat m) MOD). lia.
  Qed.

  Lemma clip_nth : forall v j, (j < length (clip v))%nat -> nth_error (clip v) j = Some (nth j v 0).
  Proof.
    intros v j H. rewrite (nth_error_nth' (clip v) 0 H). f_equal. unfold clip in *. rewrite firstn_length in H.
    assert (Q : (j < m)%nat) by lia. clear -Q. revert j m Q. induction v as [|y v IH]; intros j m Q; destruct m; cbn; auto; try lia.
    destruct j; auto. apply IH. lia.
  Qed.

  Lemma char_rows_app : forall j vals n v, char_rows j (vals ++ repeat None n ++ [Some v]) =
    (char_rows j vals ++ repeat None n) ++ [nth_error (clip v) j].
  Proof. intros. unfold char_rows. rewrite !map_app, map_repeat, <- app_assoc. reflexivity. Qed.

  Lemma string_accepts : forall v, Forall (fun b => b < 256) v -> accepts (string_impl ops) StInv v.
  Proof.
    intros v FV s vals pos (MX & NI & CH & LN) P. cbn [i_append string_impl]. unfold st_append.
    destruct (st_clip_eq s v MX) as [CL _]. rewrite CL.
    destruct (numeric_accepts ops content laws clip_key (fun _ _ => None) base (length_base_wf _ MOD) v (clip_fits v) (st_len s) vals pos NI P)
      as (l & EL & NL). cbn [i_append numeric_impl clip_key] in EL. rewrite EL.
    eexists. split; [reflexivity|]. split; [exact MX|]. split; [exact NL|]. cbn [st_chars].
    set (chars := st_chars s ++ repeat (vnew ops 8) (length (clip v) - length (st_chars s))).
    assert (LC : length chars = Nat.max (length (st_chars s)) (length (clip v))) by (unfold chars; rewrite app_length, repeat_length; lia).
    split.
    - intros j c H. rewrite nth_error_mapi in H. destruct (nth_error chars j) as [c0|] eqn:E; [|discriminate].
      cbn [option_map Nat.add] in H. injection H as <-.
      assert (C0 : exists rows k, rows ++ repeat None k = char_rows j vals /\ SInv content 8 c0 rows).
      { unfold chars in E. destruct (Nat.lt_ge_cases j (length (st_chars s))) as [L|L].
        - rewrite nth_error_app1 in E by auto. eauto.
        - rewrite nth_error_app2 in E by auto. apply nth_error_In, repeat_spec in E. subst c0.
          exists [], (length vals). split; [|apply (SInv_new ops content laws 8)]. cbn [app]. unfold char_rows.
          rewrite <- (map_none vals). apply map_ext_in. intros [w|] I; auto. symmetry. apply nth_error_None.
          destruct (LN w I). lia. }
      destruct C0 as (rows & k & ER & SI). rewrite char_rows_app.
      assert (LR : (length rows + k = length vals)%nat).
      { rewrite <- (map_length (fun o => match o with Some v => nth_error (clip v) j | None => None end) vals).
        fold (char_rows j vals). rewrite <- ER, app_length, repeat_length. reflexivity. }
      pose proof (proj1 (proj1 SI)) as SZ.
      destruct (Nat.ltb_spec j (length (clip v))) as [Q|Q].
      + exists ((rows ++ repeat None (pos - length rows)) ++ repeat (Some (nth j v 0)) 1), 0%nat. split.
        * cbn [repeat]. rewrite app_nil_r, clip_nth, <- ER by auto. f_equal. rewrite <- !app_assoc. f_equal. rewrite <- repeat_app. f_equal. lia.
        * apply (slice_encode_inv ops content laws 8 _ _ (nth j v 0) 1).
          replace (pos - length rows)%nat with (N.to_nat (N.of_nat pos - vsize c0)) by lia. now apply SInv_skip.
      + exists rows, (k + (pos - length vals) + 1)%nat. split; auto.
        rewrite (proj2 (nth_error_None _ _)) by lia. rewrite <- ER, !repeat_app, <- !app_assoc. reflexivity.
    - intros w H. rewrite mapi_length, LC. rewrite !in_app_iff in H. destruct H as [H|[H|[H|[] ] ] ].
      + destruct (LN w H). split; auto. lia.
      + apply repeat_spec in H. discriminate.
      + injection H as <-. split; auto. lia.
  Qed.

  Section Lookup.
    Variable (s : strindex B) (vals : list (option (list N))) (off : nat).
    Context (SI : StInv s vals) (OFF : (length vals <= off)%nat).
    Notation sel := (sel content off vals).
    Notation wsel := (wsel content off vals).

    Lemma char_wsel : forall j c x, nth_error (st_chars s) j = Some c -> x < 256 -> x <> 255 ->
      exists r, slice_decode ops c op_eq x = Some r /\
        wsel r (fun v => match nth_error (clip v) j with Some b => b =? x | None => false end).
    Proof.
      intros j c x E X NE. destruct SI as (MX & NI & CH & LN). destruct (CH j c E) as (rows & k & ER & SV).
      destruct (slice_decode_spec ops content laws 8 c rows op_eq x SV) as (r & Q & LR & P); [lia|exact X|left; exact I|].
      exists r. split; auto.
      assert (LL : (length rows + k = length vals)%nat).
      { rewrite <- (map_length (fun o => match o with Some v => nth_error (clip v) j | None => None end) vals).
        fold (char_rows j vals). rewrite <- ER, app_length, repeat_length. reflexivity. }
      split; [lia|]. intros p v H.
      assert (NR : nth p (char_rows j vals) None = nth_error (clip v) j).
      { unfold char_rows. rewrite (nth_map_default _ _ _ _ None) by (apply nth_error_Some; congruence). now rewrite (nth_error_nth _ _ _ H). }
      assert (NR' : nth p rows None = nth_error (clip v) j).
      { rewrite <- NR, <- ER. destruct (Nat.lt_ge_cases p (length rows)) as [L|L].
        - now rewrite app_nth1.
        - rewrite app_nth2 by auto. rewrite nth_overflow by auto. destruct (Nat.lt_ge_cases (p - length rows) k) as [L'|L'].
          + symmetry. apply nth_repeat.
          + now rewrite nth_overflow by (rewrite repeat_length; lia). }
      destruct (nth_error (clip v) j) as [b|] eqn:NB.
      - assert (PL : (p < length rows)%nat).
        { destruct (Nat.lt_ge_cases p (length rows)); auto. rewrite nth_overflow in NR' by auto. discriminate. }
        destruct (P p b) as [_ ->]; auto.
        + now rewrite (nth_error_nth' rows None PL), NR'.
        + assert (F : Forall (fun b => b < 256) v) by (apply LN; eapply nth_error_In; eauto).
          rewrite Forall_forall in F. change (2 ^ N.of_nat 8) with 256. apply F. apply nth_error_In in NB. unfold clip in NB.
          rewrite <- (firstn_skipn m v). apply in_app_iff. now left.
      - cbn [slice_decode] in Q. injection Q as <-. eapply slice_eq_none; eauto.
    Qed.

    Lemma len_wsel : forall op k, In op six -> (k <= m)%nat ->
      exists r, ml_range_decode ops (st_len s) op (N.of_nat k) = Some r /\
        sel r (fun v => holds op (N.of_nat (length (clip v))) (N.of_nat k)).
    Proof.
      intros op k O K. destruct SI as (MX & NI & CH & LN). destruct NI as (h & A & E & R).
      destruct (C07_multi_range B ops content laws base h (length_base_wf _ MOD) A) as (c & E' & D). rewrite E in E'. injection E' as <-.
      destruct (D op (N.of_nat k) O) as (r & Q & C).
      { pose proof (length_base_product (N.of_nat m) MOD). lia. }
      exists r. split; auto. rewrite R, map_map in C.
      exact (sel_content content off vals r _ OFF C).
    Qed.

    Lemma eq_loop_sel : forall xs cs j result f,
      (forall i c, nth_error cs i = Some c -> nth_error (st_chars s) (j + i) = Some c) ->
      (length xs <= length cs)%nat -> Forall (fun b => b < 255) xs -> sel result f ->
      exists o, st_eq_loop ops cs xs result = Some o /\
      match o with
      | None => forall v, In (Some v) vals -> f v && match_at (clip v) j xs = false
      | Some r => sel r (fun v => f v && match_at (clip v) j xs)
      end.
    Proof.
      induction xs as [|x xs IH]; intros cs j result f C L F S; cbn [st_eq_loop match_at].
      - exists (Some result). split; auto. eapply sel_ext; [|exact S]. intros v _. now rewrite andb_true_r.
      - inversion F as [|? ? X F']; subst. destruct cs as [|c cs]; [cbn in L; lia|]. cbn [length] in L.
        destruct (char_wsel j c x) as (bm & -> & SB); try lia.
        { rewrite <- (Nat.add_0_r j). apply C. reflexivity. }
        pose proof (sel_and_w ops content laws off vals _ _ _ _ S SB) as SA.
        destruct (b_all ops false (b_and ops result bm)) eqn:A.
        + exists None. split; auto. intros v H.
          pose proof (all_false_sel ops content laws off vals _ _ SA A v H) as Q. cbn beta in Q. rewrite andb_assoc.
          now rewrite Q.
        + assert (C' : forall i c', nth_error cs i = Some c' -> nth_error (st_chars s) (Datatypes.S j + i) = Some c').
          { intros i c' H. replace (Datatypes.S j + i)%nat with (j + Datatypes.S i)%nat by lia. now apply C. }
          destruct (IH cs (Datatypes.S j) _ _ C' ltac:(lia) F' SA) as (o & E & O).
          exists o. split; auto. destruct o as [r|].
          * eapply sel_ext; [|exact O]. intros v _. cbn beta. now rewrite andb_assoc.
          * intros v H. rewrite andb_assoc. now apply O.
    Qed.

    Lemma lookup_eq_str : forall ne x, Forall (fun b => b < 255) x ->
      exists r, st_lookup_eq ops s (N.of_nat off) ne (clip x) = Some r /\
        sel r (fun v => if ne then negb (AddressModel.bytes_eqb (clip v) (clip x)) else AddressModel.bytes_eqb (clip v) (clip x)).
    Proof.
      intros ne x F. set (xs := clip x).
      assert (LX : (length xs <= m)%nat) by (unfold xs, clip; rewrite firstn_length; lia).
      assert (FX : Forall (fun b => b < 255) xs).
      { rewrite Forall_forall in *. intros b H. apply F. unfold xs, clip in H. rewrite <- (firstn_skipn m x). apply in_app_iff. now left. }
      unfold st_lookup_eq. destruct (Nat.eqb_spec (length xs) 0) as [Z|Z].
      - assert (xs = []) as -> by now apply length_zero_iff_nil.
        destruct (len_wsel op_eq 0) as (r & E & S); [cbn; auto|lia|]. change (N.of_nat 0) with 0 in E. rewrite E. cbn [option_map].
        assert (S' : sel r (fun v => AddressModel.bytes_eqb (clip v) [])).
        { eapply sel_ext; [|exact S]. intros v _. cbn beta. destruct (clip v); reflexivity. }
        destruct ne; eexists; (split; [reflexivity|]); auto. now apply (sel_not ops content laws).
      - assert (NEW : (forall v, In (Some v) vals -> AddressModel.bytes_eqb (clip v) xs = false) -> sel (b_new ops (N.of_nat off) ne)
           (fun v => if ne then negb (AddressModel.bytes_eqb (clip v) xs) else AddressModel.bytes_eqb (clip v) xs)).
        { intros H. eapply sel_ext; [|now apply (sel_new ops content laws)]. intros v Hv. cbn beta. rewrite H by auto. now destruct ne. }
        destruct (Nat.ltb_spec (length (st_chars s)) (length xs)) as [Q|Q].
        + eexists. split; [reflexivity|]. apply NEW. intros v Hv. destruct SI as (_ & _ & _ & LN). destruct (LN v Hv) as [LV _].
          destruct (AddressModel.bytes_eqb (clip v) xs) eqn:EQ; auto. apply AddressProofs.bytes_eqb_spec in EQ. rewrite EQ in LV. lia.
        + destruct (len_wsel op_le (length xs)) as (r & -> & S); [cbn; auto|lia|]. cbn [holds] in S.
          destruct (b_all ops false r) eqn:A.
          * eexists. split; [reflexivity|]. apply NEW. intros v Hv. rewrite <- equal_match.
            pose proof (all_false_sel ops content laws off vals _ _ S A v Hv) as W. cbn beta in W. now rewrite W.
          * destruct (eq_loop_sel xs (st_chars s) 0 r _ (fun i c H => H) Q FX S) as (o & -> & O). destruct o as [q|].
            -- assert (SQ : sel q (fun v => AddressModel.bytes_eqb (clip v) xs)).
               { eapply sel_ext; [|exact O]. intros v _. cbn beta. apply equal_match. }
               destruct ne; eexists; (split; [reflexivity|]); auto. now apply (sel_not ops content laws).
            -- eexists. split; [reflexivity|]. apply NEW. intros v Hv. rewrite <- equal_match. now apply O.
    Qed.

    Lemma window_sel : forall xs cs j substr f,
      (forall i c, nth_error cs i = Some c -> nth_error (st_chars s) (j + i) = Some c) ->
      (length xs <= length cs)%nat -> Forall (fun b => b < 255) xs -> sel substr f ->
      exists o, st_window ops cs xs substr = Some o /\
      match o with
      | None => forall v, In (Some v) vals -> f v && match_at (clip v) j xs = false
      | Some r => sel r (fun v => f v && match_at (clip v) j xs)
      end.
    Proof.
      induction xs as [|x xs IH]; intros cs j substr f C L F S; cbn [st_window match_at].
      - exists (Some substr). split; auto. eapply sel_ext; [|exact S]. intros v _. now rewrite andb_true_r.
      - inversion F as [|? ? X F']; subst. destruct cs as [|c cs]; [cbn in L; lia|]. cbn [length] in L.
        destruct (char_wsel j c x) as (bm & -> & SB); try lia.
        { rewrite <- (Nat.add_0_r j). apply C. reflexivity. }
        destruct (b_all ops false bm) eqn:A.
        + exists None. split; auto. intros v H.
          pose proof (all_false_wsel ops content laws off vals _ _ SB A v H) as Q. cbn beta in Q. rewrite Q. apply andb_false_r.
        + pose proof (sel_and_w ops content laws off vals _ _ _ _ S SB) as SA.
          assert (C' : forall i c', nth_error cs i = Some c' -> nth_error (st_chars s) (Datatypes.S j + i) = Some c').
          { intros i c' H. replace (Datatypes.S j + i)%nat with (j + Datatypes.S i)%nat by lia. now apply C. }
          destruct (IH cs (Datatypes.S j) _ _ C' ltac:(lia) F' SA) as (o & E & O).
          exists o. split; auto. destruct o as [r|].
          * eapply sel_ext; [|exact O]. intros v _. cbn beta. now rewrite andb_assoc.
          * intros v H. rewrite andb_assoc. now apply O.
    Qed.

    Lemma nth_error_skipn : forall {A} (l : list A) j i, nth_error (skipn j l) i = nth_error l (j + i).
    Proof. induction l as [|y l IH]; intros [|j] i; cbn; auto. now destruct i. Qed.

    Lemma windows_sel : forall xs is result f, Forall (fun b => b < 255) xs ->
      (forall i, In i is -> i + length xs <= length (st_chars s))%nat -> sel result f ->
      exists r, st_windows ops s (N.of_nat off) xs is result = Some r /\
        sel r (fun v => f v || existsb (fun i => match_at (clip v) i xs) is).
    Proof.
      intros xs. induction is as [|i is IH]; intros result f F H S; cbn [st_windows existsb].
      - exists result. split; auto. eapply sel_ext; [|exact S]. intros v _. now rewrite orb_false_r.
      - assert (LI : (i + length xs <= length (st_chars s))%nat) by (apply H; now left).
        assert (LK : (length xs <= length (skipn i (st_chars s)))%nat) by (rewrite skipn_length; lia).
        assert (CK : forall k c, nth_error (skipn i (st_chars s)) k = Some c -> nth_error (st_chars s) (i + k) = Some c).
        { intros k c E. now rewrite nth_error_skipn in E. }
        destruct (window_sel xs (skipn i (st_chars s)) i _ _ CK LK F (sel_new ops content laws off vals true OFF)) as (o & -> & O).
        destruct o as [q|].
        + pose proof (sel_or_w ops content laws off vals _ _ _ _ S (sel_wsel _ _ _ _ _ O)) as SO.
          destruct (IH _ _ F (fun k K => H k (or_intror K)) SO) as (r & E & R). exists r. split; auto.
          eapply sel_ext; [|exact R]. intros v _. cbn beta. cbn [andb]. now rewrite orb_assoc.
        + destruct (IH _ _ F (fun k K => H k (or_intror K)) S) as (r & E & R). exists r. split; auto.
          eapply sel_ext; [|exact R]. intros v Hv. cbn beta. specialize (O v Hv). cbn [andb] in O. now rewrite O.
    Qed.

    Lemma infix_nil : forall w, infixb [] w = true.
    Proof. intros w. destruct w; reflexivity. Qed.

    Lemma lookup_ni_str : forall neg x, Forall (fun b => b < 255) x ->
      exists r, st_lookup_ni ops s (N.of_nat off) neg (clip x) = Some r /\
        sel r (fun v => if neg then negb (infixb (clip x) (clip v)) else infixb (clip x) (clip v)).
    Proof.
      intros neg x F. set (xs := clip x).
      assert (FX : Forall (fun b => b < 255) xs).
      { rewrite Forall_forall in *. intros b H. apply F. unfold xs, clip in H. rewrite <- (firstn_skipn m x). apply in_app_iff. now left. }
      unfold st_lookup_ni. destruct (Nat.eqb_spec (length xs) 0) as [Z|Z].
      - assert (xs = []) as -> by now apply length_zero_iff_nil. eexists. split; [reflexivity|].
        eapply sel_ext; [|now apply (sel_new ops content laws)]. intros v _. cbn beta. rewrite infix_nil. now destruct neg.
      - assert (LV : forall v, In (Some v) vals -> (length (clip v) <= length (st_chars s))%nat) by (intros v Hv; now apply SI).
        destruct (Nat.ltb_spec (length (st_chars s)) (length xs)) as [Q|Q].
        + eexists. split; [reflexivity|]. eapply sel_ext; [|now apply (sel_new ops content laws)]. intros v Hv. cbn beta.
          destruct (infixb xs (clip v)) eqn:IX; [|now destruct neg]. apply infixb_spec in IX as (pre & post & E).
          specialize (LV v Hv). rewrite E, !app_length in LV. lia.
        + assert (RI : forall i, In i (seq 0 (length (st_chars s) - length xs + 1)) -> (i + length xs <= length (st_chars s))%nat)
            by (intros i I; apply in_seq in I; lia).
          destruct (windows_sel xs _ _ _ FX RI (sel_new ops content laws off vals false OFF)) as (r & -> & R).
          cbn [option_map].
          assert (S : sel r (fun v => infixb xs (clip v))).
          { eapply sel_ext; [|exact R]. intros v Hv. cbn beta. cbn [orb].
            destruct (windows_infix (clip v) xs (length (st_chars s)) (LV v Hv) Q) as [E|E]; auto. rewrite E in Z. now destruct Z. }
          destruct neg; eexists; (split; [reflexivity|]); auto. now apply (sel_not ops content laws).
    Qed.
  End Lookup.

  (** What a lookup means for the indexed parts of the strings. *)
  Definition string_meaning (op : relop) (v x : list N) : bool :=
    match op with
    | op_eq => AddressModel.bytes_eqb v x
    | op_ne => negb (AddressModel.bytes_eqb v x)
    | op_ni => infixb x v
    | op_not_ni => negb (infixb x v)
    | _ => false
    end.

  Lemma string_answers : forall op x, Forall (fun b => b < 255) x -> In op [op_eq; op_ne; op_ni; op_not_ni] ->
    answers content (string_impl ops) StInv op x (fun v => string_meaning op (clip v) (clip x)).
  Proof.
    intros op x F O s vals off SI OFF. cbn [i_lookup string_impl]. unfold st_lookup.
    rewrite (proj2 (st_clip_eq s x (proj1 SI))). cbn in O.
    destruct O as [<-|[<-|[<-|[<-|[] ] ] ] ].
    - destruct (lookup_eq_str s vals off SI OFF false x F) as (r & E & S). exists r. split; auto. now apply sel_wsel in S.
    - destruct (lookup_eq_str s vals off SI OFF true x F) as (r & E & S). exists r. split; auto. now apply sel_wsel in S.
    - destruct (lookup_ni_str s vals off SI OFF false x F) as (r & E & S). exists r. split; auto. now apply sel_wsel in S.
    - destruct (lookup_ni_str s vals off SI OFF true x F) as (r & E & S). exists r. split; auto. now apply sel_wsel in S.
  Qed.
End Strings.

(** * The enumeration index *)

Section Enums.
  Context {B : Type} (ops : bitmap_ops B) (content : B -> list bool).
  Context (laws : bitmap_laws ops content).

  Definition EInv (s : vcoder B) (vals : list (option N)) : Prop :=
    Inv content false 256 eq_col s vals /\ forall v, In (Some v) vals -> v < 256.

  Lemma EInv_new : EInv (enum_new ops) [].
  Proof. split; [apply (Inv_new ops content laws false 256)|]. intros v []. Qed.

  Lemma enum_accepts : forall v, v < 256 -> accepts (enum_impl ops) EInv v.
  Proof.
    intros v V s vals pos [I W] P. cbn [i_append enum_impl].
    pose proof (Inv_skip content false 256 eq_col s vals (N.of_nat pos - vsize s) ltac:(reflexivity) I) as IS.
    destruct (eq_encode_inv ops content laws 256 _ _ v 1 IS ltac:(lia)) as (c & E & IE). exists c. split; auto.
    pose proof (proj1 I) as SZ. split.
    - rewrite app_assoc. replace (pos - length vals)%nat with (N.to_nat (N.of_nat pos - vsize s)) by lia. exact IE.
    - intros w H. rewrite !in_app_iff in H. destruct H as [H|[H|[H|[] ] ] ]; auto.
      + apply repeat_spec in H. discriminate.
      + injection H as <-. auto.
  Qed.

  Lemma enum_answers : forall op x, In op six -> x < 256 ->
    answers content (enum_impl ops) EInv op x (fun v => holds op v x).
  Proof.
    intros op x O X s vals off [I W] L. cbn [i_lookup enum_impl].
    assert (CO : comparison op) by (cbn in O; intuition (subst; exact Logic.I)).
    destruct (eq_decode_spec ops content laws 256 s vals op x I) as (r & E & C); auto; [intros o v H ->; now apply W|].
    exists r. split; [cbn in O; intuition (subst; exact E)|].
    pose proof (sel_content content off vals r _ L C) as S. exact (sel_wsel _ _ _ _ _ S).
  Qed.
End Enums.
