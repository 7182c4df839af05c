(** Proofs about the multi-level coder. *)
From Coq Require Import List ZArith NArith Lia Bool ZifyBool ZifyNat ZifyN.
From Verif Require Import NBits WordProofs OperatorModel PropsBitmapOps BitmapOps CoderModel CoderProofs.
Import ListNotations.
Open Scope N_scope.

(** * Mixed-radix digits *)

Definition product (b : list N) : N := fold_right N.mul 1 b.

Lemma decompose_length : forall b x, length (decompose b x) = length b.
Proof. induction b as [|d b IH]; intros x; cbn [decompose length]; auto. Qed.

Lemma div_product : forall d b x, 2 <= d -> x < product (d :: b) -> x / d < product b.
Proof. intros d b x D H. apply N.div_lt_upper_bound; [lia|]. exact H. Qed.

Lemma compose_from_scale : forall b m xs, compose_from m b xs = m * compose_from 1 b xs.
Proof.
  induction b as [|d b IH]; intros m [|x xs]; cbn [compose_from]; try lia.
  rewrite (IH (m * d)), (IH (1 * d)). lia.
Qed.

Lemma compose_decompose : forall b x, Forall (fun d => 2 <= d) b -> x < product b ->
  compose b (decompose b x) = x.
Proof.
  unfold compose. induction b as [|d b IH]; intros x F H.
  - cbn in *. lia.
  - apply Forall_cons_iff in F as [D F]. cbn [decompose compose_from].
    rewrite compose_from_scale, IH by (auto; now apply div_product).
    pose proof (N.div_mod x d ltac:(lia)). lia.
Qed.

Lemma decompose_bounds : forall b x, Forall (fun d => 2 <= d) b -> Forall2 (fun d y => y < d) b (decompose b x).
Proof.
  induction b as [|d b IH]; intros x F; cbn [decompose]; constructor; apply Forall_cons_iff in F as [D F]; auto.
  apply N.mod_lt. lia.
Qed.

(** Comparison of digit vectors, least significant digit first. *)
Fixpoint lexle (acc : bool) (vs xs : list N) : bool :=
  match vs, xs with
  | v :: vs', x :: xs' => lexle ((v <? x) || ((v <=? x) && acc)) vs' xs'
  | _, _ => acc
  end.

Lemma lexle_spec : forall b v x acc, Forall (fun d => 2 <= d) b -> v < product b -> x < product b ->
  lexle acc (decompose b v) (decompose b x) = (v <? x) || ((v =? x) && acc).
Proof.
  induction b as [|d b IH]; intros v x acc F V X.
  - cbn in *. assert (v = 0) by lia. assert (x = 0) by lia. subst. reflexivity.
  - apply Forall_cons_iff in F as [D F]. cbn [decompose lexle].
    rewrite IH by (auto; now apply div_product).
    pose proof (N.div_mod v d ltac:(lia)) as Ev. pose proof (N.div_mod x d ltac:(lia)) as Ex.
    pose proof (N.mod_lt v d ltac:(lia)) as Mv. pose proof (N.mod_lt x d ltac:(lia)) as Mx.
    set (vd := v / d) in *. set (vm := v mod d) in *. set (xd := x / d) in *. set (xm := x mod d) in *.
    clearbody vd vm xd xm.
    assert (A : vd < xd -> v < x) by (intros; nia).
    assert (A' : xd < vd -> x < v) by (intros; nia).
    destruct (N.lt_trichotomy vd xd) as [T|[T|T]].
    + specialize (A T). replace (vd <? xd) with true by lia. replace (v <? x) with true by lia. reflexivity.
    + subst xd. replace (v <? x) with (vm <? xm) by lia. replace (v =? x) with (vm =? xm) by lia.
      destruct acc; lia.
    + specialize (A' T). replace (vd <? xd) with false by lia. replace (vd =? xd) with false by lia.
      replace (v <? x) with false by lia. replace (v =? x) with false by lia. reflexivity.
Qed.

Fixpoint digits_eq (vs xs : list N) : bool :=
  match vs, xs with
  | v :: vs', x :: xs' => (v =? x) && digits_eq vs' xs'
  | _, _ => true
  end.

Lemma digits_eq_spec : forall b v x, Forall (fun d => 2 <= d) b -> v < product b -> x < product b ->
  digits_eq (decompose b v) (decompose b x) = (v =? x).
Proof.
  induction b as [|d b IH]; intros v x F V X.
  - cbn in *. lia.
  - apply Forall_cons_iff in F as [D F]. cbn [decompose digits_eq].
    rewrite IH by (auto; now apply div_product).
    pose proof (N.div_mod v d ltac:(lia)) as Ev. pose proof (N.div_mod x d ltac:(lia)) as Ex.
    set (vd := v / d) in *. set (vm := v mod d) in *. set (xd := x / d) in *. set (xm := x mod d) in *.
    pose proof (N.mod_lt v d ltac:(lia)) as Mv. pose proof (N.mod_lt x d ltac:(lia)) as Mx.
    fold vm in Mv. fold xm in Mx. clearbody vd vm xd xm. clear IH F V X.
    destruct (N.eqb_spec vm xm) as [->|E1]; cbn [andb].
    + destruct (N.eqb_spec vd xd) as [->|E2].
      * symmetry. apply N.eqb_eq. congruence.
      * symmetry. apply N.eqb_neq. intros ->. apply E2. nia.
    + symmetry. apply N.eqb_neq. intros ->. apply E1.
      assert (vd = xd) by nia. subst. lia.
Qed.

Section ML.
  Context {B : Type} (ops : bitmap_ops B) (content : B -> list bool).
  Context (laws : bitmap_laws ops content).

  Notation bit := (bit content).
  Notation len := (len content).

  Definition digit_rows (d : N) (rows : list (option N)) := map (option_map (fun v => v mod d)) rows.
  Definition rest_rows (d : N) (rows : list (option N)) := map (option_map (fun v => v / d)) rows.

  (** Every component satisfies [P] for its digit of each row. *)
  Fixpoint comps (P : N -> vcoder B -> list (option N) -> Prop) (b : list N) (cs : list (vcoder B))
    (rows : list (option N)) : Prop :=
    match b, cs with
    | [], [] => True
    | d :: b', c :: cs' => P d c (digit_rows d rows) /\ comps P b' cs' (rest_rows d rows)
    | _, _ => False
    end.

  Lemma digit_rows_app : forall d a b, digit_rows d (a ++ b) = digit_rows d a ++ digit_rows d b.
  Proof. intros. apply map_app. Qed.
  Lemma rest_rows_app : forall d a b, rest_rows d (a ++ b) = rest_rows d a ++ rest_rows d b.
  Proof. intros. apply map_app. Qed.
  Lemma digit_rows_repeat : forall d r n, digit_rows d (repeat r n) = repeat (option_map (fun v => v mod d) r) n.
  Proof. intros. apply map_repeat. Qed.
  Lemma rest_rows_repeat : forall d r n, rest_rows d (repeat r n) = repeat (option_map (fun v => v / d) r) n.
  Proof. intros. apply map_repeat. Qed.

  Section Generic.
    Variable (P : N -> vcoder B -> list (option N) -> Prop) (k : N -> N) (dflt : bool).
    Variable (enc : vcoder B -> N -> N -> option (vcoder B)).
    Hypothesis P_new : forall d, 2 <= d -> P d (vnew ops (k d)) [].
    Hypothesis P_enc : forall d c rows x n, 2 <= d -> P d c rows -> x < d ->
      exists c', enc c x n = Some c' /\ P d c' (rows ++ repeat (Some x) (N.to_nat n)).
    Hypothesis P_skip : forall d c rows n, P d c rows -> P d (vskip c n) (rows ++ repeat None (N.to_nat n)).
    Hypothesis P_app : forall d c rows o rows', P d c rows -> P d o rows' ->
      exists c', vappend ops dflt c o = Some c' /\ P d c' (rows ++ rows').
    Hypothesis P_touch : forall d c rows i, P d c rows -> P d (touch ops dflt c i) rows.

    Lemma comps_new : forall b, Forall (fun d => 2 <= d) b -> comps P b (map (fun d => vnew ops (k d)) b) [].
    Proof. induction 1; cbn; auto. Qed.

    Lemma comps_enc : forall b cs rows x n, Forall (fun d => 2 <= d) b -> comps P b cs rows ->
      exists cs', encode_all enc cs (decompose b x) n = Some cs' /\
        comps P b cs' (rows ++ repeat (Some x) (N.to_nat n)).
    Proof.
      induction b as [|d b IH]; intros [|c cs] rows x n F H; cbn [comps] in H; try contradiction.
      - exists []. split; auto.
      - apply Forall_cons_iff in F as [D F]. destruct H as [H1 H2]. cbn [decompose encode_all].
        destruct (P_enc d c _ (x mod d) n D H1) as (c' & -> & H1'); [apply N.mod_lt; lia|].
        destruct (IH cs _ (x / d) n F H2) as (cs' & -> & H2').
        exists (c' :: cs'). split; auto. cbn [comps].
        rewrite digit_rows_app, rest_rows_app, digit_rows_repeat, rest_rows_repeat. auto.
    Qed.

    Lemma comps_skip : forall b cs rows n, comps P b cs rows ->
      comps P b (map (fun v => vskip v n) cs) (rows ++ repeat None (N.to_nat n)).
    Proof.
      induction b as [|d b IH]; intros [|c cs] rows n H; cbn [comps] in H; try contradiction; cbn [map comps]; auto.
      destruct H as [H1 H2]. rewrite digit_rows_app, rest_rows_app, digit_rows_repeat, rest_rows_repeat.
      split; [now apply P_skip|now apply IH].
    Qed.

    Lemma comps_app : forall b cs rows os rows', comps P b cs rows -> comps P b os rows' ->
      exists cs', append_all ops dflt cs os = Some cs' /\ comps P b cs' (rows ++ rows').
    Proof.
      induction b as [|d b IH]; intros [|c cs] rows [|o os] rows' H H'; cbn [comps] in H, H'; try contradiction.
      - exists []. auto.
      - destruct H as [H1 H2], H' as [H1' H2']. cbn [append_all].
        destruct (P_app d c _ o _ H1 H1') as (c' & -> & A1).
        destruct (IH cs _ os _ H2 H2') as (cs' & -> & A2).
        exists (c' :: cs'). split; auto. cbn [comps]. rewrite digit_rows_app, rest_rows_app. auto.
    Qed.

    Lemma comps_touch : forall b cs rows i j, comps P b cs rows ->
      comps P b (update i (fun v => touch ops dflt v j) cs) rows.
    Proof.
      induction b as [|d b IH]; intros [|c cs] rows i j H; cbn [comps] in H; try contradiction.
      - now destruct i.
      - destruct H as [H1 H2]. destruct i as [|i]; cbn [update comps]; auto.
    Qed.
  End Generic.

  Lemma nth_option_map : forall (f : N -> N) rows p, nth p (map (option_map f) rows) None = option_map f (nth p rows None).
  Proof. intros. now rewrite <- (map_nth (option_map f)). Qed.

  Lemma value0_div : forall d r, d <> 0 -> value0 (option_map (fun v => v / d) r) = value0 r / d.
  Proof. intros d [v|] H; cbn [option_map value0]; auto. Qed.
  Lemma value0_mod : forall d r, d <> 0 -> value0 (option_map (fun v => v mod d) r) = value0 r mod d.
  Proof. intros d [v|] H; cbn [option_map value0]; auto. Qed.

  (** * Range components *)

  Definition PRange (d : N) (c : vcoder B) (rows : list (option N)) : Prop :=
    Inv content true (N.to_nat (d - 1)) range_col c rows.

  Lemma PRange_at : forall d c rows i, PRange d c rows -> i < d - 1 ->
    exists bm, lazy_at ops true c i = Some bm /\ len bm = length rows /\
      forall p, (p < length rows)%nat -> bit bm p = (value0 (nth p rows None) <=? i).
  Proof.
    intros d c rows i H L.
    destruct (Inv_lazy ops content laws true _ range_col c rows i H ltac:(lia)) as (bm & E & C).
    exists bm. split; auto. split; [unfold BitmapOps.len; now rewrite C, map_length|].
    intros p Hp. unfold BitmapOps.bit. rewrite C, (nth_map_default _ _ _ _ None), range_col_value0 by auto.
    now rewrite N2Nat.id.
  Qed.

  Lemma ml_le_loop_spec : forall b cs rows x result, Forall (fun d => 2 <= d) b ->
    comps PRange b cs rows -> len result = length rows ->
    exists r, ml_le_loop ops b cs (decompose b x) result = Some r /\ len r = length rows /\
      forall p, (p < length rows)%nat ->
        bit r p = lexle (bit result p) (decompose b (value0 (nth p rows None))) (decompose b x).
  Proof.
    induction b as [|d b IH]; intros [|c cs] rows x result F H L; cbn [comps] in H; try contradiction.
    - exists result. cbn. auto.
    - apply Forall_cons_iff in F as [D F]. destruct H as [H1 H2]. cbn [decompose ml_le_loop].
      set (xi := x mod d). assert (Hx : xi < d) by (apply N.mod_lt; lia).
      assert (LD : length (digit_rows d rows) = length rows) by apply map_length.
      assert (LR : length (rest_rows d rows) = length rows) by apply map_length.
      assert (S1 : exists r1, (if xi =? d - 1 then Some result else option_map (b_and ops result) (lazy_at ops true c xi)) = Some r1 /\
        len r1 = length rows /\ forall p, (p < length rows)%nat -> bit r1 p = bit result p && (value0 (nth p rows None) mod d <=? xi)).
      { destruct (N.eqb_spec xi (d - 1)) as [E|E].
        - exists result. split; auto. split; auto. intros p Hp.
          assert (value0 (nth p rows None) mod d < d) by (apply N.mod_lt; lia).
          replace (_ <=? xi) with true by lia. now rewrite andb_true_r.
        - destruct (PRange_at d c _ xi H1 ltac:(lia)) as (bm & -> & Lb & Bb).
          eexists. split; [reflexivity|]. rewrite (len_and _ _ laws). split; [lia|].
          intros p Hp. rewrite (bit_and _ _ laws), Bb by lia. unfold digit_rows. rewrite nth_option_map.
          now rewrite value0_mod by lia. }
      destruct S1 as (r1 & -> & L1 & B1).
      assert (S2 : exists r2, (if xi =? 0 then Some r1 else option_map (b_or ops r1) (lazy_at ops true c (xi - 1))) = Some r2 /\
        len r2 = length rows /\ forall p, (p < length rows)%nat -> bit r2 p = bit r1 p || (value0 (nth p rows None) mod d <? xi)).
      { destruct (N.eqb_spec xi 0) as [E|E].
        - exists r1. split; auto. split; auto. intros p Hp.
          replace (_ <? xi) with false by lia. now rewrite orb_false_r.
        - destruct (PRange_at d c _ (xi - 1) H1 ltac:(lia)) as (bm & -> & Lb & Bb).
          eexists. split; [reflexivity|]. rewrite (len_or _ _ laws). split; [lia|].
          intros p Hp. rewrite (bit_or _ _ laws), Bb by lia. unfold digit_rows. rewrite nth_option_map.
          rewrite value0_mod by lia. f_equal. lia. }
      destruct S2 as (r2 & -> & L2 & B2).
      destruct (IH cs (rest_rows d rows) (x / d) r2 F H2 ltac:(lia)) as (r & E & Lr & Br).
      exists r. split; auto. split; [lia|]. intros p Hp. rewrite Br by lia.
      cbn [lexle]. unfold rest_rows. rewrite nth_option_map, value0_div by lia.
      f_equal. rewrite B2, B1 by auto. fold xi. set (vm := _ mod d). clearbody vm.
      destruct (bit result p); lia.
  Qed.

  Lemma ml_eq_loop_spec : forall b cs rows x result, Forall (fun d => 2 <= d) b ->
    comps PRange b cs rows -> len result = length rows ->
    exists r, ml_eq_loop ops b cs (decompose b x) result = Some r /\ len r = length rows /\
      forall p, (p < length rows)%nat ->
        bit r p = bit result p && digits_eq (decompose b (value0 (nth p rows None))) (decompose b x).
  Proof.
    induction b as [|d b IH]; intros [|c cs] rows x result F H L; cbn [comps] in H; try contradiction.
    - exists result. cbn. split; auto. split; auto. intros. now rewrite andb_true_r.
    - apply Forall_cons_iff in F as [D F]. destruct H as [H1 H2]. cbn [decompose ml_eq_loop].
      set (xi := x mod d). assert (Hx : xi < d) by (apply N.mod_lt; lia).
      assert (LD : length (digit_rows d rows) = length rows) by apply map_length.
      assert (LR : length (rest_rows d rows) = length rows) by apply map_length.
      set (m := if xi =? 0 then _ else _).
      assert (S1 : exists r1, m = Some r1 /\
        len r1 = length rows /\ forall p, (p < length rows)%nat -> bit r1 p = (value0 (nth p rows None) mod d =? xi)).
      { assert (AT : forall i, i < d - 1 -> exists bm, lazy_at ops true c i = Some bm /\ len bm = length rows /\
          forall p, (p < length rows)%nat -> bit bm p = (value0 (nth p rows None) mod d <=? i)).
        { intros i Hi. destruct (PRange_at d c _ i H1 Hi) as (bm & E & Lb & Bb). exists bm. split; auto. split; [lia|].
          intros p Hp. rewrite Bb by lia. unfold digit_rows. now rewrite nth_option_map, value0_mod by lia. }
        subst m. destruct (N.eqb_spec xi 0) as [E|E]; [|destruct (N.eqb_spec xi (d - 1)) as [E'|E']].
        - destruct (AT 0 ltac:(lia)) as (bm & -> & Lb & Bb). exists bm. split; auto. split; auto.
          intros p Hp. rewrite Bb by auto. lia.
        - destruct (AT (d - 2) ltac:(lia)) as (bm & -> & Lb & Bb). eexists. split; [reflexivity|].
          rewrite (len_not _ _ laws). split; auto. intros p Hp. rewrite (bit_not _ _ laws), Bb by auto.
          assert (value0 (nth p rows None) mod d < d) by (apply N.mod_lt; lia). lia.
        - destruct (AT xi ltac:(lia)) as (bm & -> & Lb & Bb).
          destruct (AT (xi - 1) ltac:(lia)) as (bm' & -> & Lb' & Bb'). eexists. split; [reflexivity|].
          rewrite (len_xor _ _ laws). split; [lia|]. intros p Hp. rewrite (bit_xor _ _ laws), Bb, Bb' by auto.
          set (vm := _ mod d). clearbody vm. destruct (N.leb_spec vm xi), (N.leb_spec vm (xi - 1)); cbn; lia. }
      destruct S1 as (r1 & -> & L1 & B1).
      destruct (IH cs (rest_rows d rows) (x / d) (b_and ops result r1) F H2) as (r & E & Lr & Br).
      { rewrite (len_and _ _ laws). lia. }
      exists r. split; auto. split; [lia|]. intros p Hp. rewrite Br by lia.
      cbn [digits_eq]. unfold rest_rows. rewrite nth_option_map, value0_div by lia.
      rewrite (bit_and _ _ laws), B1 by auto. now rewrite andb_assoc.
  Qed.

  Definition MRange (b : list N) (c : mcoder B) (rows : list (option N)) : Prop :=
    mbase c = b /\ comps PRange b (mcoders c) rows.

  Lemma comps_sizes : forall b cs rows, comps PRange b cs rows ->
    Forall (fun v => vsize v = N.of_nat (length rows)) cs.
  Proof.
    induction b as [|d b IH]; intros [|c cs] rows H; cbn [comps] in H; try contradiction; constructor.
    - destruct H as [(S & _) _]. rewrite S. unfold digit_rows. now rewrite map_length.
    - destruct H as [_ H]. apply IH in H. unfold rest_rows in H. now rewrite map_length in H.
  Qed.

  Lemma ml_range_eval_spec : forall b c rows op x, MRange b c rows -> Forall (fun d => 2 <= d) b -> b <> [] ->
    Forall (fun r => value0 r < product b) rows -> x < product b -> comparison op ->
    exists r, ml_range_eval ops c op x = Some r /\ content r =
      map (fun r => match op with
                    | op_lt | op_le => value0 r <=? x
                    | op_gt | op_ge => x <? value0 r
                    | op_eq => value0 r =? x
                    | _ => negb (value0 r =? x)
                    end) rows.
  Proof.
    intros b c rows op x [MB MC] F NE V X CO. pose proof (comps_sizes _ _ _ MC) as SZ.
    destruct b as [|d b]; [contradiction|]. destruct (mcoders c) as [|c0 cs] eqn:EC; [contradiction|].
    pose proof (Forall_inv SZ) as S0. apply Forall_cons_iff in F as [D F0].
    assert (NEW : len (b_new ops (ml_size c) true) = length rows /\
      forall p, (p < length rows)%nat -> bit (b_new ops (ml_size c) true) p = true).
    { unfold ml_size. rewrite EC, S0. rewrite (len_new _ _ laws). split; [lia|].
      intros p Hp. rewrite (bit_new _ _ laws). lia. }
    destruct NEW as [NL NB].
    assert (VP : forall p, (p < length rows)%nat -> value0 (nth p rows None) < product (d :: b)).
    { intros p Hp. rewrite Forall_forall in V. apply V. now apply nth_In. }
    assert (LE : exists r, match (if x mod d <? d - 1 then lazy_at ops true c0 (x mod d) else Some (b_new ops (ml_size c) true)) with
                 | None => None | Some r0 => ml_le_loop ops b cs (decompose b (x / d)) r0 end = Some r /\
      len r = length rows /\ forall p, (p < length rows)%nat -> bit r p = (value0 (nth p rows None) <=? x)).
    { destruct MC as [P0 PC]. set (xi := x mod d). assert (Hx : xi < d) by (apply N.mod_lt; lia).
      assert (S1 : exists r0, (if xi <? d - 1 then lazy_at ops true c0 xi else Some (b_new ops (ml_size c) true)) = Some r0 /\
        len r0 = length rows /\ forall p, (p < length rows)%nat -> bit r0 p = (value0 (nth p rows None) mod d <=? xi)).
      { destruct (N.ltb_spec xi (d - 1)) as [H|H].
        - destruct (PRange_at d c0 _ xi P0 H) as (bm & E & Lb & Bb). exists bm. split; auto.
          unfold digit_rows in Lb. rewrite map_length in Lb. split; auto. intros p Hp.
          rewrite Bb by (unfold digit_rows; now rewrite map_length). unfold digit_rows.
          now rewrite nth_option_map, value0_mod by lia.
        - eexists. split; [reflexivity|]. split; auto. intros p Hp. rewrite NB by auto.
          assert (value0 (nth p rows None) mod d < d) by (apply N.mod_lt; lia). lia. }
      destruct S1 as (r0 & -> & L0 & B0).
      assert (LR : length (rest_rows d rows) = length rows) by apply map_length.
      destruct (ml_le_loop_spec b cs (rest_rows d rows) (x / d) r0 F0 PC ltac:(lia)) as (r & E & Lr & Br).
      exists r. split; auto. split; [lia|]. intros p Hp. rewrite Br by lia. unfold rest_rows.
      rewrite nth_option_map, value0_div, B0 by (auto; lia).
      pose proof (lexle_spec (d :: b) (value0 (nth p rows None)) x true) as Q.
      cbn [decompose lexle] in Q. rewrite andb_true_r in Q. fold xi in Q.
      replace (value0 (nth p rows None) mod d <=? xi) with
        ((value0 (nth p rows None) mod d <? xi) || (value0 (nth p rows None) mod d <=? xi)) by lia.
      rewrite Q; auto. lia. }
    assert (EQ : exists r, ml_eq_loop ops (d :: b) (c0 :: cs) (decompose (d :: b) x) (b_new ops (ml_size c) true) = Some r /\
      len r = length rows /\ forall p, (p < length rows)%nat -> bit r p = (value0 (nth p rows None) =? x)).
    { destruct (ml_eq_loop_spec (d :: b) (c0 :: cs) rows x (b_new ops (ml_size c) true)) as (r & E & Lr & Br); auto.
      exists r. split; auto. split; auto. intros p Hp. rewrite Br, NB by auto. cbn [andb].
      apply digits_eq_spec; auto. }
    assert (FIN : forall r (f : N -> bool), len r = length rows -> (forall p, (p < length rows)%nat -> bit r p = f (value0 (nth p rows None))) ->
      content r = map (fun r => f (value0 r)) rows /\ content (b_not ops r) = map (fun r => negb (f (value0 r))) rows).
    { intros r f Lr Br.
      assert (C : content r = map (fun r => f (value0 r)) rows).
      { apply content_ext; [now rewrite map_length|]. intros p Hp. rewrite map_length in Hp.
        rewrite Br by auto. now rewrite (nth_map_default _ _ _ _ None) by auto. }
      split; auto. rewrite (law_not _ _ laws), C. apply map_map. }
    unfold ml_range_eval. rewrite MB, EC. cbn [decompose]. cbn [decompose] in EQ.
    destruct LE as (rl & El & Ll & Bl). destruct EQ as (re & Ee & Le & Be).
    destruct (FIN rl (fun v => v <=? x) Ll Bl) as [FL FLn]. destruct (FIN re (fun v => v =? x) Le Be) as [FE FEn].
    destruct op; try contradiction; rewrite ?El, ?Ee; eexists; (split; [reflexivity|]); auto.
    - rewrite FLn. apply map_ext. intros r. lia.
    - rewrite FLn. apply map_ext. intros r. lia.
  Qed.

  Lemma ml_range_decode_spec : forall b c rows op x, MRange b c rows -> Forall (fun d => 2 <= d) b -> b <> [] ->
    Forall (fun r => value0 r < product b) rows -> x < product b -> comparison op ->
    exists r, ml_range_decode ops c op x = Some r /\ content r = map (fun r => compare_op op (value0 r) x) rows.
  Proof.
    intros b c rows op x M F NE V X CO. pose proof M as [MB MC]. pose proof (comps_sizes _ _ _ MC) as SZ.
    unfold ml_range_decode. destruct b as [|d b]; [contradiction|].
    destruct (mcoders c) as [|c0 cs] eqn:EC; [contradiction|].
    pose proof (Forall_inv SZ) as S0.
    assert (MS : ml_size c = N.of_nat (length rows)) by (unfold ml_size; now rewrite EC).
    assert (forallb (fun v => vsize v =? ml_size c) (c0 :: cs) = true) as ->.
    { apply forallb_forall. intros v Hv. rewrite Forall_forall in SZ. apply N.eqb_eq. rewrite MS. auto. }
    assert (NEW : forall b, content (b_new ops (ml_size c) b) = map (fun _ => b) rows).
    { intros y. rewrite (content_new _ _ laws), MS, Nat2N.id. clear. induction rows; cbn; congruence. }
    destruct op; try contradiction; cbn [compare_op].
    - destruct (ml_range_eval_spec _ c rows op_eq x M F NE V X I) as (r & E & C). eauto.
    - destruct (ml_range_eval_spec _ c rows op_ne x M F NE V X I) as (r & E & C). eauto.
    - destruct (N.eqb_spec x 0) as [->|NZ].
      + eexists. split; [reflexivity|]. rewrite NEW. apply map_ext. intros r. lia.
      + destruct (ml_range_eval_spec _ c rows op_lt (x - 1) M F NE V ltac:(lia) I) as (r & E & C).
        exists r. split; auto. rewrite C. apply map_ext. intros q. lia.
    - destruct (ml_range_eval_spec _ c rows op_le x M F NE V X I) as (r & E & C). eauto.
    - destruct (ml_range_eval_spec _ c rows op_gt x M F NE V X I) as (r & E & C). eauto.
    - destruct (N.eqb_spec x 0) as [->|NZ].
      + eexists. split; [reflexivity|]. rewrite NEW. apply map_ext. intros r. lia.
      + destruct (ml_range_eval_spec _ c rows op_ge (x - 1) M F NE V ltac:(lia) I) as (r & E & C).
        exists r. split; auto. rewrite C. apply map_ext. intros q. lia.
  Qed.

  (** * Equality and bitslice components *)

  Section Simple.
    Variable (P : N -> vcoder B -> list (option N) -> Prop) (dec : vcoder B -> relop -> N -> option B).
    (** What is known about rows that were skipped. *)
    Variable (none : option bool).
    Hypothesis P_dec : forall d c rows x, 2 <= d -> P d c rows -> Forall (fun r => value0 r < d) rows -> x < d ->
      exists r, dec c op_eq x = Some r /\ (len r <= length rows)%nat /\
        forall p q b, nth_error rows p = Some q ->
          (match q with Some v => Some (v =? x) | None => none end) = Some b -> (p < len r)%nat /\ bit r p = b.
    Hypothesis none_false : none <> Some true.

    Definition answer (b : list N) (x : N) (q : option N) (acc : bool) : option bool :=
      match q with Some v => Some (acc && digits_eq (decompose b v) (decompose b x)) | None => none end.

    Lemma digit_rows_bound : forall d rows, 2 <= d -> Forall (fun r => value0 r < d) (digit_rows d rows).
    Proof.
      intros d rows D. apply Forall_forall. intros r H. unfold digit_rows in H. apply in_map_iff in H as (q & <- & _).
      destruct q as [v|]; cbn [option_map value0]; [apply N.mod_lt; lia|lia].
    Qed.

    Lemma ml_and_loop_spec : forall b cs rows x result, Forall (fun d => 2 <= d) b -> comps P b cs rows ->
      (len result <= length rows)%nat ->
      (forall p v, nth_error rows p = Some (Some v) -> (p < len result)%nat) ->
      (none = Some false -> forall p, nth_error rows p = Some None -> (p < len result)%nat /\ bit result p = false) ->
      exists r, ml_and_loop ops dec cs (decompose b x) result = Some r /\ (len r <= length rows)%nat /\
        forall p q y, nth_error rows p = Some q -> answer b x q (bit result p) = Some y ->
          (p < len r)%nat /\ bit r p = y.
    Proof.
      induction b as [|d b IH]; intros [|c cs] rows x result F H L CV NV; cbn [comps] in H; try contradiction.
      - exists result. cbn [decompose ml_and_loop]. split; auto. split; auto.
        intros p [v|] y R A; cbn [answer decompose digits_eq] in A.
        + rewrite andb_true_r in A. injection A as <-. split; auto. eapply CV; eauto.
        + cbn [answer] in A. destruct none as [[]|] eqn:NN; try discriminate; [now destruct none_false|].
          injection A as <-. now apply NV.
      - apply Forall_cons_iff in F as [D F]. destruct H as [H1 H2]. cbn [decompose ml_and_loop].
        destruct (P_dec d c _ (x mod d) D H1 (digit_rows_bound d rows D) ltac:(apply N.mod_lt; lia)) as (r0 & -> & L0 & B0).
        unfold digit_rows in L0. rewrite map_length in L0.
        assert (B0' : forall p q y, nth_error rows p = Some q ->
          (match q with Some v => Some (v mod d =? x mod d) | None => none end) = Some y -> (p < len r0)%nat /\ bit r0 p = y).
        { intros p q y R A. apply (B0 p (option_map (fun v => v mod d) q)).
          - unfold digit_rows. rewrite nth_error_map, R. reflexivity.
          - now destruct q. }
        destruct (IH cs (rest_rows d rows) (x / d) (b_and ops result r0) F H2) as (r & E & Lr & Br).
        + unfold rest_rows. rewrite map_length, (len_and _ _ laws). lia.
        + intros p v R. unfold rest_rows in R. rewrite nth_error_map in R.
          destruct (nth_error rows p) as [[w|]|] eqn:Q; try discriminate. rewrite (len_and _ _ laws).
          pose proof (CV p w Q). lia.
        + intros Q p R. unfold rest_rows in R. rewrite nth_error_map in R.
          destruct (nth_error rows p) as [[w|]|] eqn:Q'; try discriminate.
          destruct (NV Q p Q'). rewrite (len_and _ _ laws), (bit_and _ _ laws). split; [lia|]. now rewrite H0.
        + exists r. split; auto. unfold rest_rows in Lr. rewrite map_length in Lr. split; auto.
          intros p q y R A. apply (Br p (option_map (fun v => v / d) q)).
          * unfold rest_rows. now rewrite nth_error_map, R.
          * destruct q as [v|]; cbn [option_map answer] in *; auto. rewrite <- A. f_equal.
            rewrite (bit_and _ _ laws). destruct (B0' p _ (v mod d =? x mod d) R eq_refl) as (_ & ->).
            cbn [decompose digits_eq]. now rewrite andb_assoc.
    Qed.

    Lemma ml_simple_eq : forall b c rows x, mbase c = b -> comps P b (mcoders c) rows ->
      Forall (fun d => 2 <= d) b -> b <> [] -> Forall (fun r => value0 r < product b) rows -> x < product b ->
      exists r, ml_simple_decode ops dec c op_eq x = Some r /\ ml_simple_decode ops dec c op_ne x = Some (b_not ops r) /\
        (len r <= length rows)%nat /\
        forall p q y, nth_error rows p = Some q ->
          (match q with Some v => Some (v =? x) | None => none end) = Some y -> (p < len r)%nat /\ bit r p = y.
    Proof.
      intros b c rows x MB MC F NE V X. unfold ml_simple_decode. rewrite MB.
      destruct b as [|d b]; [contradiction|]. destruct (mcoders c) as [|c0 cs]; [contradiction|].
      pose proof F as F'. apply Forall_cons_iff in F as [D F]. destruct MC as [H1 H2]. cbn [decompose].
      destruct (P_dec d c0 _ (x mod d) D H1 (digit_rows_bound d rows D) ltac:(apply N.mod_lt; lia)) as (r0 & -> & L0 & B0).
      unfold digit_rows in L0. rewrite map_length in L0.
      assert (B0' : forall p q y, nth_error rows p = Some q ->
        (match q with Some v => Some (v mod d =? x mod d) | None => none end) = Some y -> (p < len r0)%nat /\ bit r0 p = y).
      { intros p q y R A. apply (B0 p (option_map (fun v => v mod d) q)).
        - unfold digit_rows. rewrite nth_error_map, R. reflexivity.
        - now destruct q. }
      destruct (ml_and_loop_spec b cs (rest_rows d rows) (x / d) r0 F H2) as (r & -> & Lr & Br).
      - unfold rest_rows. now rewrite map_length.
      - intros p v R. unfold rest_rows in R. rewrite nth_error_map in R.
        destruct (nth_error rows p) as [[w|]|] eqn:Q; try discriminate. eapply (B0' p); eauto; reflexivity.
      - intros Q p R. unfold rest_rows in R. rewrite nth_error_map in R.
        destruct (nth_error rows p) as [[w|]|] eqn:Q'; try discriminate. apply (B0' p None); auto.
      - exists r. split; auto. split; auto. unfold rest_rows in Lr. rewrite map_length in Lr. split; auto.
        intros p q y R A. apply (Br p (option_map (fun v => v / d) q)).
        + unfold rest_rows. now rewrite nth_error_map, R.
        + destruct q as [v|]; cbn [option_map answer] in *; auto. rewrite <- A. f_equal.
          destruct (B0' p _ (v mod d =? x mod d) R eq_refl) as (_ & ->).
          rewrite <- (digits_eq_spec (d :: b) v x); auto.
          rewrite Forall_forall in V. apply (V (Some v)). now apply nth_error_In in R.
    Qed.
  End Simple.

  Definition PEq (d : N) (c : vcoder B) (rows : list (option N)) : Prop :=
    Inv content false (N.to_nat d) eq_col c rows.
  Definition PSlice (d : N) (c : vcoder B) (rows : list (option N)) : Prop :=
    SInv content (N.to_nat d) c rows.

  Lemma PEq_dec : forall d c rows x, 2 <= d -> PEq d c rows -> Forall (fun r => value0 r < d) rows -> x < d ->
    exists r, eq_decode ops c op_eq x = Some r /\ (len r <= length rows)%nat /\
      forall p q b, nth_error rows p = Some q ->
        (match q with Some v => Some (v =? x) | None => Some false end) = Some b -> (p < len r)%nat /\ bit r p = b.
  Proof.
    intros d c rows x D H V X.
    destruct (eq_decode_spec ops content laws _ c rows op_eq x H) as (r & E & C); auto; [|exact I|lia|].
    - intros q v Hq ->. rewrite Forall_forall in V. specialize (V _ Hq). cbn in V. lia.
    - exists r. split; auto. assert (Lr : len r = length rows) by (unfold BitmapOps.len; now rewrite C, map_length).
      split; [lia|]. intros p q b R A. assert (p < length rows)%nat by (apply nth_error_Some; congruence).
      split; [lia|]. unfold BitmapOps.bit. rewrite C, (nth_map_default _ _ _ _ None) by auto.
      rewrite (nth_error_nth _ _ _ R). destruct q; cbn in *; congruence.
  Qed.

  Lemma pow2_gt : forall d, d < 2 ^ d.
  Proof. intros d. apply N.pow_gt_lin_r. lia. Qed.

  Lemma PSlice_dec : forall d c rows x, 2 <= d -> PSlice d c rows -> Forall (fun r => value0 r < d) rows -> x < d ->
    exists r, slice_decode ops c op_eq x = Some r /\ (len r <= length rows)%nat /\
      forall p q b, nth_error rows p = Some q ->
        (match q with Some v => Some (v =? x) | None => None end) = Some b -> (p < len r)%nat /\ bit r p = b.
  Proof.
    intros d c rows x D H V X. pose proof (pow2_gt d).
    assert (X' : x < 2 ^ N.of_nat (N.to_nat d)) by (rewrite N2Nat.id; lia).
    destruct (slice_decode_spec ops content laws _ c rows op_eq x H ltac:(lia) X' (or_introl I)) as (r & E & L & P).
    exists r. split; auto. split; auto. intros p [v|] b R A; [|discriminate]. injection A as <-.
      apply (P p v R). rewrite N2Nat.id. rewrite Forall_forall in V.
      pose proof (V (Some v) (nth_error_In _ _ R)) as Q. cbn in Q. lia.
  Qed.
End ML.
