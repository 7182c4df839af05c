(** Proofs about the index for arithmetic types. *)
From Coq Require Import List ZArith NArith Lia Bool ZifyBool ZifyNat ZifyN.
From Verif Require Import WordProofs OperatorModel PropsBitmapOps BitmapOps CoderModel CoderProofs MultiLevelProofs PropsCoder
  OrderModel OrderProofs ValueIndexModel ValueIndexProofs ArithIndexModel.
Import ListNotations.
Open Scope N_scope.

(** A coder state that some history of operations with values in [P] produces. *)
Definition reach {C V T} (o : coder_ops C V T) (P : V -> Prop) (c : C) (rows : list (option V)) : Prop :=
  exists h, all_values P h /\ execute o h = Some c /\ rows_of h = rows.

Lemma reach_new : forall {C V T} (o : coder_ops C V T) P c, c_new o = Some c -> reach o P c [].
Proof. intros C V T o P c H. exists H_new. cbn. auto. Qed.

Section Numeric.
  Context {B : Type} (ops : bitmap_ops B) (content : B -> list bool).
  Context (laws : bitmap_laws ops content).
  Context {V : Type} (key : V -> option N) (qkey : relop -> V -> option N) (b : list N).
  Context (W : well_defined b = true).
  Notation prod := (fold_right N.mul 1 b).

  Definition fits (v : V) : Prop := exists k, key v = Some k /\ k < prod.
  Definition keyd (v : V) : N := match key v with Some k => k | None => 0 end.
  Definition NInv (s : mcoder B) (vals : list (option V)) : Prop :=
    reach (multi_range_ops ops b) (fun k => k < prod) s (map (option_map keyd) vals).

  Lemma ml_size_rows : forall h c, all_values (fun v => v < prod) h -> execute (multi_range_ops ops b) h = Some c ->
    ml_size c = N.of_nat (length (rows_of h)).
  Proof.
    intros h c A E. destruct (well_defined_spec b W) as [NE F].
    destruct (exec_multi ops (PRange content) (fun d => d - 1) true (range_encode ops)) with (b := b) (h := h) as (c' & E' & M & C); auto.
    - intros d D. unfold PRange. pose proof (Inv_new ops content laws true (N.to_nat (d - 1)) range_col) as H.
      now rewrite N2Nat.id in H.
    - intros d c0 rows x n D I X. apply range_encode_inv; auto. lia.
    - intros d c0 rows n I. now apply Inv_skip.
    - intros d c0 rows o rows' I I'. now apply Inv_append.
    - intros d c0 rows i I. now apply Inv_touch.
    - unfold multi_range_ops, ml_new_range in E. rewrite E in E'. injection E' as <-.
      pose proof (comps_sizes content b (mcoders c) (rows_of h) C) as Q. unfold ml_size.
      destruct b as [|d b']; [now destruct NE|]. destruct (mcoders c) as [|x cs]; [destruct C|].
      now inversion Q.
  Qed.

  Lemma numeric_accepts : forall v, fits v -> accepts (numeric_impl ops key qkey) NInv v.
  Proof.
    intros v (k & K & L) s vals pos (h & A & E & R) LE. cbn [i_append numeric_impl]. rewrite K.
    pose proof (ml_size_rows h s A E) as SZ. rewrite R, map_length in SZ.
    set (h' := H_encode (H_skip h (N.of_nat (pos - length vals))) k 1).
    assert (A' : all_values (fun v => v < prod) h') by (cbn; auto).
    destruct (C07_multi_range B ops content laws b h' W A') as (c' & E' & _).
    pose proof E' as Q. unfold h' in Q. cbn [execute] in Q. rewrite E in Q. cbn [option_map] in Q.
    exists c'. split.
    - rewrite SZ. replace (N.of_nat pos - N.of_nat (length vals)) with (N.of_nat (pos - length vals)) by lia. exact Q.
    - exists h'. split; auto. split; auto. unfold h'. cbn [rows_of]. rewrite R, !map_app, map_repeat, Nat2N.id.
      cbn [map option_map]. unfold keyd. rewrite K, <- app_assoc. reflexivity.
  Qed.

  Lemma numeric_answers : forall op x q, In op six -> qkey op x = Some q -> q < prod ->
    answers content (numeric_impl ops key qkey) NInv op x (fun v => holds op (keyd v) q).
  Proof.
    intros op x q O K L s vals off (h & A & E & R) OFF. cbn [i_lookup numeric_impl]. rewrite K.
    destruct (C07_multi_range B ops content laws b h W A) as (c & E' & D). rewrite E in E'. injection E' as <-.
    destruct (D op q O L) as (r & Q & C). exists r. split; auto. rewrite R in C. unfold BitmapOps.len, BitmapOps.bit. rewrite C.
    split; [now rewrite !map_length|].
    intros p v H. assert (p < length vals)%nat by (apply nth_error_Some; congruence).
    rewrite (nth_map_default _ _ _ _ None) by now rewrite map_length.
    rewrite (nth_map_default _ _ _ _ None) by auto. rewrite (nth_error_nth _ _ _ H). reflexivity.
  Qed.
End Numeric.

(** Booleans. *)
Section Bools.
  Context {B : Type} (ops : bitmap_ops B) (content : B -> list bool).
  Context (laws : bitmap_laws ops content).

  Definition BInv (s : B) (vals : list (option bool)) : Prop :=
    content s = map (fun v => match v with Some v => v | None => false end) vals.

  Lemma bool_accepts : forall v, accepts (bool_impl ops) BInv v.
  Proof.
    intros v s vals pos I LE. unfold BInv in *. cbn [i_append bool_impl]. eexists. split; [reflexivity|].
    unfold single_encode, single_skip. rewrite !(law_app _ _ laws), (size_len _ _ laws). unfold BitmapOps.len.
    rewrite I, map_length, !map_app, map_repeat, <- app_assoc. f_equal. f_equal. f_equal. lia.
  Qed.

  Lemma bool_answers : forall op x, op = op_eq \/ op = op_ne ->
    answers content (bool_impl ops) BInv op x (fun v => if relop_eqb op op_eq then Bool.eqb v x else negb (Bool.eqb v x)).
  Proof.
    intros op x O s vals off I OFF. cbn [i_lookup bool_impl]. unfold BInv in I.
    assert (Q : exists r, single_decode ops s op x = Some r /\
      content r = map (fun v => if relop_eqb op op_eq then Bool.eqb v x else negb (Bool.eqb v x)) (content s)).
    { destruct O as [-> | ->]; destruct x; cbn [single_decode relop_eqb]; eexists; (split; [reflexivity|]);
      rewrite ?(law_not _ _ laws); try (apply map_ext; intros []; reflexivity);
      rewrite <- (map_id (content s)) at 1; apply map_ext; intros []; reflexivity. }
    destruct Q as (r & E & C). exists r. split; auto. unfold BitmapOps.len, BitmapOps.bit. rewrite C, I.
    split; [now rewrite !map_length|].
    intros p v H. assert (p < length vals)%nat by (apply nth_error_Some; congruence).
    rewrite (nth_map_default _ _ _ _ false) by now rewrite map_length.
    rewrite (nth_map_default _ _ _ _ None) by auto. now rewrite (nth_error_nth _ _ _ H).
  Qed.
End Bools.
