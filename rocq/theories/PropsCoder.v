(** C06 and C07: bitmap coders answer relational queries exactly.

    A history is any way to bring a coder into being: encoding values with
    repeat counts, skipping rows, appending the coder of another history, and
    lazily extending single bitmaps in between (as const accesses do). The
    specification of a history is the list of its rows, [None] for a skipped row.
    All theorems hold for every bitmap type that satisfies [bitmap_laws];
    [ewah_laws] and [list_laws] are such types, and the EWAH instances are stated
    as separate theorems. *)
From Coq Require Import List ZArith NArith Lia Bool ZifyBool ZifyNat ZifyN.
From Verif Require Import NBits WordProofs OperatorModel PropsBitmapOps BitmapOps CoderModel CoderProofs MultiLevelProofs.
Import ListNotations.
Open Scope N_scope.

(** * Histories and their specification *)

Inductive hist (V T : Type) : Type :=
| H_new
| H_encode (h : hist V T) (x : V) (n : N)
| H_skip (h : hist V T) (n : N)
| H_append (h h' : hist V T)
| H_touch (h : hist V T) (t : T).
Arguments H_new {V T}. Arguments H_encode {V T}. Arguments H_skip {V T}.
Arguments H_append {V T}. Arguments H_touch {V T}.

(** The rows a history writes. *)
Fixpoint rows_of {V T} (h : hist V T) : list (option V) :=
  match h with
  | H_new => []
  | H_encode h x n => rows_of h ++ repeat (Some x) (N.to_nat n)
  | H_skip h n => rows_of h ++ repeat None (N.to_nat n)
  | H_append h h' => rows_of h ++ rows_of h'
  | H_touch h _ => rows_of h
  end.

(** All encoded values satisfy [P]. *)
Fixpoint all_values {V T} (P : V -> Prop) (h : hist V T) : Prop :=
  match h with
  | H_new => True
  | H_encode h x _ => all_values P h /\ P x
  | H_skip h _ => all_values P h
  | H_append h h' => all_values P h /\ all_values P h'
  | H_touch h _ => all_values P h
  end.

(** The operations of a coder, as modelled in CoderModel.v. *)
Record coder_ops (C V T : Type) := {
  c_new : option C;
  c_encode : C -> V -> N -> option C;
  c_skip : C -> N -> C;
  c_append : C -> C -> option C;
  c_touch : C -> T -> C
}.
Arguments c_new {C V T}. Arguments c_encode {C V T}. Arguments c_skip {C V T}.
Arguments c_append {C V T}. Arguments c_touch {C V T}.

Fixpoint execute {C V T} (o : coder_ops C V T) (h : hist V T) : option C :=
  match h with
  | H_new => c_new o
  | H_encode h x n => match execute o h with Some c => c_encode o c x n | None => None end
  | H_skip h n => option_map (fun c => c_skip o c n) (execute o h)
  | H_append h h' =>
    match execute o h, execute o h' with Some c, Some c' => c_append o c c' | _, _ => None end
  | H_touch h t => option_map (fun c => c_touch o c t) (execute o h)
  end.

Lemma execute_inv : forall {C V T} (o : coder_ops C V T) (P : V -> Prop) (I : C -> list (option V) -> Prop),
  (exists c, c_new o = Some c /\ I c []) ->
  (forall c rows x n, P x -> I c rows -> exists c', c_encode o c x n = Some c' /\ I c' (rows ++ repeat (Some x) (N.to_nat n))) ->
  (forall c rows n, I c rows -> I (c_skip o c n) (rows ++ repeat None (N.to_nat n))) ->
  (forall c rows c' rows', I c rows -> I c' rows' -> exists r, c_append o c c' = Some r /\ I r (rows ++ rows')) ->
  (forall c rows t, I c rows -> I (c_touch o c t) rows) ->
  forall h, all_values P h -> exists c, execute o h = Some c /\ I c (rows_of h).
Proof.
  intros C V T o P I N E S A Tc. induction h as [|h IH x n|h IH n|h IH h' IH'|h IH t]; cbn [all_values execute rows_of].
  - auto.
  - intros [V1 V2]. destruct (IH V1) as (c & -> & J). auto.
  - intros V1. destruct (IH V1) as (c & -> & J). cbn. eauto.
  - intros [V1 V2]. destruct (IH V1) as (c & -> & J). destruct (IH' V2) as (c' & -> & J'). auto.
  - intros V1. destruct (IH V1) as (c & -> & J). cbn. eauto.
Qed.

Lemma all_values_rows : forall {V T} P (h : hist V T), all_values P h -> forall v, In (Some v) (rows_of h) -> P v.
Proof.
  induction h as [|h IH x n|h IH n|h IH h' IH'|h IH t]; cbn [all_values rows_of]; intros H v I; auto.
  - destruct I.
  - destruct H as [H1 H2]. apply in_app_iff in I as [I|I]; auto. apply repeat_spec in I. now injection I as ->.
  - apply in_app_iff in I as [I|I]; auto. apply repeat_spec in I. discriminate.
  - destruct H as [H1 H2]. apply in_app_iff in I as [I|I]; auto.
Qed.

(** The relational operators on numbers. *)
Definition holds (op : relop) (v x : N) : bool :=
  match op with
  | op_eq => v =? x
  | op_ne => negb (v =? x)
  | op_lt => v <? x
  | op_le => v <=? x
  | op_gt => x <? v
  | op_ge => x <=? v
  | _ => false
  end.
Definition six : list relop := [op_eq; op_ne; op_lt; op_le; op_gt; op_ge].

Lemma six_comparison : forall op, In op six -> comparison op.
Proof. intros op. cbn. intuition (subst; exact I). Qed.
Lemma holds_compare : forall op v x, holds op v x = compare_op op v x.
Proof. destruct op; reflexivity. Qed.

Section Coders.
  Context {B : Type} (ops : bitmap_ops B) (content : B -> list bool).

  Definition single_ops : coder_ops B bool unit := {|
    c_new := Some (b_empty ops);
    c_encode := fun c x n => Some (single_encode ops c x n);
    c_skip := single_skip ops;
    c_append := fun a b => Some (single_append ops a b);
    c_touch := fun c _ => c
  |}.
  Definition equality_ops (k : N) : coder_ops (vcoder B) N N := {|
    c_new := Some (vnew ops k);
    c_encode := eq_encode ops;
    c_skip := vskip;
    c_append := vappend ops false;
    c_touch := touch ops false
  |}.
  Definition range_ops (k : N) : coder_ops (vcoder B) N N := {|
    c_new := Some (vnew ops k);
    c_encode := range_encode ops;
    c_skip := vskip;
    c_append := vappend ops true;
    c_touch := touch ops true
  |}.
  Definition slice_ops (k : N) : coder_ops (vcoder B) N N := {|
    c_new := Some (vnew ops k);
    c_encode := fun c x n => Some (slice_encode ops c x n);
    c_skip := vskip;
    c_append := vappend ops false;
    c_touch := touch ops false
  |}.
  Definition multi_range_ops (b : list N) : coder_ops (mcoder B) N (N * N) := {|
    c_new := ml_new_range ops b;
    c_encode := ml_encode (range_encode ops);
    c_skip := ml_skip;
    c_append := ml_append ops true;
    c_touch := fun c t => ml_touch ops true c (fst t) (snd t)
  |}.
  Definition multi_equality_ops (b : list N) : coder_ops (mcoder B) N (N * N) := {|
    c_new := ml_new_other ops b;
    c_encode := ml_encode (eq_encode ops);
    c_skip := ml_skip;
    c_append := ml_append ops false;
    c_touch := fun c t => ml_touch ops false c (fst t) (snd t)
  |}.
  Definition multi_slice_ops (b : list N) : coder_ops (mcoder B) N (N * N) := {|
    c_new := ml_new_other ops b;
    c_encode := ml_encode (fun c x n => Some (slice_encode ops c x n));
    c_skip := ml_skip;
    c_append := ml_append ops false;
    c_touch := fun c t => ml_touch ops false c (fst t) (snd t)
  |}.
End Coders.

(** * C06: single-component coders *)

(** Singleton coder. Skipped rows read as [false]. *)
Theorem C06_singleton : forall B (ops : bitmap_ops B) content, bitmap_laws ops content ->
  forall h, exists c, execute (single_ops ops) h = Some c /\
  forall x, exists r r',
    single_decode ops c op_eq x = Some r /\ single_decode ops c op_ne x = Some r' /\
    content r = map (fun row => Bool.eqb (match row with Some v => v | None => false end) x) (rows_of h) /\
    content r' = map (fun row => negb (Bool.eqb (match row with Some v => v | None => false end) x)) (rows_of h).
Proof.
  intros B ops content laws h.
  destruct (execute_inv (single_ops ops) (fun _ => True)
    (fun c rows => content c = map (fun row : option bool => match row with Some v => v | None => false end) rows)) with (h := h)
    as (c & E & I).
  - exists (b_empty ops). split; auto. apply (law_empty _ _ laws).
  - intros c rows x n _ I. eexists. split; [reflexivity|]. unfold single_encode. rewrite (law_app _ _ laws), I, map_app.
    now rewrite map_repeat.
  - intros c rows n I. cbn. unfold single_skip. rewrite (law_app _ _ laws), I, map_app. now rewrite map_repeat.
  - intros c rows c' rows' I I'. eexists. split; [reflexivity|]. unfold single_append.
    now rewrite (law_append _ _ laws), I, I', map_app.
  - auto.
  - induction h; cbn; auto.
  - exists c. split; auto. intros x. cbn [single_decode].
    destruct x; eexists; eexists; (split; [reflexivity|]); (split; [reflexivity|]);
      rewrite (law_not _ _ laws), I, map_map; split; apply map_ext; intros [[]|]; reflexivity.
Qed.

Lemma exec_equality : forall B (ops : bitmap_ops B) content, bitmap_laws ops content ->
  forall k h, all_values (fun v => v < k) h ->
  exists c, execute (equality_ops ops k) h = Some c /\ Inv content false (N.to_nat k) eq_col c (rows_of h).
Proof.
  intros B ops content laws k h V. apply (execute_inv (equality_ops ops k) (fun v => v < k)); auto.
  - exists (vnew ops k). split; auto. pose proof (Inv_new ops content laws false (N.to_nat k) eq_col) as H.
    now rewrite N2Nat.id in H.
  - intros c rows x n P I. apply eq_encode_inv; auto. lia.
  - intros c rows n I. now apply Inv_skip.
  - intros c rows c' rows' I I'. now apply Inv_append.
  - intros c rows t I. now apply Inv_touch.
Qed.

(** Equality coder with [k] bitmaps: values and operand below [k]. Skipped rows
    satisfy [!=] only. *)
Theorem C06_equality : forall B (ops : bitmap_ops B) content, bitmap_laws ops content ->
  forall k h, all_values (fun v => v < k) h ->
  exists c, execute (equality_ops ops k) h = Some c /\
  forall op x, In op six -> x < k ->
  exists r, eq_decode ops c op x = Some r /\
    content r = map (fun row => match row with Some v => holds op v x | None => relop_eqb op op_ne end) (rows_of h).
Proof.
  intros B ops content laws k h V. destruct (exec_equality B ops content laws k h V) as (c & E & I).
  exists c. split; auto. intros op x O X.
  destruct (eq_decode_spec ops content laws (N.to_nat k) c (rows_of h) op x I) as (r & D & C).
  - intros r v Hr ->. apply (all_values_rows _ h V) in Hr. lia.
  - now apply six_comparison.
  - lia.
  - exists r. split; [exact D|]. rewrite C. apply map_ext. intros [v|]; reflexivity.
Qed.

Lemma exec_range : forall B (ops : bitmap_ops B) content, bitmap_laws ops content ->
  forall k h, all_values (fun v => v <= k) h ->
  exists c, execute (range_ops ops k) h = Some c /\ Inv content true (N.to_nat k) range_col c (rows_of h).
Proof.
  intros B ops content laws k h V. apply (execute_inv (range_ops ops k) (fun v => v <= k)); auto.
  - exists (vnew ops k). split; auto. pose proof (Inv_new ops content laws true (N.to_nat k) range_col) as H.
    now rewrite N2Nat.id in H.
  - intros c rows x n P I. apply range_encode_inv; auto. lia.
  - intros c rows n I. now apply Inv_skip.
  - intros c rows c' rows' I I'. now apply Inv_append.
  - intros c rows t I. now apply Inv_touch.
Qed.

(** Range coder with [k] bitmaps: values up to [k]; operands below [k], and up
    to [k] for [<] and [>=]. Skipped rows read as [0]. *)
Theorem C06_range : forall B (ops : bitmap_ops B) content, bitmap_laws ops content ->
  forall k h, all_values (fun v => v <= k) h ->
  exists c, execute (range_ops ops k) h = Some c /\
  forall op x, In op six -> x < k \/ (x = k /\ (op = op_lt \/ op = op_ge)) ->
  exists r, range_decode ops c op x = Some r /\
    content r = map (fun row => holds op (match row with Some v => v | None => 0 end) x) (rows_of h).
Proof.
  intros B ops content laws k h V. destruct (exec_range B ops content laws k h V) as (c & E & I).
  exists c. split; auto. intros op x O X.
  destruct (range_decode_spec ops content laws (N.to_nat k) c (rows_of h) op x I) as (r & D & C).
  - now apply six_comparison.
  - destruct X as [X|[X X']]; [left; lia|right; split; auto; lia].
  - exists r. split; [exact D|]. rewrite C. apply map_ext. intros row. reflexivity.
Qed.

(** The encoder and the assertion of the decoder admit the operand [k], but the
    decoder then reads past its last bitmap. *)
Theorem C06_range_operand_refuted : exists k (h : hist N N) c op x,
  all_values (fun v => v <= k) h /\ x <= k /\ In op six /\
  execute (range_ops list_ops k) h = Some c /\ range_decode list_ops c op x = None.
Proof.
  exists 2, (H_encode H_new 2 1), {| vsize := 1; vmaps := [[false]; [false]] |}, op_le, 2.
  repeat split; try (cbn; lia). cbn; auto.
Qed.

Lemma exec_slice : forall B (ops : bitmap_ops B) content, bitmap_laws ops content ->
  forall k h, all_values (fun _ => True) h ->
  exists c, execute (slice_ops ops k) h = Some c /\ SInv content (N.to_nat k) c (rows_of h).
Proof.
  intros B ops content laws k h V. apply (execute_inv (slice_ops ops k) (fun _ => True)); auto.
  - exists (vnew ops k). split; auto. pose proof (SInv_new ops content laws (N.to_nat k)) as H.
    now rewrite N2Nat.id in H.
  - intros c rows x n P I. eexists. split; [reflexivity|]. now apply slice_encode_inv.
  - intros c rows n I. now apply SInv_skip.
  - intros c rows c' rows' I I'. now apply SInv_append.
  - intros c rows t I. now apply SInv_touch.
Qed.

(** Bitslice coder with [k > 0] bitmaps: values and operand below [2^k]. The
    result covers every encoded row and is never longer than the coder; [in]
    and [not_in] ask for all bits of a non-zero [x] to be set. *)
Theorem C06_bitslice : forall B (ops : bitmap_ops B) content, bitmap_laws ops content ->
  forall k h, 0 < k -> all_values (fun v => v < 2 ^ k) h ->
  exists c, execute (slice_ops ops k) h = Some c /\
  forall op x, In op (op_in :: op_not_in :: six) -> x < 2 ^ k ->
  exists r, slice_decode ops c op x = Some r /\ (length (content r) <= length (rows_of h))%nat /\
    forall p v, nth_error (rows_of h) p = Some (Some v) ->
      nth_error (content r) p = Some
        (match op with
         | op_in => negb (x =? 0) && (N.land v x =? x)
         | op_not_in => negb (x =? 0) && negb (N.land v x =? x)
         | _ => holds op v x
         end).
Proof.
  intros B ops content laws k h K V.
  assert (V' : all_values (fun _ => True) h).
  { clear -V. induction h; cbn in *; intuition auto. }
  destruct (exec_slice B ops content laws k h V') as (c & E & I).
  exists c. split; auto. intros op x O X.
  destruct (slice_decode_spec ops content laws (N.to_nat k) c (rows_of h) op x I) as (r & D & L & P).
  - lia.
  - now rewrite N2Nat.id.
  - cbn in O. intuition (subst; cbn; auto).
  - exists r. split; auto. split; auto. intros p v R.
    assert (Hv : v < 2 ^ k) by (apply (all_values_rows _ h V); now apply nth_error_In in R).
    destruct (P p v R) as (Q1 & Q2); [now rewrite N2Nat.id|].
    rewrite (nth_error_nth' _ false) by exact Q1. f_equal. unfold bit in Q2. rewrite Q2.
    destruct op; reflexivity.
Qed.

(** The bitslice decoder reads its bitmaps without extending them: after rows
    were skipped the result can be shorter than the coder, so complementing it
    outside (as [!=] does inside) loses the skipped rows. *)
Theorem C06_bitslice_length_refuted : exists k (h : hist N N) c r,
  all_values (fun v => v < 2 ^ k) h /\ execute (slice_ops list_ops k) h = Some c /\
  slice_decode list_ops c op_le 0 = Some r /\ (length r < length (rows_of h))%nat.
Proof.
  exists 1, (H_skip (H_encode H_new 1 1) 2), {| vsize := 3; vmaps := [[false]] |}, [false].
  split; [cbn; lia|]. split; [reflexivity|]. split; [reflexivity|]. apply Nat.ltb_lt. reflexivity.
Qed.

(** Values that do not fit are truncated silently. *)
Theorem C06_bitslice_truncation_refuted : exists k (h : hist N N) c r,
  execute (slice_ops list_ops k) h = Some c /\ rows_of h = [Some 5] /\
  slice_decode list_ops c op_eq 1 = Some r /\ r = [true].
Proof.
  exists 2, (H_encode H_new 5 1), {| vsize := 1; vmaps := [[false]; [true]] |}, [true].
  repeat split.
Qed.

(** * C07: multi-level coders *)

(** Decomposition into digits loses nothing below the product of the base, and
    all digits are below their base. *)
Theorem C07_decompose : forall b x, well_defined b = true -> x < fold_right N.mul 1 b ->
  compose b (decompose b x) = x /\ Forall2 (fun d y => y < d) b (decompose b x).
Proof.
  intros b x W X. apply andb_true_iff in W as [_ W].
  assert (F : Forall (fun d => 2 <= d) b).
  { apply Forall_forall. intros d Hd. rewrite forallb_forall in W. specialize (W d Hd). lia. }
  split; [now apply compose_decompose|now apply decompose_bounds].
Qed.

Lemma well_defined_spec : forall b, well_defined b = true -> b <> [] /\ Forall (fun d => 2 <= d) b.
Proof.
  intros b W. apply andb_true_iff in W as [W1 W2]. split.
  - intros ->. discriminate.
  - apply Forall_forall. intros d Hd. rewrite forallb_forall in W2. specialize (W2 d Hd). lia.
Qed.

Lemma product_pos : forall b, Forall (fun d => 2 <= d) b -> 0 < fold_right N.mul 1 b.
Proof. induction 1 as [|d b D F IH]; cbn [fold_right]; [lia|]. apply N.mul_pos_pos; lia. Qed.

Section Multi.
  Context {B : Type} (ops : bitmap_ops B) (content : B -> list bool).
  Context (laws : bitmap_laws ops content).
  Variables (P : N -> vcoder B -> list (option N) -> Prop) (k : N -> N) (dflt : bool).
  Variable (enc : vcoder B -> N -> N -> option (vcoder B)).
  Hypothesis P_new : forall d, 2 <= d -> P d (vnew ops (k d)) [].
  Hypothesis P_enc : forall d c rows x n, 2 <= d -> P d c rows -> x < d ->
    exists c', enc c x n = Some c' /\ P d c' (rows ++ repeat (Some x) (N.to_nat n)).
  Hypothesis P_skip : forall d c rows n, P d c rows -> P d (vskip c n) (rows ++ repeat None (N.to_nat n)).
  Hypothesis P_app : forall d c rows o rows', P d c rows -> P d o rows' ->
    exists c', vappend ops dflt c o = Some c' /\ P d c' (rows ++ rows').
  Hypothesis P_touch : forall d c rows i, P d c rows -> P d (touch ops dflt c i) rows.

  Lemma exec_multi : forall b h, well_defined b = true ->
    exists c, execute {| c_new := ml_new ops k b; c_encode := ml_encode enc; c_skip := ml_skip;
                         c_append := ml_append ops dflt; c_touch := fun c t => ml_touch ops dflt c (fst t) (snd t) |} h
              = Some c /\ mbase c = b /\ comps P b (mcoders c) (rows_of h).
  Proof.
    intros b h W. destruct (well_defined_spec b W) as [NE F].
    apply (execute_inv _ (fun _ => True) (fun c rows => mbase c = b /\ comps P b (mcoders c) rows)); cbn [c_new c_encode c_skip c_append c_touch].
    - unfold ml_new. rewrite W. eexists. split; [reflexivity|]. split; auto. now apply comps_new.
    - intros c rows x n _ [M C]. unfold ml_encode. rewrite M.
      destruct (comps_enc ops P k dflt enc P_new P_enc P_skip P_app P_touch b _ rows x n F C) as (cs & -> & C'). eexists. split; [reflexivity|]. auto.
    - intros c rows n [M C]. split; auto. now apply comps_skip.
    - intros c rows c' rows' [M C] [M' C']. unfold ml_append.
      destruct (comps_app ops P dflt P_app b _ rows _ rows' C C') as (cs & -> & D). eexists. split; [reflexivity|]. auto.
    - intros c rows t [M C]. split; auto. now apply comps_touch.
    - induction h; cbn; auto.
  Qed.
End Multi.

(** Range components: values and operand below the product of the base.
    Skipped rows read as [0]. *)
Theorem C07_multi_range : forall B (ops : bitmap_ops B) content, bitmap_laws ops content ->
  forall b h, well_defined b = true -> all_values (fun v => v < fold_right N.mul 1 b) h ->
  exists c, execute (multi_range_ops ops b) h = Some c /\
  forall op x, In op six -> x < fold_right N.mul 1 b ->
  exists r, ml_range_decode ops c op x = Some r /\
    content r = map (fun row => holds op (match row with Some v => v | None => 0 end) x) (rows_of h).
Proof.
  intros B ops content laws b h W V. destruct (well_defined_spec b W) as [NE F].
  destruct (exec_multi ops (PRange content) (fun d => d - 1) true (range_encode ops)) with (b := b) (h := h) as (c & E & M & C); auto.
  - intros d D. unfold PRange. pose proof (Inv_new ops content laws true (N.to_nat (d - 1)) range_col) as H.
    now rewrite N2Nat.id in H.
  - intros d c rows x n D I X. apply range_encode_inv; auto. lia.
  - intros d c rows n I. now apply Inv_skip.
  - intros d c rows o rows' I I'. now apply Inv_append.
  - intros d c rows i I. now apply Inv_touch.
  - exists c. split; auto. intros op x O X.
    destruct (ml_range_decode_spec ops content laws b c (rows_of h) op x) as (r & D & R); auto.
    + split; auto.
    + apply Forall_forall. intros [v|] Hr; cbn [value0].
      * now apply (all_values_rows _ h V).
      * now apply product_pos.
    + now apply six_comparison.
    + exists r. split; [exact D|]. rewrite R. apply map_ext. intros row. reflexivity.
Qed.

(** Equality components support [==] and [!=]; skipped rows satisfy [!=] only. *)
Theorem C07_multi_equality : forall B (ops : bitmap_ops B) content, bitmap_laws ops content ->
  forall b h, well_defined b = true -> all_values (fun v => v < fold_right N.mul 1 b) h ->
  exists c, execute (multi_equality_ops ops b) h = Some c /\
  forall x, x < fold_right N.mul 1 b ->
  exists r r', ml_simple_decode ops (eq_decode ops) c op_eq x = Some r /\
    ml_simple_decode ops (eq_decode ops) c op_ne x = Some r' /\
    content r = map (fun row => match row with Some v => v =? x | None => false end) (rows_of h) /\
    content r' = map (fun row => match row with Some v => negb (v =? x) | None => true end) (rows_of h).
Proof.
  intros B ops content laws b h W V. destruct (well_defined_spec b W) as [NE F].
  destruct (exec_multi ops (PEq content) (fun d => d) false (eq_encode ops)) with (b := b) (h := h) as (c & E & M & C); auto.
  - intros d D. unfold PEq. pose proof (Inv_new ops content laws false (N.to_nat d) eq_col) as H.
    now rewrite N2Nat.id in H.
  - intros d c rows x n D I X. apply eq_encode_inv; auto. lia.
  - intros d c rows n I. now apply Inv_skip.
  - intros d c rows o rows' I I'. now apply Inv_append.
  - intros d c rows i I. now apply Inv_touch.
  - exists c. split; auto. intros x X.
    destruct (ml_simple_eq ops content laws (PEq content) (eq_decode ops) (Some false) (PEq_dec ops content laws)
      ltac:(discriminate) b c (rows_of h) x M C F NE) as (r & D1 & D2 & L & P); auto.
    { apply Forall_forall. intros [v|] Hr; cbn [value0].
      - now apply (all_values_rows _ h V).
      - now apply product_pos. }
    exists r, (b_not ops r). split; auto. split; auto.
    assert (R : content r = map (fun row => match row with Some v => v =? x | None => false end) (rows_of h)).
    { apply content_ext.
      - rewrite map_length. destruct (rows_of h) as [|q rows] eqn:Q; [cbn in *; lia|].
        assert (HL : nth_error (q :: rows) (length rows) <> None) by (apply nth_error_Some; cbn; lia).
        destruct (nth_error (q :: rows) (length rows)) as [y|] eqn:Y; [|congruence].
        destruct (P (length rows) y (match y with Some v => v =? x | None => false end)) as (Z & _); auto; [now destruct y|].
        cbn [length] in *. lia.
      - intros p Hp. rewrite map_length in Hp. destruct (nth_error (rows_of h) p) as [y|] eqn:Y.
        2:{ apply nth_error_None in Y. lia. }
        rewrite (nth_map_default _ _ _ _ None) by auto. rewrite (nth_error_nth _ _ _ Y).
        now apply (P p y); [|destruct y]. }
    split; auto. rewrite (law_not _ _ laws), R, map_map. apply map_ext. now intros [v|].
Qed.

(** Bitslice components support [==] and [!=] on the encoded rows. *)
Theorem C07_multi_bitslice : forall B (ops : bitmap_ops B) content, bitmap_laws ops content ->
  forall b h, well_defined b = true -> all_values (fun v => v < fold_right N.mul 1 b) h ->
  exists c, execute (multi_slice_ops ops b) h = Some c /\
  forall x, x < fold_right N.mul 1 b ->
  exists r r', ml_simple_decode ops (slice_decode ops) c op_eq x = Some r /\
    ml_simple_decode ops (slice_decode ops) c op_ne x = Some r' /\
    (length (content r) <= length (rows_of h))%nat /\ (length (content r') <= length (rows_of h))%nat /\
    forall p v, nth_error (rows_of h) p = Some (Some v) ->
      nth_error (content r) p = Some (v =? x) /\ nth_error (content r') p = Some (negb (v =? x)).
Proof.
  intros B ops content laws b h W V. destruct (well_defined_spec b W) as [NE F].
  destruct (exec_multi ops (PSlice content) (fun d => d) false (fun c x n => Some (slice_encode ops c x n))) with (b := b) (h := h)
    as (c & E & M & C); auto.
  - intros d D. unfold PSlice. pose proof (SInv_new ops content laws (N.to_nat d)) as H. now rewrite N2Nat.id in H.
  - intros d c rows x n D I X. eexists. split; [reflexivity|]. now apply slice_encode_inv.
  - intros d c rows n I. now apply SInv_skip.
  - intros d c rows o rows' I I'. now apply SInv_append.
  - intros d c rows i I. now apply SInv_touch.
  - exists c. split; auto. intros x X.
    destruct (ml_simple_eq ops content laws (PSlice content) (slice_decode ops) None (PSlice_dec ops content laws)
      ltac:(discriminate) b c (rows_of h) x M C F NE) as (r & D1 & D2 & L & P); auto.
    { apply Forall_forall. intros [v|] Hr; cbn [value0].
      - now apply (all_values_rows _ h V).
      - now apply product_pos. }
    exists r, (b_not ops r). split; auto. split; auto. split; [exact L|].
    split; [rewrite (law_not _ _ laws), map_length; exact L|].
    intros p v R. destruct (P p (Some v) (v =? x) R eq_refl) as (P1 & P2). unfold bit, len in *.
    assert (Q : nth_error (content r) p = Some (v =? x)) by (rewrite (nth_error_nth' _ false) by exact P1; now f_equal).
    split; auto. now rewrite (law_not _ _ laws), nth_error_map, Q.
Qed.

(** The bound on values is needed: larger values are stored modulo the product
    of the base, for instance with two decimal digits. *)
Theorem C07_truncation_refuted : exists b (h : hist N (N * N)) c r,
  well_defined b = true /\ execute (multi_range_ops list_ops b) h = Some c /\
  rows_of h = [Some 105] /\ ml_range_decode list_ops c op_eq 5 = Some r /\ r = [true].
Proof.
  exists [10; 10], (H_encode H_new 105 1).
  eexists. exists [true]. split; [reflexivity|]. split; [vm_compute; reflexivity|].
  split; [reflexivity|]. split; vm_compute; reflexivity.
Qed.

(** * The EWAH instances *)

Definition ewah_equality := C06_equality ebm ewah_ops ebm_content ewah_laws.
Definition ewah_range := C06_range ebm ewah_ops ebm_content ewah_laws.
Definition ewah_bitslice := C06_bitslice ebm ewah_ops ebm_content ewah_laws.
Definition ewah_multi_range := C07_multi_range ebm ewah_ops ebm_content ewah_laws.
Definition ewah_multi_equality := C07_multi_equality ebm ewah_ops ebm_content ewah_laws.

(** * Non-trivial cases *)

Definition example_hist {T} : hist N T :=
  H_append (H_encode (H_skip (H_encode H_new 7 2) 1) 3 1) (H_skip (H_encode H_new 42 3) 2).

Example C06_example : all_values (fun v => v < 64) (@example_hist N) /\
  option_map (fun c => option_map (fun r => r) (slice_decode list_ops c op_ge 7)) (execute (slice_ops list_ops 6) example_hist)
  = Some (Some [true; true; true; false; true; true; true]) /\
  option_map (fun c => eq_decode list_ops c op_gt 3) (execute (equality_ops list_ops 64) example_hist)
  = Some (Some [true; true; false; false; true; true; true; false; false]).
Proof. split; [cbn; lia|]. split; vm_compute; reflexivity. Qed.

Example C07_example : well_defined [10; 10] = true /\ all_values (fun v => v < fold_right N.mul 1 [10; 10]) (@example_hist (N * N)) /\
  option_map (fun c => ml_range_decode list_ops c op_le 7) (execute (multi_range_ops list_ops [10; 10]) (H_touch example_hist (0, 3)))
  = Some (Some [true; true; true; true; false; false; false; true; true]).
Proof. split; [reflexivity|]. split; [cbn; lia|vm_compute; reflexivity]. Qed.

Definition assumptions_coder := (C06_singleton, ewah_equality, ewah_range, ewah_bitslice, C06_range_operand_refuted,
  C06_bitslice_length_refuted, C06_bitslice_truncation_refuted, C07_decompose, ewah_multi_range, ewah_multi_equality,
  C07_multi_bitslice, C07_truncation_refuted).
Print Assumptions assumptions_coder.
