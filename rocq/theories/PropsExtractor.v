(** C45: an extractor stands for exactly the columns it names. *)
From Coq Require Import List ZArith NArith Lia Bool Arith.
From Verif Require Import OperatorModel AddressModel AddressProofs DataModel TypeModel TypeProofs ExpressionModel ExpressionProofs
  EvaluatorProofs TableSliceModel TableSliceProofs TailorProofs ExtractorProofs PropsData PropsTableSlice.
Import ListNotations.
Open Scope nat_scope.

(** A validated predicate tailored to a layout is true of a row exactly if some column
    its extractor names satisfies it; with a negated operator exactly if there is such a
    column and all of them satisfy it. *)
Theorem C45_predicate : forall re glob regex_ok la row p r,
  forallb (fun f => no_empty (snd f)) (la_fields la) = true ->
  validate regex_ok (EPred p) = true -> leaf_data p -> plain p -> operand_is proper p -> proper_row (la_fields la) row ->
  tailor glob (EPred p) (TRecord (la_meta la) (la_fields la)) = ok r ->
  row_eval re la row r = Some (column_truth re glob la row p).
Proof.
  intros re glob regex_ok la row p r H V L Pl D R T.
  rewrite row_eval_holds by (eapply (C20_tailored re glob regex_ok la (EPred p)); eassumption). f_equal.
  exact (resolve_pred_columns re glob la row regex_ok p r H V L Pl T).
Qed.

(** The same for whole queries without negations, as normalising leaves them: parts that
    name no column of the layout are false. *)
Theorem C45_query : forall re glob regex_ok la row e r,
  forallb (fun f => no_empty (snd f)) (la_fields la) = true ->
  positive e = true -> inhabited_expr e = true ->
  validate regex_ok e = true -> all_preds leaf_data e -> all_preds plain e -> all_preds (operand_is proper) e ->
  proper_row (la_fields la) row ->
  tailor glob e (TRecord (la_meta la) (la_fields la)) = ok r ->
  row_eval re la row r = Some (holds (column_truth re glob la row) e).
Proof.
  intros re glob regex_ok la row e r H P I V L Pl D R T.
  rewrite row_eval_holds by (eapply (C20_tailored re glob regex_ok la e); eassumption). f_equal.
  assert (E : resolve_types glob (TRecord (la_meta la) (la_fields la)) e = ok r) by (destruct e; [discriminate|exact T..]).
  eapply resolve_types_holds; [exact P|exact I| |exact E].
  eapply all_preds_impl; [|exact (validate_preds _ _ _ V (all_preds_and _ _ _ L Pl))].
  intros p [V' [L' Pl']] x Ex. now apply (resolve_pred_columns re glob la row regex_ok p x).
Qed.

(** No other column is looked at: rows that agree on the columns that are named get the
    same answer. *)
Theorem C45_only_named : forall re glob regex_ok la row row' p r,
  forallb (fun f => no_empty (snd f)) (la_fields la) = true ->
  validate regex_ok (EPred p) = true -> leaf_data p -> plain p -> operand_is proper p ->
  proper_row (la_fields la) row -> proper_row (la_fields la) row' ->
  (forall k d x, p_lhs p = x -> p_rhs p = OVal d -> (exists c, In (k, c) (columns (la_fields la)) /\ selects glob la x (p_op p) d (k, c) = true) ->
    nth_error row k = nth_error row' k) ->
  tailor glob (EPred p) (TRecord (la_meta la) (la_fields la)) = ok r ->
  row_eval re la row r = row_eval re la row' r.
Proof.
  intros re glob regex_ok la row row' p r H V L Pl D R R' Ag T.
  rewrite (C45_predicate re glob regex_ok la row p r), (C45_predicate re glob regex_ok la row' p r) by assumption. f_equal.
  unfold column_truth. destruct p as [l op x]; cbn [p_lhs p_rhs p_op] in *.
  assert (G : forall y d, l = y -> x = OVal d -> some_column re glob la row y op d = some_column re glob la row' y op d).
  { intros y d <- ->. unfold some_column. cbv zeta.
    assert (C : forall c, In c (filter (selects glob la l op d) (columns (la_fields la))) -> cell_satisfies re row op d c = cell_satisfies re row' op d c).
    { intros [k c] Hc. apply filter_In in Hc as [Hc Hs]. unfold cell_satisfies. cbn [fst snd]. rewrite (Ag k d l eq_refl eq_refl) by eauto. reflexivity. }
    revert C. generalize (filter (selects glob la l op d) (columns (la_fields la))). intros cs C.
    destruct (is_negated op); [f_equal|]; clear -C; induction cs as [|c cs IH]; auto; cbn [forallb existsb]; rewrite (C c (or_introl eq_refl)), IH; auto; intros; apply C; now right. }
  destruct l, x; try reflexivity; try (now apply G).
Qed.

(** Two time columns, one named [timestamp] and one with that attribute, a nested record
    and a string. *)
Definition time_meta : meta := {| m_name := timestamp_name; m_attrs := [] |}.
Definition attr_meta : meta := {| m_name := []; m_attrs := [(timestamp_name, None)] |}.
Definition wide : layout :=
  {| la_meta := {| m_name := [108%N]; m_attrs := [] |};
     la_fields := [([97%N], TBasic time_meta BTime);
                   ([114%N], TRecord no_meta [([120%N], TBasic no_meta BCount); ([121%N], TBasic no_meta BString)]);
                   ([98%N], TBasic attr_meta BTime);
                   ([120%N], TBasic no_meta BCount)] |}.
Definition wide_row : list data := [DTime 1; DCount 7; DString [100%N]; DTime 2; DCount 8].
Definition wide_query : expr :=
  EOr [EAnd [EPred {| p_lhs := OField [120%N]; p_op := op_ne; p_rhs := OVal (DCount 8) |};
             EPred {| p_lhs := OField [122%N]; p_op := op_eq; p_rhs := OVal (DCount 8) |}];
       EPred {| p_lhs := OType (TNone time_meta); p_op := op_eq; p_rhs := OVal (DTime 2) |};
       EPred {| p_lhs := OType (TBasic no_meta BCount); p_op := op_gt; p_rhs := OVal (DCount 9) |}].
Definition wide_tailored : expr :=
  EOr [EOr [EPred {| p_lhs := OData (TBasic time_meta BTime) [0]; p_op := op_eq; p_rhs := OVal (DTime 2) |};
            EPred {| p_lhs := OData (TBasic attr_meta BTime) [2]; p_op := op_eq; p_rhs := OVal (DTime 2) |}];
       EOr [EPred {| p_lhs := OData (TBasic no_meta BCount) [1; 0]; p_op := op_gt; p_rhs := OVal (DCount 9) |};
            EPred {| p_lhs := OData (TBasic no_meta BCount) [3]; p_op := op_gt; p_rhs := OVal (DCount 9) |}]].
Example C45_example :
  forallb (fun f => no_empty (snd f)) (la_fields wide) = true /\ positive wide_query = true /\ inhabited_expr wide_query = true /\
  validate (fun _ => true) wide_query = true /\ all_preds leaf_data wide_query /\ all_preds plain wide_query /\
  all_preds (operand_is proper) wide_query /\ proper_row (la_fields wide) wide_row /\
  tailor exact_name wide_query (TRecord (la_meta wide) (la_fields wide)) = ok wide_tailored /\
  row_eval literal_regex wide wide_row wide_tailored = Some true /\
  map (column_truth literal_regex exact_name wide wide_row)
    [{| p_lhs := OField [120%N]; p_op := op_ne; p_rhs := OVal (DCount 8) |};
     {| p_lhs := OField [120%N]; p_op := op_eq; p_rhs := OVal (DCount 8) |};
     {| p_lhs := OField [114%N; 46%N; 120%N]; p_op := op_ne; p_rhs := OVal (DCount 8) |};
     {| p_lhs := OField [122%N]; p_op := op_ne; p_rhs := OVal (DCount 8) |}] = [false; true; true; false].
Proof.
  split; [vm_compute; reflexivity|]. split; [reflexivity|]. split; [reflexivity|]. split; [reflexivity|].
  split; [repeat split; discriminate|]. split; [cbn; repeat split|]. split; [cbn; repeat split|].
  split; [split; [reflexivity|repeat constructor]|]. split; [vm_compute; reflexivity|]. split; vm_compute; reflexivity.
Qed.

(** ** What does not hold *)

(** The type [timestamp] stands for two groups of columns, and a negated operator needs
    only one of the groups to satisfy it: a predicate and its negation are both true. *)
Theorem C45_timestamp_refuted : exists re glob la row p q a b,
  p = {| p_lhs := OType (TNone time_meta); p_op := op_eq; p_rhs := OVal (DTime 1) |} /\
  q = {| p_lhs := OType (TNone time_meta); p_op := op_ne; p_rhs := OVal (DTime 1) |} /\
  tailor glob (EPred p) (TRecord (la_meta la) (la_fields la)) = ok a /\ row_eval re la row a = Some true /\
  tailor glob (EPred q) (TRecord (la_meta la) (la_fields la)) = ok b /\ row_eval re la row b = Some true.
Proof.
  exists literal_regex, exact_name, wide, wide_row. do 2 eexists.
  exists (EOr [EPred {| p_lhs := OData (TBasic time_meta BTime) [0]; p_op := op_eq; p_rhs := OVal (DTime 1) |};
               EPred {| p_lhs := OData (TBasic attr_meta BTime) [2]; p_op := op_eq; p_rhs := OVal (DTime 1) |}]),
         (EOr [EPred {| p_lhs := OData (TBasic time_meta BTime) [0]; p_op := op_ne; p_rhs := OVal (DTime 1) |};
               EPred {| p_lhs := OData (TBasic attr_meta BTime) [2]; p_op := op_ne; p_rhs := OVal (DTime 1) |}]).
  split; [reflexivity|]. split; [reflexivity|]. repeat split; vm_compute; reflexivity.
Qed.
(** With negations a part that names no column makes the negation false as well: [! (z == 8)]
    is false of every row, as [z == 8] is. *)
Theorem C45_negation_refuted : exists glob la e r,
  tailor glob (ENot e) (TRecord (la_meta la) (la_fields la)) = ok r /\ forall re row,
  row_eval re la row r = Some false /\ holds (column_truth re glob la row) (ENot e) = true.
Proof.
  exists exact_name, wide, (EPred {| p_lhs := OField [122%N]; p_op := op_eq; p_rhs := OVal (DCount 8) |}), ENone.
  split; [vm_compute; reflexivity|]. intros re row. split; vm_compute; reflexivity.
Qed.
(** A query that names no column of the layout tailors to the empty expression, and
    filtering with that keeps every row. *)
Theorem C45_unresolved_refuted : exists glob re s e r,
  tailor glob e (TRecord (la_meta (s_layout s)) (la_fields (s_layout s))) = ok r /\
  (forall row, holds (column_truth re glob (s_layout s) row) e = false) /\
  filter_slice re s r [] = Some (Some s) /\ s_rows s <> [].
Proof.
  exists exact_name, literal_regex, {| s_layout := wide; s_offset := Some 3; s_rows := [wide_row] |},
    (EPred {| p_lhs := OField [122%N]; p_op := op_eq; p_rhs := OVal (DCount 8) |}), ENone.
  split; [vm_compute; reflexivity|]. split; [intros row; vm_compute; reflexivity|]. split; [vm_compute; reflexivity|discriminate].
Qed.

Definition assumptions_extractor := (C45_predicate, C45_query, C45_only_named, C45_timestamp_refuted, C45_negation_refuted, C45_unresolved_refuted).
Print Assumptions assumptions_extractor.
