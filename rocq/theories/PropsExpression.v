(** C19: normalising an expression preserves its meaning. *)
From Coq Require Import List ZArith NArith Lia Bool Arith.
From Verif Require Import OperatorModel AddressModel DataModel TypeModel ExpressionModel ExpressionProofs PropsData.
Import ListNotations.
Open Scope nat_scope.

(** [x op n] for a field [x] and a count [n], and [n op x]. *)
Definition fld (c : N) (op : relop) (n : N) : expr := EPred {| p_lhs := OField [c]; p_op := op; p_rhs := OVal (DCount n) |}.
Definition dlf (n : N) (op : relop) (c : N) : expr := EPred {| p_lhs := OVal (DCount n); p_op := op; p_rhs := OField [c] |}.

(** For every truth assignment of predicates under which negated operators are
    complements, equal predicates agree and flipping the operands of a predicate that
    has its data on the left changes nothing, the normalised expression is true
    exactly if the original is. *)
Theorem C19_normalize : forall v,
  (forall p, v (with_op p (negate_op (p_op p))) = negb (v p)) ->
  (forall p q, pred_eqb p q = true -> v p = v q) ->
  forall e, complete e = true -> all_preds (fun p => v (align_pred p) = v p) e ->
  holds v (normalize e) = holds v e.
Proof. exact normalize_holds. Qed.

(** On every event that gives each extractor one value, whatever the values are. *)
Theorem C19_normalize_event : forall re event e, complete e = true -> all_preds match_aligned e ->
  holds (pred_holds re event) (normalize e) = holds (pred_holds re event) e.
Proof.
  intros re event e Hc Ha. apply normalize_holds; auto.
  - intros p. apply pred_holds_negate.
  - intros p q. apply pred_holds_eqb.
  - clear Hc. induction e as [|es IH|es IH|x IH|p] using expr_rect'; cbn [all_preds] in *; auto;
      try (rewrite all_preds_Forall in *; rewrite Forall_forall in *; intros x Hx; now apply IH; auto).
    now apply pred_holds_align.
Qed.

(** A normalised expression has no negations and no data on the left of an extractor. *)
Theorem C19_shape : forall e, positive (normalize e) = true /\ all_preds aligned (normalize e) /\
  (complete e = true -> complete (normalize e) = true).
Proof. exact normalize_shape. Qed.

(** Hoisting alone preserves meaning on every expression, and so does removing
    negations on every complete expression. *)
Theorem C19_hoist : forall v e, holds v (hoist e) = holds v e.
Proof. exact hoist_holds. Qed.
Theorem C19_denegate : forall v, (forall p, v (with_op p (negate_op (p_op p))) = negb (v p)) ->
  forall e, complete e = true -> holds v (denegate false e) = holds v e /\ positive (denegate false e) = true.
Proof. intros v Hv e Hc. rewrite (denegate_holds v Hv e Hc). split; [now destruct (holds v e)|apply denegate_positive]. Qed.
Theorem C19_align : forall re event e, all_preds match_aligned e ->
  holds (pred_holds re event) (align e) = holds (pred_holds re event) e /\ all_preds aligned (align e).
Proof.
  intros re event e Ha. split; [|apply align_preds; apply align_pred_aligned]. apply align_holds.
  induction e as [|es IH|es IH|x IH|p] using expr_rect'; cbn [all_preds] in *; auto;
    try (rewrite all_preds_Forall in *; rewrite Forall_forall in *; intros x Hx; now apply IH; auto).
  now apply pred_holds_align.
Qed.

(** [!(x == 5 || !(7 > y && y < 7)) ] *)
Definition sample_expr : expr := ENot (EOr [fld 120 op_eq 5; ENot (EAnd [dlf 7 op_gt 121; fld 121 op_lt 7])]).
Example C19_example : complete sample_expr = true /\ all_preds match_aligned sample_expr /\
  normalize sample_expr = EAnd [fld 120 op_ne 5; fld 121 op_lt 7] /\
  holds (pred_holds literal_regex (fun o => match o with OField [120%N] => DCount 4 | _ => DCount 3 end)) sample_expr = true /\
  holds (pred_holds literal_regex (fun o => DCount 9)) sample_expr = false.
Proof.
  split; [reflexivity|]. split; [|repeat split; vm_compute; reflexivity].
  cbn. repeat split; right; split; discriminate.
Qed.

(** ** What does not hold *)

(** Under a negation, a missing expression does not keep its meaning. *)
Theorem C19_missing_refuted : exists e, forall v, holds v e = true /\ holds v (normalize e) = false.
Proof. exists (ENot ENone). intros v. split; reflexivity. Qed.
(** A match with the pattern on the left changes its meaning. *)
Theorem C19_match_refuted : exists re event e, complete e = true /\
  holds (pred_holds re event) e = false /\ holds (pred_holds re event) (normalize e) = true.
Proof.
  exists literal_regex, (fun _ => DString [97%N]), (EPred {| p_lhs := OVal (DPattern [97%N]); p_op := op_match; p_rhs := OField [120%N] |}).
  repeat split; vm_compute; reflexivity.
Qed.
(** Normalising is not idempotent, and normalised conjunctions may contain conjunctions. *)
Theorem C19_idempotent_refuted : exists e, complete e = true /\ normalize (normalize e) <> normalize e /\
  exists es fs, normalize e = EAnd (EAnd es :: fs).
Proof.
  exists (EAnd [EAnd [EAnd [EAnd [EAnd [fld 97 op_eq 1; fld 98 op_eq 2]; fld 99 op_eq 3]; fld 100 op_eq 4]; fld 101 op_eq 5]; fld 102 op_eq 6]).
  repeat split; [vm_compute; discriminate|]. eexists. eexists. vm_compute. reflexivity.
Qed.
(** Removing duplicates drops negations that are still there. *)
Theorem C19_dedup_refuted : exists e, complete e = true /\ forall v, holds v (dedup e) = negb (holds v e).
Proof. exists (ENot (fld 97 op_eq 1)). split; [reflexivity|]. intros v. cbn. now rewrite negb_involutive. Qed.
(** An extractor that stands for several fields: the negation of [:count < 5] is
    normalised to [:count >= 5], which holds if any field is at least 5. *)
Theorem C19_several_fields_refuted : exists glob t e re event r r', complete e = true /\
  tailor glob e t = ok r /\ tailor glob (normalize e) t = ok r' /\
  holds (pred_holds re event) r = false /\ holds (pred_holds re event) r' = true.
Proof.
  exists (fun _ _ => false), (TRecord no_meta [([97%N], TBasic no_meta BCount); ([98%N], TBasic no_meta BCount)]),
    (ENot (EPred {| p_lhs := OType (TBasic no_meta BCount); p_op := op_lt; p_rhs := OVal (DCount 5) |})), literal_regex,
    (fun o => match o with OData _ [0] => DCount 3 | _ => DCount 7 end).
  eexists. eexists. split; [reflexivity|]. split; [vm_compute; reflexivity|]. split; [vm_compute; reflexivity|].
  split; vm_compute; reflexivity.
Qed.

Definition assumptions_expression :=
  (C19_normalize, C19_normalize_event, C19_shape, C19_hoist, C19_denegate, C19_align, C19_missing_refuted,
   C19_match_refuted, C19_idempotent_refuted, C19_dedup_refuted, C19_several_fields_refuted).
Print Assumptions assumptions_expression.
