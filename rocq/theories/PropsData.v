(** C18: the evaluation of relational operators on data and on views of data. *)
From Coq Require Import List ZArith NArith Lia Bool ZifyBool ZifyNat ZifyN.
From Verif Require Import OperatorModel OrderModel AddressModel AddressProofs DataModel DataProofs PropsCoder PropsIndex.
Import ListNotations.
Open Scope N_scope.

(** A toy regular expression engine for the examples: a pattern matches exactly
    itself and is found where it occurs. *)
Definition literal_regex : regex := {| re_match := fun p s => bytes_eqb p s; re_search := fun p s => finds p s |}.

(** * Negation *)

Theorem C18_negate_involutive : forall op, negate_op (negate_op op) = op /\ negate_op op <> op.
Proof. intros op. destruct op; split; cbn; congruence. Qed.

(** A predicate with the negated operator gives the negation, on all values,
    including nil, NaN, values of different types and nested containers. *)
Theorem C18_complement : forall re x op y,
  evaluate re x (negate_op op) y = option_map negb (evaluate re x op y) /\
  evaluate_view re x (negate_op op) y = option_map negb (evaluate_view re x op y).
Proof.
  intros re x op y. assert (I : forall o : option bool, option_map negb (option_map negb o) = o) by (intros [[]|]; reflexivity).
  split; destruct op; cbn [negate_op evaluate evaluate_view option_map]; rewrite ?negb_involutive, ?I; auto;
    destruct (eval_string_and_pattern re x y) as [b|]; rewrite ?negb_involutive; reflexivity.
Qed.
Example C18_complement_example :
  evaluate literal_regex (DReal (2047 * 2 ^ 52 + 1)) op_lt (DReal 0) = Some false /\
  evaluate literal_regex (DReal (2047 * 2 ^ 52 + 1)) op_ge (DReal 0) = Some true /\
  evaluate literal_regex (DString [97]) op_in (DList [DString [98]; DString [97]]) = Some true /\
  evaluate_view literal_regex (DString [97]) op_not_in (DList [DString [98]; DString [97]]) = Some false.
Proof. repeat split; vm_compute; reflexivity. Qed.

(** * Exchanging the operands *)

Theorem C18_flip : forall re x op y, op <> op_match -> op <> op_not_match ->
  evaluate re x op y = evaluate re y (flip_op op) x /\
  evaluate_view re x op y = evaluate_view re y (flip_op op) x.
Proof.
  intros re x op y M1 M2.
  assert (S : match eval_string_and_pattern re x y with Some b => b | None => data_eqb x y end
            = match eval_string_and_pattern re y x with Some b => b | None => data_eqb y x end).
  { rewrite (data_eqb_sym x y). destruct x, y; reflexivity. }
  assert (S' : match eval_string_and_pattern re x y with Some b => negb b | None => negb (data_eqb x y) end
            = match eval_string_and_pattern re y x with Some b => negb b | None => negb (data_eqb y x) end).
  { rewrite (data_eqb_sym x y). destruct x, y; reflexivity. }
  assert (V : view_eqb x y = view_eqb y x) by (rewrite !view_eqb_data_eqb; apply data_eqb_sym).
  destruct op; cbn [flip_op evaluate evaluate_view]; rewrite ?S, ?S', ?V; auto; congruence.
Qed.
Example C18_flip_example : evaluate literal_regex (DCount 3) op_le (DCount 5) = Some true /\ evaluate literal_regex (DCount 5) op_ge (DCount 3) = Some true.
Proof. split; vm_compute; reflexivity. Qed.

(** The match operator is not symmetric, although [flip] keeps it. *)
Theorem C18_flip_match_refuted : exists re x y, evaluate re x op_match y = Some true /\ evaluate re y (flip_op op_match) x = Some false.
Proof. exists literal_regex, (DString [97]), (DPattern [97]). split; vm_compute; reflexivity. Qed.

(** * The order *)

(** Without NaN, [<] is a strict total order on data of all types whose
    equivalence is [==], and [<=], [>], [>=] belong to it. *)
Theorem C18_order : forall re x y z, no_nan x -> no_nan y -> no_nan z ->
  let lt a b := evaluate re a op_lt b = Some true in
  ~ lt x x /\ (lt x y -> lt y z -> lt x z) /\
  ((lt x y /\ ~ lt y x /\ data_eqb x y = false) \/ (lt y x /\ ~ lt x y /\ data_eqb x y = false) \/ (~ lt x y /\ ~ lt y x /\ data_eqb x y = true)) /\
  evaluate re x op_gt y = evaluate re y op_lt x /\
  (evaluate re x op_le y = Some true <-> lt x y \/ data_eqb x y = true).
Proof.
  intros re x y z X Y Z lt. unfold lt. cbn [evaluate].
  assert (SM : forall b, Some b = Some true <-> b = true) by (intros b; split; congruence).
  rewrite !SM. rewrite (data_gt x y). unfold data_lt.
  pose proof (eqb_cmp x y X Y) as EQ.
  rewrite (data_cmp_enc x x X X), (data_cmp_enc y z Y Z), (data_cmp_enc x z X Z) in *.
  rewrite zlex_refl. split; [discriminate|]. split.
  { rewrite (data_cmp_enc x y X Y). apply zlex_trans. }
  rewrite (data_cmp_enc x y X Y) in *.
  destruct (zlex_tri (enc x) (enc y)) as [[E NE]|[[E NE]|[E NE] ] ]; rewrite E in *; cbn [fst snd negb] in *.
  - assert (Q : data_eqb x y = false) by (destruct (data_eqb x y); auto; destruct EQ as [EQ _]; discriminate (EQ eq_refl)).
    split; [left; repeat split; auto; discriminate|]. split; auto. split; auto.
  - assert (Q : data_eqb x y = false) by (destruct (data_eqb x y); auto; destruct EQ as [EQ _]; discriminate (EQ eq_refl)).
    split; [right; left; repeat split; auto; discriminate|]. split; auto. rewrite Q. split; [discriminate|]. intros [?|?]; discriminate.
  - assert (Q : data_eqb x y = true) by now apply EQ.
    split; [right; right; repeat split; auto; discriminate|]. split; auto. split; auto.
Qed.
Example C18_order_example :
  no_nan (DList [DInt 1; DReal (1023 * 2 ^ 52)]) /\ no_nan (DList [DInt 1; DReal 0; DNone]) /\
  evaluate literal_regex (DList [DInt 1; DReal 0; DNone]) op_lt (DList [DInt 1; DReal (1023 * 2 ^ 52)]) = Some true.
Proof. repeat split; vm_compute; reflexivity. Qed.

(** NaN breaks the order: it is at most and at least everything, and unequal to itself. *)
Theorem C18_nan_refuted : exists x y, ~ no_nan x /\
  evaluate literal_regex x op_le y = Some true /\ evaluate literal_regex x op_ge y = Some true /\ evaluate literal_regex x op_eq x = Some false.
Proof. exists (DReal (2047 * 2 ^ 52 + 1)), (DReal 0). split; [vm_compute; discriminate|]. repeat split; vm_compute; reflexivity. Qed.

(** * Meaning on scalars *)

Theorem C18_scalars : forall re,
  (forall op a b, In op six ->
     evaluate re (DInt a) op (DInt b) = Some (holdsZ op a b) /\
     evaluate re (DDuration a) op (DDuration b) = Some (holdsZ op a b) /\
     evaluate re (DTime a) op (DTime b) = Some (holdsZ op a b)) /\
  (forall op a b, In op six -> evaluate re (DCount a) op (DCount b) = Some (holdsZ op (Z.of_N a) (Z.of_N b))) /\
  (forall op p q, In op six -> d_nan p = false -> d_nan q = false ->
     evaluate re (DReal p) op (DReal q) = Some (holdsZ op (d_value p) (d_value q))) /\
  (forall s t, evaluate re (DString s) op_eq (DString t) = Some true <-> s = t) /\
  (forall s t, evaluate re (DString s) op_in (DString t) = Some true <-> exists pre post, t = pre ++ s ++ post) /\
  (forall x ys, (exists y, In y ys /\ x = y) -> no_nan x -> evaluate re x op_in (DList ys) = Some true) /\
  (forall x y, evaluate re x op_in y = evaluate re y op_ni x).
Proof.
  intros re. split; [|split; [|split; [|split; [|split; [|split] ] ] ] ].
  - intros op a b H. cbn in H. intuition subst; cbn; try reflexivity; unfold data_lt; cbn [data_cmp lt_Z fst]; f_equal; lia.
  - intros op a b H. cbn in H. intuition subst; cbn [evaluate holdsZ eval_string_and_pattern data_eqb]; unfold data_lt; cbn [data_cmp lt_N fst]; f_equal; lia.
  - intros op p q H NP NQ. cbn in H. unfold real_eqb, lt_real.
    intuition subst; cbn [evaluate holdsZ eval_string_and_pattern data_eqb]; unfold data_lt, real_eqb; cbn [data_cmp lt_real fst];
      rewrite ?NP, ?NQ; cbn [negb andb]; f_equal; lia.
  - intros s t. cbn [evaluate eval_string_and_pattern data_eqb]. split; [intros Q; injection Q as Q; now apply bytes_eqb_eq'|].
    intros ->. f_equal. induction t; cbn; auto. rewrite N.eqb_refl. auto.
  - intros s t. cbn [evaluate eval_in].
    assert (SW : forall s w, starts_with s w = true <-> exists post, w = s ++ post).
    { induction s0 as [|x s0 IH]; intros w; cbn [starts_with app]; [split; eauto|].
      destruct w as [|y w]; [split; [discriminate|intros (p & Q); discriminate]|].
      rewrite andb_true_iff, N.eqb_eq, IH. split; [intros [-> (p & ->)]; eauto|intros (p & Q); injection Q; eauto]. }
    assert (F : finds s t = true <-> exists pre post, t = pre ++ s ++ post).
    { induction t as [|y t IH]; cbn [finds]; rewrite orb_true_iff, SW.
      - split; [intros [(p & E)|Q]; [exists [], p; auto|discriminate]|]. intros (pre & post & E). left.
        destruct pre; [eauto|discriminate].
      - rewrite IH. split.
        + intros [(p & E)|(pre & post & ->)]; [exists [], p; auto|exists (y :: pre), post; auto].
        + intros ([|z pre] & post & E); [left; eauto|]. injection E as -> ->. right. eauto. }
    rewrite <- F. split; congruence.
  - intros x ys (y & IN & <-) NX. cbn [evaluate].
    assert (E : existsb (fun e => data_eqb e x) ys = true).
    { apply existsb_exists. exists x. split; auto. apply eqb_cmp; auto. rewrite (data_cmp_enc x x NX NX). apply zlex_refl. }
    destruct x; cbn [eval_in]; now rewrite E.
  - reflexivity.
Qed.

(** * Views and data *)

Definition mixed (x y : data) : bool :=
  match x, y with DString _, DPattern _ | DPattern _, DString _ => true | _, _ => false end.
Definition scalar (x : data) : bool := match x with DList _ | DMap _ | DRecord _ => false | _ => true end.

(** Evaluating views gives the same as evaluating data, except for the match
    operators, [==] and [!=] between a string and a pattern, and the ordering of
    two containers. *)
Theorem C18_view : forall re x op y, op <> op_match -> op <> op_not_match ->
  (op = op_eq \/ op = op_ne -> mixed x y = false) ->
  (op = op_lt \/ op = op_le \/ op = op_gt \/ op = op_ge -> scalar x = true \/ scalar y = true) ->
  evaluate_view re x op y = evaluate re x op y.
Proof.
  intros re x op y M1 M2 MX SC.
  assert (C : scalar x = true \/ scalar y = true -> view_cmp x y = data_cmp x y).
  { intros [H|H]; destruct x; try discriminate H; destruct y; try discriminate H; reflexivity. }
  destruct op; cbn [evaluate evaluate_view]; rewrite ?view_in_eval_in; auto; try congruence.
  - rewrite view_eqb_data_eqb. specialize (MX (or_introl eq_refl)). destruct x, y; try discriminate MX; reflexivity.
  - rewrite view_eqb_data_eqb. specialize (MX (or_intror eq_refl)). destruct x, y; try discriminate MX; reflexivity.
  - unfold view_lt, data_lt. rewrite C; auto.
  - rewrite view_gt, data_gt, C; auto.
  - rewrite view_gt, data_gt, C; auto.
  - unfold view_lt, data_lt. rewrite C; auto.
Qed.
Example C18_view_example : mixed (DString [97]) (DList [DString [97]]) = false /\
  evaluate_view literal_regex (DString [97]) op_in (DList [DString [97]]) = Some true /\
  evaluate literal_regex (DString [97]) op_in (DList [DString [97]]) = Some true.
Proof. repeat split; vm_compute; reflexivity. Qed.

(** [~] on views never matches and [!~] always does, whatever the pattern: the
    candidate check rejects events that the query asks for. *)
Theorem C18_view_match_refuted : forall re x y,
  evaluate_view re x op_match y = Some false /\ evaluate_view re x op_not_match y = Some true.
Proof. split; reflexivity. Qed.
Theorem C18_view_match_data_refuted : exists re x y, evaluate re x op_match y = Some true /\ evaluate_view re x op_match y = Some false.
Proof. exists literal_regex, (DString [97]), (DPattern [97]). split; vm_compute; reflexivity. Qed.
(** [==] between a string and a pattern matches on data and is false on views. *)
Theorem C18_view_equal_pattern_refuted : exists re x y, evaluate re x op_eq y = Some true /\ evaluate_view re x op_eq y = Some false.
Proof. exists literal_regex, (DString [97]), (DPattern [97]). split; vm_compute; reflexivity. Qed.
(** Two lists can both be smaller than the other as views. *)
Theorem C18_view_order_refuted : exists x y, scalar x = false /\
  evaluate_view literal_regex x op_lt y = Some true /\ evaluate_view literal_regex y op_lt x = Some true /\
  evaluate literal_regex y op_lt x = Some false.
Proof. exists (DList [DInt 1; DInt 2]), (DList [DInt 2; DInt 1]). repeat split; vm_compute; reflexivity. Qed.

Definition assumptions_data := (C18_negate_involutive, C18_complement, C18_flip, C18_flip_match_refuted, C18_order, C18_nan_refuted,
  C18_scalars, C18_view, C18_view_match_refuted, C18_view_match_data_refuted, C18_view_equal_pattern_refuted, C18_view_order_refuted).
Print Assumptions assumptions_data.
