(** Proofs about the normalisation of expressions (ExpressionModel.v). *)
From Coq Require Import List ZArith NArith Lia Bool Arith.
From Verif Require Import OperatorModel AddressModel AddressProofs DataModel DataProofs TypeModel TypeProofs ExpressionModel.
Import ListNotations.
Open Scope nat_scope.

Section Induction.
  Variable P : expr -> Prop.
  Hypothesis Hnone : P ENone.
  Hypothesis Hand : forall es, Forall P es -> P (EAnd es).
  Hypothesis Hor : forall es, Forall P es -> P (EOr es).
  Hypothesis Hnot : forall e, P e -> P (ENot e).
  Hypothesis Hpred : forall p, P (EPred p).
  Fixpoint expr_rect' (e : expr) : P e.
  Proof.
    destruct e as [|es|es|x|p].
    - exact Hnone.
    - apply Hand. induction es as [|e es IH]; constructor; [apply expr_rect'|exact IH].
    - apply Hor. induction es as [|e es IH]; constructor; [apply expr_rect'|exact IH].
    - apply Hnot, expr_rect'.
    - apply Hpred.
  Defined.
End Induction.

(** Truth of an expression under a truth assignment of predicates. A missing
    expression is false. *)
Fixpoint holds (v : predicate -> bool) (e : expr) : bool :=
  match e with
  | ENone => false
  | EAnd es => forallb (holds v) es
  | EOr es => existsb (holds v) es
  | ENot x => negb (holds v x)
  | EPred p => v p
  end.

(** No missing expression anywhere. *)
Fixpoint complete (e : expr) : bool :=
  match e with
  | ENone => false
  | EAnd es | EOr es => forallb complete es
  | ENot x => complete x
  | EPred _ => true
  end.
(** No negation anywhere. *)
Fixpoint positive (e : expr) : bool :=
  match e with
  | ENone | EPred _ => true
  | EAnd es | EOr es => forallb positive es
  | ENot _ => false
  end.
(** A property of all predicates in an expression. *)
Fixpoint all_preds (P : predicate -> Prop) (e : expr) : Prop :=
  match e with
  | ENone => True
  | EAnd es | EOr es => fold_right (fun x q => all_preds P x /\ q) True es
  | ENot x => all_preds P x
  | EPred p => P p
  end.
Lemma all_preds_Forall : forall P es, fold_right (fun x q => all_preds P x /\ q) True es <-> Forall (all_preds P) es.
Proof.
  intros P. induction es as [|e es IH]; cbn [fold_right]; split; intros H; auto.
  - destruct H as [H1 H2]. constructor; [exact H1|now apply IH].
  - inversion H; subst. split; [assumption|now apply IH].
Qed.
(** The data is on the right unless both or no operands are data. *)
Definition aligned (p : predicate) : Prop := is_extractor (p_lhs p) = true \/ is_extractor (p_rhs p) = false.

Lemma forallb_ext' : forall A (f g : A -> bool) xs, Forall (fun x => f x = g x) xs -> forallb f xs = forallb g xs.
Proof. intros A f g. induction 1 as [|x xs H1 H2 IH]; [reflexivity|]. cbn. now rewrite H1, IH. Qed.
Lemma existsb_ext'' : forall A (f g : A -> bool) xs, Forall (fun x => f x = g x) xs -> existsb f xs = existsb g xs.
Proof. intros A f g. induction 1 as [|x xs H1 H2 IH]; [reflexivity|]. cbn. now rewrite H1, IH. Qed.
Lemma forallb_map' : forall A B (f : A -> B) p xs, forallb p (map f xs) = forallb (fun x => p (f x)) xs.
Proof. intros A B f p. induction xs as [|x xs IH]; [reflexivity|]. cbn. now rewrite IH. Qed.
Lemma existsb_map' : forall A B (f : A -> B) p xs, existsb p (map f xs) = existsb (fun x => p (f x)) xs.
Proof. intros A B f p. induction xs as [|x xs IH]; [reflexivity|]. cbn. now rewrite IH. Qed.
Lemma Forall_map' : forall A B (f : A -> B) (P : B -> Prop) xs, Forall (fun x => P (f x)) xs -> Forall P (map f xs).
Proof. intros. now apply Forall_map. Qed.

(** * Hoisting *)

(** [P] of an expression and of the elements of a connective. *)
Definition two_level (P : expr -> Prop) (e : expr) : Prop :=
  P e /\ match e with EAnd es | EOr es => Forall P es | _ => True end.
Lemma two_level_ind : forall P : expr -> Prop,
  P ENone -> (forall p, P (EPred p)) -> (forall e, P e -> P (ENot e)) ->
  (forall es, Forall (two_level P) es -> P (EAnd es)) ->
  (forall es, Forall (two_level P) es -> P (EOr es)) -> forall e, P e.
Proof.
  intros P H1 H2 H3 H4 H5 e. enough (G : two_level P e) by (destruct G; assumption).
  induction e as [|es IH|es IH|e IH|p] using expr_rect'; split; auto;
    try (eapply Forall_impl; [|exact IH]; intros x [Hx _]; exact Hx).
  destruct IH as [IH _]. auto.
Qed.

Definition lift_and (x : expr) : list expr := match x with EAnd ys => map hoist ys | _ => [hoist x] end.
Definition lift_or (x : expr) : list expr := match x with EOr ys => map hoist ys | _ => [hoist x] end.
Lemma hoist_and : forall es, hoist (EAnd es) = single EAnd (flat_map lift_and es).
Proof. reflexivity. Qed.
Lemma hoist_or : forall es, hoist (EOr es) = single EOr (flat_map lift_or es).
Proof. reflexivity. Qed.

Lemma holds_single_and : forall v es, holds v (single EAnd es) = forallb (holds v) es.
Proof. intros v [|e [|e' es]]; try reflexivity. cbn. now rewrite andb_true_r. Qed.
Lemma holds_single_or : forall v es, holds v (single EOr es) = existsb (holds v) es.
Proof. intros v [|e [|e' es]]; try reflexivity. cbn. now rewrite orb_false_r. Qed.

Lemma forallb_flat_map : forall A B (f : A -> list B) p xs, forallb p (flat_map f xs) = forallb (fun x => forallb p (f x)) xs.
Proof. intros A B f p. induction xs as [|x xs IH]; [reflexivity|]. cbn. now rewrite forallb_app, IH. Qed.
Lemma existsb_flat_map : forall A B (f : A -> list B) p xs, existsb p (flat_map f xs) = existsb (fun x => existsb p (f x)) xs.
Proof. intros A B f p. induction xs as [|x xs IH]; [reflexivity|]. cbn. now rewrite existsb_app, IH. Qed.

Lemma hoist_holds : forall v e, holds v (hoist e) = holds v e.
Proof.
  intros v. apply two_level_ind; try reflexivity.
  - intros e H. cbn. now rewrite H.
  - intros es H. rewrite hoist_and, holds_single_and, forallb_flat_map. cbn [holds]. apply forallb_ext'.
    eapply Forall_impl; [|exact H]. intros x [Hx Hc]. destruct x as [|ys|ys|y|p]; cbn [lift_and]; cbn [forallb];
      rewrite ?andb_true_r; auto.
    rewrite forallb_map'. cbn [holds]. now apply forallb_ext'.
  - intros es H. rewrite hoist_or, holds_single_or, existsb_flat_map. cbn [holds]. apply existsb_ext''.
    eapply Forall_impl; [|exact H]. intros x [Hx Hc]. destruct x as [|ys|ys|y|p]; cbn [lift_or]; cbn [existsb];
      rewrite ?orb_false_r; auto.
    rewrite existsb_map'. cbn [holds]. now apply existsb_ext''.
Qed.

(** What hoisting keeps: any property that holds of connectives exactly if it holds
    of all their elements. *)
Section Hoist.
  Variable Q : expr -> Prop.
  Hypothesis Qand : forall es, Q (EAnd es) <-> Forall Q es.
  Hypothesis Qor : forall es, Q (EOr es) <-> Forall Q es.
  Hypothesis Qnot : forall e, Q (ENot e) -> Q e.
  Hypothesis Qnot' : forall e e', Q (ENot e) -> Q e' -> Q (ENot e').
  Lemma hoist_keeps : forall e, Q e -> Q (hoist e).
  Proof.
    assert (S : forall con es, (con = EAnd \/ con = EOr) -> Forall Q es -> Q (single con es)).
    { intros con [|e [|e' es]] Hc H; cbn [single].
      - destruct Hc as [-> | ->]; [now apply Qand|now apply Qor].
      - now inversion H.
      - destruct Hc as [-> | ->]; [now apply Qand|now apply Qor]. }
    apply (two_level_ind (fun e => Q e -> Q (hoist e))); auto.
    - intros e IH H. cbn [hoist]. apply (Qnot' e); auto.
    - intros es IH H. rewrite hoist_and. apply S; [auto|]. apply Qand in H. apply Forall_flat_map.
      apply Forall_forall. intros x Hx. rewrite Forall_forall in IH, H. destruct (IH x Hx) as [I1 I2]. specialize (H x Hx).
      destruct x as [|ys|ys|y|p]; cbn [lift_and]; try (constructor; [now apply I1|constructor]).
      apply Forall_map. apply Qand in H. rewrite Forall_forall in I2, H. apply Forall_forall. auto.
    - intros es IH H. rewrite hoist_or. apply S; [auto|]. apply Qor in H. apply Forall_flat_map.
      apply Forall_forall. intros x Hx. rewrite Forall_forall in IH, H. destruct (IH x Hx) as [I1 I2]. specialize (H x Hx).
      destruct x as [|ys|ys|y|p]; cbn [lift_or]; try (constructor; [now apply I1|constructor]).
      apply Forall_map. apply Qor in H. rewrite Forall_forall in I2, H. apply Forall_forall. auto.
  Qed.
End Hoist.

Lemma forallb_Forall : forall A (f : A -> bool) xs, forallb f xs = true <-> Forall (fun x => f x = true) xs.
Proof. intros A f xs. rewrite forallb_forall, Forall_forall. reflexivity. Qed.

Lemma hoist_complete : forall e, complete e = true -> complete (hoist e) = true.
Proof. apply (hoist_keeps (fun e => complete e = true)); intros; cbn [complete] in *; rewrite ?forallb_Forall in *; try reflexivity; auto. Qed.
Lemma hoist_positive : forall e, positive e = true -> positive (hoist e) = true.
Proof. apply (hoist_keeps (fun e => positive e = true)); intros; cbn [positive] in *; rewrite ?forallb_Forall in *; try reflexivity; try discriminate. Qed.
Lemma hoist_preds : forall (P : predicate -> Prop) e, all_preds P e -> all_preds P (hoist e).
Proof. intros P. apply (hoist_keeps (all_preds P)); intros; cbn [all_preds] in *; rewrite ?all_preds_Forall in *; try reflexivity; auto. Qed.

(** * Aligning *)

Lemma align_holds : forall v e, all_preds (fun p => v (align_pred p) = v p) e -> holds v (align e) = holds v e.
Proof.
  intros v. induction e as [|es IH|es IH|e IH|p] using expr_rect'; intros H; cbn [align holds all_preds] in *; auto.
  - rewrite forallb_map'. apply forallb_ext'. rewrite all_preds_Forall in H. rewrite Forall_forall in *. auto.
  - rewrite existsb_map'. apply existsb_ext''. rewrite all_preds_Forall in H. rewrite Forall_forall in *. auto.
  - now rewrite IH.
Qed.
Lemma align_complete : forall e, complete (align e) = complete e.
Proof.
  induction e as [|es IH|es IH|e IH|p] using expr_rect'; cbn [align complete]; auto; rewrite forallb_map'; now apply forallb_ext'.
Qed.
Lemma align_pred_aligned : forall p, aligned (align_pred p).
Proof.
  intros p. unfold align_pred, aligned. destruct (is_extractor (p_lhs p)) eqn:E, (is_extractor (p_rhs p)) eqn:E'; cbn; auto.
Qed.
Lemma align_preds : forall P : predicate -> Prop, (forall p, P (align_pred p)) -> forall e, all_preds P (align e).
Proof.
  intros P HP. induction e as [|es IH|es IH|e IH|p] using expr_rect'; cbn [align all_preds]; auto;
    rewrite all_preds_Forall; apply Forall_map; exact IH.
Qed.

(** * Removing negations *)

Lemma denegate_holds : forall v, (forall p, v (with_op p (negate_op (p_op p))) = negb (v p)) ->
  forall e, complete e = true -> forall neg, holds v (denegate neg e) = xorb neg (holds v e).
Proof.
  intros v Hv.
  assert (W : forall p, with_op p (p_op p) = p) by (intros []; reflexivity).
  enough (G : forall e, (complete e = true -> forall neg, holds v (denegate neg e) = xorb neg (holds v e)) /\
    match e with ENot x => complete x = true -> forall neg, holds v (denegate neg x) = xorb neg (holds v x) | _ => True end)
    by (intros e; apply G).
  induction e as [|es IH|es IH|e IH|p] using expr_rect'; (split; [|try exact Logic.I]); try discriminate.
  - intros H neg. cbn [denegate complete] in *. rewrite forallb_Forall in H.
    assert (E : Forall (fun x => holds v (denegate neg x) = xorb neg (holds v x)) es).
    { rewrite Forall_forall in *. intros x Hx. destruct (IH x Hx) as [I _]. auto. }
    destruct neg; cbn [holds]; rewrite ?existsb_map', ?forallb_map'.
    + rewrite (existsb_ext'' _ _ _ _ E). clear. induction es as [|x es IH]; [reflexivity|]. cbn [existsb forallb].
      rewrite IH. destruct (holds v x); reflexivity.
    + rewrite (forallb_ext' _ _ _ _ E). clear. induction es as [|x es IH]; [reflexivity|]. cbn [existsb forallb].
      rewrite IH. destruct (holds v x); reflexivity.
  - intros H neg. cbn [denegate complete] in *. rewrite forallb_Forall in H.
    assert (E : Forall (fun x => holds v (denegate neg x) = xorb neg (holds v x)) es).
    { rewrite Forall_forall in *. intros x Hx. destruct (IH x Hx) as [I _]. auto. }
    destruct neg; cbn [holds]; rewrite ?existsb_map', ?forallb_map'.
    + rewrite (forallb_ext' _ _ _ _ E). clear. induction es as [|x es IH]; [reflexivity|]. cbn [existsb forallb].
      rewrite IH. destruct (holds v x); reflexivity.
    + rewrite (existsb_ext'' _ _ _ _ E). clear. induction es as [|x es IH]; [reflexivity|]. cbn [existsb forallb].
      rewrite IH. destruct (holds v x); reflexivity.
  - intros H neg. destruct IH as [I1 I2]. cbn [complete] in H. cbn [holds].
    destruct e as [|es|es|x|p]; try discriminate H.
    4:{ cbn [denegate]. cbn [holds]. rewrite Hv || idtac. cbn [negb]. destruct neg; cbn [negb]; rewrite ?W, ?Hv; cbn; destruct (v p); reflexivity. }
    3:{ cbn [denegate]. rewrite (I2 H neg). cbn [holds]. now rewrite negb_involutive. }
    all: cbn [denegate]; change (holds v (denegate (negb neg) (EAnd es)) = xorb neg (negb (holds v (EAnd es))))
           || change (holds v (denegate (negb neg) (EOr es)) = xorb neg (negb (holds v (EOr es))));
         rewrite (I1 H (negb neg)); match goal with |- context [holds ?w ?x] => destruct neg, (holds w x); reflexivity end.
  - destruct IH as [I1 _]. exact I1.
  - intros _ neg. cbn [denegate holds]. destruct neg; [rewrite Hv|rewrite W]; destruct (v p); reflexivity.
Qed.

Lemma denegate_positive : forall e neg, positive (denegate neg e) = true.
Proof.
  enough (G : forall e, (forall neg, positive (denegate neg e) = true) /\
    match e with ENot x => forall neg, positive (denegate neg x) = true | _ => True end) by (intros e; apply G).
  induction e as [|es IH|es IH|e IH|p] using expr_rect'; (split; [|try exact Logic.I]); auto.
  1,2: intros neg; cbn [denegate]; destruct neg; cbn [positive]; rewrite forallb_Forall; apply Forall_map;
       (eapply Forall_impl; [|exact IH]); intros x [Hx _]; apply Hx.
  - intros neg. destruct IH as [I1 I2]. destruct e as [|es|es|x|p]; try (cbn [denegate]; apply (I1 (negb neg))). cbn [denegate]. apply I2.
  - apply IH.
Qed.

Lemma denegate_preds : forall (P : predicate -> Prop), (forall p op, P p -> P (with_op p op)) ->
  forall e neg, all_preds P e -> all_preds P (denegate neg e).
Proof.
  intros P HP.
  enough (G : forall e, (forall neg, all_preds P e -> all_preds P (denegate neg e)) /\
    match e with ENot x => forall neg, all_preds P x -> all_preds P (denegate neg x) | _ => True end) by (intros e; apply G).
  induction e as [|es IH|es IH|e IH|p] using expr_rect'; (split; [|try exact Logic.I]); auto.
  1,2: intros neg H; cbn [denegate all_preds] in *; rewrite all_preds_Forall in H;
       destruct neg; cbn [all_preds]; rewrite all_preds_Forall; apply Forall_map;
       rewrite Forall_forall in *; intros x Hx; destruct (IH x Hx) as [I _]; auto.
  - intros neg H. destruct IH as [I1 I2]. cbn [all_preds] in H.
    destruct e as [|es|es|x|p]; try (cbn [denegate]; apply (I1 (negb neg)); exact H). cbn [denegate]. apply I2. exact H.
  - apply IH.
  - intros neg H. cbn [denegate all_preds] in *. auto.
Qed.
Lemma denegate_complete : forall e neg, complete (denegate neg e) = complete e.
Proof.
  enough (G : forall e, (forall neg, complete (denegate neg e) = complete e) /\
    match e with ENot x => forall neg, complete (denegate neg x) = complete x | _ => True end) by (intros e; apply G).
  induction e as [|es IH|es IH|e IH|p] using expr_rect'; (split; [|try exact Logic.I]); auto.
  1,2: intros neg; cbn [denegate]; destruct neg; cbn [complete]; rewrite forallb_map'; apply forallb_ext';
       (eapply Forall_impl; [|exact IH]); intros x [Hx _]; apply Hx.
  - intros neg. destruct IH as [I1 I2]. destruct e as [|es|es|x|p]; try (cbn [denegate complete]; apply (I1 (negb neg))). cbn [denegate complete]. apply I2.
  - apply IH.
Qed.

(** * Removing duplicates *)

Lemma expr_eqb_holds : forall v, (forall p q, pred_eqb p q = true -> v p = v q) -> forall x y, expr_eqb x y = true -> holds v x = holds v y.
Proof.
  intros v Hv.
  assert (L : forall es, Forall (fun x => forall y, expr_eqb x y = true -> holds v x = holds v y) es ->
    forall fs, eqs expr_eqb es fs = true -> forallb (holds v) es = forallb (holds v) fs /\ existsb (holds v) es = existsb (holds v) fs).
  { induction es as [|e es IH]; intros H [|f fs] E; cbn [eqs] in E; try discriminate; auto.
    apply andb_true_iff in E. destruct E as [E1 E2]. inversion H as [|? ? H1 H2]; subst. cbn.
    rewrite (H1 f E1). destruct (IH H2 fs E2) as [-> ->]. auto. }
  induction x as [|es IH|es IH|e IH|p] using expr_rect'; intros [|fs|fs|f|q] E; cbn [expr_eqb] in E; try discriminate; cbn [holds]; auto.
  - now apply L.
  - now apply L.
  - f_equal. auto.
Qed.

Lemma push_new_holds : forall v, (forall p q, pred_eqb p q = true -> v p = v q) -> forall es acc,
  forallb (holds v) (fold_left push_new es acc) = forallb (holds v) acc && forallb (holds v) es /\
  existsb (holds v) (fold_left push_new es acc) = existsb (holds v) acc || existsb (holds v) es.
Proof.
  intros v Hv. induction es as [|e es IH]; intros acc; cbn [fold_left forallb existsb].
  - now rewrite andb_true_r, orb_false_r.
  - destruct (IH (push_new acc e)) as [-> ->]. unfold push_new.
    destruct (existsb (fun x => expr_eqb x e) acc) eqn:Ex.
    + apply existsb_exists in Ex. destruct Ex as [x [Hx Hxe]]. apply (expr_eqb_holds v Hv) in Hxe.
      split.
      * destruct (forallb (holds v) acc) eqn:Ea; [|reflexivity]. rewrite forallb_forall in Ea. rewrite <- Hxe, (Ea x Hx). reflexivity.
      * destruct (holds v e) eqn:Ee; [|reflexivity]. cbn.
        assert (A : existsb (holds v) acc = true) by (apply existsb_exists; eauto). now rewrite A.
    + rewrite forallb_app, existsb_app. cbn. rewrite andb_true_r, orb_false_r, andb_assoc, orb_assoc. auto.
Qed.

Lemma dedup_holds : forall v, (forall p q, pred_eqb p q = true -> v p = v q) -> forall e, positive e = true -> holds v (dedup e) = holds v e.
Proof.
  intros v Hv. induction e as [|es IH|es IH|e IH|p] using expr_rect'; intros H; cbn [dedup holds positive] in *; auto.
  - destruct (push_new_holds v Hv (map dedup es) []) as [-> _]. cbn [forallb andb]. rewrite forallb_map'. apply forallb_ext'.
    rewrite forallb_Forall in H. rewrite Forall_forall in *. auto.
  - destruct (push_new_holds v Hv (map dedup es) []) as [_ ->]. cbn [existsb orb]. rewrite existsb_map'. apply existsb_ext''.
    rewrite forallb_Forall in H. rewrite Forall_forall in *. auto.
  - discriminate.
Qed.

Lemma push_new_incl : forall es acc x, In x (fold_left push_new es acc) -> In x acc \/ In x es.
Proof.
  induction es as [|e es IH]; intros acc x H; [now left|]. cbn [fold_left] in H. destruct (IH _ _ H) as [A|A]; [|right; now right].
  unfold push_new in A. destruct (existsb _ acc); [now left|]. apply in_app_or in A. destruct A as [A|[->|[] ] ]; [now left|right; now left].
Qed.
Lemma dedup_keeps : forall Q : expr -> Prop,
  (forall es, Q (EAnd es) <-> Forall Q es) -> (forall es, Q (EOr es) <-> Forall Q es) -> (forall e, Q (ENot e) -> Q e) ->
  forall e, Q e -> Q (dedup e).
Proof.
  intros Q Qa Qo Qn. induction e as [|es IH|es IH|e IH|p] using expr_rect'; intros H; cbn [dedup]; auto.
  - apply Qa. apply Qa in H. rewrite Forall_forall in *. intros x Hx. apply push_new_incl in Hx. destruct Hx as [[]|Hx].
    apply in_map_iff in Hx. destruct Hx as [y [<- Hy]]. auto.
  - apply Qo. apply Qo in H. rewrite Forall_forall in *. intros x Hx. apply push_new_incl in Hx. destruct Hx as [[]|Hx].
    apply in_map_iff in Hx. destruct Hx as [y [<- Hy]]. auto.
Qed.
Lemma dedup_positive : forall e, positive e = true -> positive (dedup e) = true.
Proof. apply (dedup_keeps (fun e => positive e = true)); intros; cbn [positive] in *; rewrite ?forallb_Forall in *; try reflexivity; try discriminate. Qed.
Lemma dedup_complete : forall e, complete e = true -> complete (dedup e) = true.
Proof. apply (dedup_keeps (fun e => complete e = true)); intros; cbn [complete] in *; rewrite ?forallb_Forall in *; try reflexivity; auto. Qed.
Lemma dedup_preds : forall (P : predicate -> Prop) e, all_preds P e -> all_preds P (dedup e).
Proof. intros P. apply (dedup_keeps (all_preds P)); intros; cbn [all_preds] in *; rewrite ?all_preds_Forall in *; try reflexivity; auto. Qed.

(** * normalize *)

Lemma normalize_holds : forall v,
  (forall p, v (with_op p (negate_op (p_op p))) = negb (v p)) ->
  (forall p q, pred_eqb p q = true -> v p = v q) ->
  forall e, complete e = true -> all_preds (fun p => v (align_pred p) = v p) e ->
  holds v (normalize e) = holds v e.
Proof.
  intros v Hn He e Hc Ha. unfold normalize. rewrite hoist_holds, dedup_holds by (auto using denegate_positive).
  rewrite (denegate_holds v Hn); [|rewrite align_complete; now apply hoist_complete].
  rewrite align_holds by (now apply hoist_preds). rewrite hoist_holds. now destruct (holds v e).
Qed.
Lemma normalize_shape : forall e, positive (normalize e) = true /\ all_preds aligned (normalize e) /\
  (complete e = true -> complete (normalize e) = true).
Proof.
  intros e. unfold normalize. split; [apply hoist_positive, dedup_positive, denegate_positive|]. split.
  - apply hoist_preds, dedup_preds, denegate_preds; [|apply align_preds; apply align_pred_aligned]. intros p op H. exact H.
  - intros H. apply hoist_complete, dedup_complete. rewrite denegate_complete, align_complete. now apply hoist_complete.
Qed.

(** * Events *)

(** The value of an operand in an event that gives each extractor one value. *)
Definition value_of (event : operand -> data) (o : operand) : data := match o with OVal d => d | _ => event o end.
(** Truth of a predicate in such an event. An evaluation that fails an assertion
    counts as false, for a negated operator as true. *)
Definition pred_holds (re : regex) (event : operand -> data) (p : predicate) : bool :=
  match evaluate re (value_of event (p_lhs p)) (p_op p) (value_of event (p_rhs p)) with
  | Some b => b
  | None => is_negated (p_op p)
  end.

Lemma evaluate_none : forall re x op y, evaluate re x op y = None -> is_negated (negate_op op) = negb (is_negated op).
Proof. intros re x op y. destruct op; cbn; intros H; try reflexivity; discriminate. Qed.

Lemma data_eqb_scalar : forall x y, data_eqb x y = true -> forall s, x = DString s \/ x = DPattern s -> y = x.
Proof. intros x y E s [-> | ->]; destruct y; cbn [data_eqb] in E; try discriminate; apply bytes_eqb_spec in E; now subst. Qed.

Lemma match_cong_left : forall re x x' z, data_eqb x x' = true -> eval_match re x z = eval_match re x' z.
Proof.
  intros re x x' z E.
  destruct x; destruct x'; cbn [data_eqb] in E; try discriminate; try reflexivity.
  apply bytes_eqb_spec in E. now subst.
Qed.
Lemma operand_eqb_value : forall event x y, operand_eqb x y = true ->
  x = y \/ exists a b, value_of event x = a /\ value_of event y = b /\ data_eqb a b = true.
Proof.
  intros event [a|a|a|a o|a] [b|b|b|b q|b] E; cbn [operand_eqb] in E; try discriminate.
  - left. destruct a, b; try discriminate; reflexivity.
  - left. apply bytes_eqb_spec in E. now subst.
  - left. apply ty_eqb_eq in E. now subst.
  - left. apply andb_true_iff in E. destruct E as [E1 E2]. apply ty_eqb_eq in E1. subst. f_equal.
    apply eqs_eq in E2; [exact E2|]. apply Forall_forall. intros; apply Nat.eqb_eq.
  - right. exists a, b. auto.
Qed.

Lemma evaluate_cong_left : forall re x x' op z, data_eqb x x' = true -> evaluate re x op z = evaluate re x' op z.
Proof.
  intros re x x' op z E.
  assert (F : forall a, op <> op_match -> op <> op_not_match -> evaluate re a op z = evaluate re z (flip_op op) a).
  { intros a M1 M2. rewrite (data_eqb_sym x x') in E. clear E.
    assert (S : match eval_string_and_pattern re a z with Some b => b | None => data_eqb a z end
              = match eval_string_and_pattern re z a with Some b => b | None => data_eqb z a end)
      by (rewrite (data_eqb_sym a z); destruct a, z; reflexivity).
    assert (S' : match eval_string_and_pattern re a z with Some b => negb b | None => negb (data_eqb a z) end
              = match eval_string_and_pattern re z a with Some b => negb b | None => negb (data_eqb z a) end)
      by (rewrite (data_eqb_sym a z); destruct a, z; reflexivity).
    destruct op; cbn [flip_op evaluate]; rewrite ?S, ?S'; auto; congruence. }
  destruct op; try (rewrite (F x), (F x') by discriminate; now apply evaluate_cong);
    cbn [evaluate]; now rewrite (match_cong_left re x x' z E).
Qed.

Lemma pred_holds_negate : forall re event p, pred_holds re event (with_op p (negate_op (p_op p))) = negb (pred_holds re event p).
Proof.
  intros re event [l op r]. unfold pred_holds, with_op. cbn [p_lhs p_op p_rhs].
  assert (C : evaluate re (value_of event l) (negate_op op) (value_of event r) = option_map negb (evaluate re (value_of event l) op (value_of event r))).
  { assert (I : forall o : option bool, option_map negb (option_map negb o) = o) by (intros [[]|]; reflexivity).
    destruct op; cbn [negate_op evaluate option_map]; rewrite ?negb_involutive, ?I; auto;
      destruct (eval_string_and_pattern re (value_of event l) (value_of event r)); rewrite ?negb_involutive; reflexivity. }
  rewrite C. destruct (evaluate re (value_of event l) op (value_of event r)) eqn:E; [reflexivity|].
  cbn [option_map]. eapply evaluate_none. exact E.
Qed.
Lemma pred_holds_eqb : forall re event p q, pred_eqb p q = true -> pred_holds re event p = pred_holds re event q.
Proof.
  intros re event [l op r] [l' op' r'] H. unfold pred_eqb in H. cbn [p_lhs p_op p_rhs] in H.
  apply andb_true_iff in H. destruct H as [H Hr]. apply andb_true_iff in H. destruct H as [Hl Ho].
  assert (op = op') as <- by (destruct op, op'; try discriminate; reflexivity).
  unfold pred_holds. cbn [p_lhs p_op p_rhs].
  assert (L : evaluate re (value_of event l) op (value_of event r) = evaluate re (value_of event l') op (value_of event r')).
  { transitivity (evaluate re (value_of event l') op (value_of event r)).
    - destruct (operand_eqb_value event _ _ Hl) as [->|[a [b [-> [-> E] ] ] ] ]; [reflexivity|now apply evaluate_cong_left].
    - destruct (operand_eqb_value event _ _ Hr) as [->|[a [b [-> [-> E] ] ] ] ]; [reflexivity|now apply evaluate_cong]. }
  now rewrite L.
Qed.
(** The match operators are written with the data on the right. *)
Definition match_aligned (p : predicate) : Prop := aligned p \/ (p_op p <> op_match /\ p_op p <> op_not_match).
Lemma pred_holds_align : forall re event p, match_aligned p -> pred_holds re event (align_pred p) = pred_holds re event p.
Proof.
  intros re event [l op r] H. unfold align_pred. cbn [p_lhs p_op p_rhs].
  destruct (is_extractor l || negb (is_extractor r)) eqn:E; [reflexivity|].
  destruct H as [[H|H]|[M1 M2]]; cbn [p_lhs p_rhs p_op] in *.
  - rewrite H in E. discriminate.
  - rewrite H, orb_true_r in E. discriminate.
  - unfold pred_holds. cbn [p_lhs p_op p_rhs].
    assert (F : evaluate re (value_of event r) (flip_op op) (value_of event l) = evaluate re (value_of event l) op (value_of event r)).
    { generalize (value_of event l) (value_of event r). intros a z.
      assert (S : match eval_string_and_pattern re a z with Some b => b | None => data_eqb a z end
                = match eval_string_and_pattern re z a with Some b => b | None => data_eqb z a end)
        by (rewrite (data_eqb_sym a z); destruct a, z; reflexivity).
      assert (S' : match eval_string_and_pattern re a z with Some b => negb b | None => negb (data_eqb a z) end
                = match eval_string_and_pattern re z a with Some b => negb b | None => negb (data_eqb z a) end)
        by (rewrite (data_eqb_sym a z); destruct a, z; reflexivity).
      destruct op; cbn [flip_op evaluate]; rewrite ?S, ?S'; auto; congruence. }
    rewrite F. destruct op; reflexivity.
Qed.
