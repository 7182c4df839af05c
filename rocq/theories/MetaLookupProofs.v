(** Proofs about pruning expressions and looking them up in the meta index
    (MetaIndexModel.v). *)
From Coq Require Import List ZArith NArith Lia Bool Arith Sorted ZifyBool ZifyNat ZifyN.
From Verif Require Import OperatorModel AddressModel DataModel DataProofs TypeModel TypeProofs ExpressionModel ExpressionProofs EvaluatorProofs
  TableSliceModel TableSliceProofs SetOpsModel SetOpsProofs BloomModel BloomProofs SynopsisModel SynopsisProofs
  MetaIndexModel MetaIndexProofs.
Import ListNotations.
Open Scope nat_scope.

(** * Candidates *)

(** Whether an expression keeps a partition, given which predicates do: negations keep
    every partition. *)
Fixpoint cand (v : predicate -> bool) (e : expr) : bool :=
  match e with
  | ENone | ENot _ => true
  | EAnd es => forallb (cand v) es
  | EOr es => existsb (cand v) es
  | EPred p => v p
  end.
Lemma cand_sound : forall v w e, all_preds (fun p => v p = true -> w p = true) e -> complete e = true -> holds v e = true -> cand w e = true.
Proof.
  intros v w. induction e as [|es IH|es IH|e IH|p] using expr_rect'; cbn [all_preds complete holds cand]; auto.
  - rewrite all_preds_Forall. intros A C H. rewrite forallb_forall in *. rewrite Forall_forall in *. auto.
  - rewrite all_preds_Forall. intros A C H. rewrite forallb_forall in C. apply existsb_exists in H as (x & Hx & H).
    apply existsb_exists. exists x. rewrite Forall_forall in *. auto.
Qed.

(** ** Hoisting *)
Lemma cand_single_and : forall v es, cand v (single EAnd es) = forallb (cand v) es.
Proof. intros v [|e [|e' es] ]; try reflexivity. cbn. now rewrite andb_true_r. Qed.
Lemma cand_single_or : forall v es, cand v (single EOr es) = existsb (cand v) es.
Proof. intros v [|e [|e' es] ]; try reflexivity. cbn. now rewrite orb_false_r. Qed.
Lemma cand_hoist : forall v e, cand v (hoist e) = cand v e.
Proof.
  intros v. apply (two_level_ind (fun e => cand v (hoist e) = cand v e)); try reflexivity.
  - intros es IH. rewrite hoist_and, cand_single_and, forallb_flat_map. cbn [cand]. apply forallb_ext'. eapply Forall_impl; [|exact IH].
    intros x [H1 H2]. destruct x as [|ys|ys|y|p]; cbn [lift_and]; try (cbn [forallb]; rewrite H1, andb_true_r; reflexivity).
    rewrite forallb_map'. cbn [cand]. apply forallb_ext'. exact H2.
  - intros es IH. rewrite hoist_or, cand_single_or, existsb_flat_map. cbn [cand]. apply existsb_ext''. eapply Forall_impl; [|exact IH].
    intros x [H1 H2]. destruct x as [|ys|ys|y|p]; cbn [lift_or]; try (cbn [existsb]; rewrite H1, orb_false_r; reflexivity).
    rewrite existsb_map'. cbn [cand]. apply existsb_ext''. exact H2.
Qed.

(** * Pruning *)

(** The strings an expression compares with, outside negations. *)
Fixpoint strings (e : expr) : list (list N) :=
  match e with
  | EAnd es | EOr es => flat_map strings es
  | EPred p => match pred_string p with Some s => [s] | None => [] end
  | _ => []
  end.
Definition apart (a b : expr) : Prop := forall s, In s (strings a) -> ~ In s (strings b).
(** No string occurs in two operands of a disjunction. *)
Fixpoint unambiguous (e : expr) : Prop :=
  match e with
  | EAnd es => fold_right (fun x q => unambiguous x /\ q) True es
  | EOr es => fold_right (fun x q => unambiguous x /\ q) True es /\ ForallOrdPairs apart es
  | _ => True
  end.
Lemma unambiguous_Forall : forall es, fold_right (fun x q => unambiguous x /\ q) True es <-> Forall unambiguous es.
Proof.
  induction es as [|e es IH]; cbn [fold_right]; split; intros H; auto.
  - destruct H as [H1 H2]. constructor; [exact H1|now apply IH].
  - inversion H; subst. split; [assumption|now apply IH].
Qed.

(** With no string in two operands nothing is dropped. *)
Lemma prune_operands_map : forall es memo, ForallOrdPairs apart es ->
  (forall s e, existsb (bytes_eqb s) memo = true -> In e es -> ~ In s (strings e)) -> prune_operands prune memo es = map prune es.
Proof.
  induction es as [|e es IH]; intros memo P D; [reflexivity|]. inversion P as [|? ? Pe Ps]; subst. cbn [prune_operands map].
  destruct (expr_string e) as [s|] eqn:S.
  - destruct e as [| | | |p]; try discriminate. cbn [expr_string] in S.
    assert (Is : In s (strings (EPred p))) by (cbn [strings]; rewrite S; now left).
    destruct (existsb (bytes_eqb s) memo) eqn:M; [exfalso; exact (D s (EPred p) M (or_introl eq_refl) Is)|]. cbn [prune]. f_equal.
    apply IH; [exact Ps|]. intros s' e' M' He'. cbn [existsb] in M'. apply orb_true_iff in M' as [M'|M'].
    + apply bytes_eqb_iff in M' as ->. rewrite Forall_forall in Pe. exact (Pe e' He' s Is).
    + apply D; [exact M'|now right].
  - f_equal. apply IH; [exact Ps|]. intros s' e' M' He'. apply D; [exact M'|now right].
Qed.
Lemma prune_operands_in : forall es memo x, In x (prune_operands prune memo es) -> exists e, In e es /\ x = prune e.
Proof.
  induction es as [|e es IH]; intros memo x H; [destruct H|]. cbn [prune_operands] in H. destruct (expr_string e) as [s|] eqn:S.
  - destruct (existsb (bytes_eqb s) memo); [destruct (IH memo x H) as (y & Hy & E); exists y; split; [now right|exact E]|].
    destruct H as [<-|H]; [exists e; split; [now left|]; destruct e; try discriminate; reflexivity|].
    destruct (IH _ x H) as (y & Hy & E). exists y. split; [now right|exact E].
  - destruct H as [<-|H]; [exists e; split; [now left|reflexivity]|]. destruct (IH _ x H) as (y & Hy & E). exists y. split; [now right|exact E].
Qed.
Lemma prune_operands_nonempty : forall es, es <> [] -> prune_operands prune [] es <> [].
Proof. intros [|e es] H; [contradiction|]. cbn [prune_operands]. destruct (expr_string e); discriminate. Qed.

Lemma prune_strings : forall e s, In s (strings (prune e)) -> In s (strings e).
Proof.
  induction e as [|es IH|es IH|e IH|p] using expr_rect'; intros s; cbn [prune strings]; auto;
    rewrite !in_flat_map; intros (x & Hx & H); apply prune_operands_in in Hx as (y & Hy & ->); exists y; rewrite Forall_forall in IH; auto.
Qed.
Lemma pairs_map : forall (f : expr -> expr) es, (forall e s, In s (strings (f e)) -> In s (strings e)) ->
  ForallOrdPairs apart es -> ForallOrdPairs apart (map f es).
Proof.
  intros f es Hf. induction 1 as [|e es H P IH]; [constructor|]. cbn [map]. constructor; [|exact IH]. apply Forall_map. eapply Forall_impl; [|exact H].
  intros a Ha s H1 H2. exact (Ha s (Hf _ _ H1) (Hf _ _ H2)).
Qed.
Lemma prune_unambiguous : forall e, unambiguous e -> unambiguous (prune e).
Proof.
  induction e as [|es IH|es IH|e IH|p] using expr_rect'; cbn [prune unambiguous]; auto.
  - rewrite !unambiguous_Forall. rewrite !Forall_forall in *. intros U x Hx. apply prune_operands_in in Hx as (y & Hy & ->). auto.
  - rewrite !unambiguous_Forall. intros [U P]. rewrite prune_operands_map by (auto; intros s e H; discriminate H).
    split; [|apply pairs_map; [apply prune_strings|exact P] ]. apply Forall_map. rewrite Forall_forall in *. auto.
Qed.
Lemma prune_cand : forall v e, unambiguous e -> cand v e = true -> cand v (prune e) = true.
Proof.
  intros v. induction e as [|es IH|es IH|e IH|p] using expr_rect'; cbn [prune unambiguous cand]; auto.
  - rewrite unambiguous_Forall. intros U H. rewrite Forall_forall in *. rewrite forallb_forall in *. intros x Hx.
    apply prune_operands_in in Hx as (y & Hy & ->). auto.
  - rewrite unambiguous_Forall. intros [U P] H. rewrite prune_operands_map by (auto; intros s e H'; discriminate H').
    rewrite existsb_map'. apply existsb_exists in H as (x & Hx & H). apply existsb_exists. exists x. rewrite Forall_forall in *. auto.
Qed.

Lemma single_strings : forall con es, con = EAnd \/ con = EOr -> strings (single con es) = flat_map strings es.
Proof. intros con [|e [|e' es] ] [-> | ->]; try reflexivity; cbn; now rewrite app_nil_r. Qed.
Lemma hoist_strings : forall e s, In s (strings (hoist e)) -> In s (strings e).
Proof.
  apply (two_level_ind (fun e => forall s, In s (strings (hoist e)) -> In s (strings e))); auto.
  - intros es IH s. rewrite hoist_and, single_strings by auto. cbn [strings]. rewrite !in_flat_map. intros (x & Hx & H).
    apply in_flat_map in Hx as (y & Hy & Hx). exists y. split; [exact Hy|]. rewrite Forall_forall in IH. destruct (IH y Hy) as [I1 I2].
    destruct y as [|ys|ys|y|p]; cbn [lift_and] in Hx; try (destruct Hx as [<-|[] ]; now apply I1).
    apply in_map_iff in Hx as (z & <- & Hz). cbn [strings]. apply in_flat_map. exists z. rewrite Forall_forall in I2. auto.
  - intros es IH s. rewrite hoist_or, single_strings by auto. cbn [strings]. rewrite !in_flat_map. intros (x & Hx & H).
    apply in_flat_map in Hx as (y & Hy & Hx). exists y. split; [exact Hy|]. rewrite Forall_forall in IH. destruct (IH y Hy) as [I1 I2].
    destruct y as [|ys|ys|y|p]; cbn [lift_or] in Hx; try (destruct Hx as [<-|[] ]; now apply I1).
    apply in_map_iff in Hx as (z & <- & Hz). cbn [strings]. apply in_flat_map. exists z. rewrite Forall_forall in I2. auto.
Qed.
Lemma pairs_app : forall xs ys, ForallOrdPairs apart xs -> ForallOrdPairs apart ys ->
  (forall x y, In x xs -> In y ys -> apart x y) -> ForallOrdPairs apart (xs ++ ys).
Proof.
  intros xs ys H. induction H as [|x xs Hx P IH]; intros Py C; [exact Py|]. cbn [app]. constructor.
  - apply Forall_app. split; [exact Hx|]. apply Forall_forall. intros y Hy. apply C; [now left|exact Hy].
  - apply IH; [exact Py|]. intros a b Ha Hb. apply C; [now right|exact Hb].
Qed.
Lemma lift_or_strings : forall e x s, In x (lift_or e) -> In s (strings x) -> In s (strings e).
Proof.
  intros e x s Hx Hs. destruct e as [|ys|ys|y|p]; cbn [lift_or] in Hx; try (destruct Hx as [<-|[] ]; now apply hoist_strings).
  apply in_map_iff in Hx as (z & <- & Hz). cbn [strings]. apply in_flat_map. exists z. split; [exact Hz|now apply hoist_strings].
Qed.
Lemma hoist_unambiguous : forall e, unambiguous e -> unambiguous (hoist e).
Proof.
  assert (S : forall es, Forall unambiguous es -> unambiguous (single EAnd es)).
  { intros [|e [|e' es] ] H; cbn [single]; [exact I|now inversion H|]. cbn [unambiguous]. now apply unambiguous_Forall in H. }
  assert (S' : forall es, Forall unambiguous es -> ForallOrdPairs apart es -> unambiguous (single EOr es)).
  { intros [|e [|e' es] ] H P; cbn [single]; [split; [exact I|constructor]|now inversion H|]. cbn [unambiguous]. apply unambiguous_Forall in H. auto. }
  apply (two_level_ind (fun e => unambiguous e -> unambiguous (hoist e))); auto.
  - intros es IH U. rewrite hoist_and. apply S. cbn [unambiguous] in U. rewrite unambiguous_Forall in U. rewrite Forall_forall in *. intros x Hx.
    apply in_flat_map in Hx as (y & Hy & Hx). destruct (IH y Hy) as [I1 I2]. specialize (U y Hy).
    destruct y as [|ys|ys|y|p]; cbn [lift_and] in Hx; try (destruct Hx as [<-|[] ]; now apply I1).
    apply in_map_iff in Hx as (z & <- & Hz). cbn [unambiguous] in U. rewrite unambiguous_Forall in U. rewrite Forall_forall in *. auto.
  - intros es IH U. rewrite hoist_or. cbn [unambiguous] in U. rewrite unambiguous_Forall in U. destruct U as [U P]. apply S'.
    + rewrite Forall_forall in *. intros x Hx.
      apply in_flat_map in Hx as (y & Hy & Hx). destruct (IH y Hy) as [I1 I2]. specialize (U y Hy).
      destruct y as [|ys|ys|y|p]; cbn [lift_or] in Hx; try (destruct Hx as [<-|[] ]; now apply I1).
      apply in_map_iff in Hx as (z & <- & Hz). cbn [unambiguous] in U. destruct U as [U _]. rewrite unambiguous_Forall in U. rewrite Forall_forall in *. auto.
    + clear IH. induction P as [|e es He P IHp]; [constructor|]. inversion U as [|? ? Ue Us]; subst. cbn [flat_map]. apply pairs_app.
      * destruct e as [|ys|ys|y|p]; cbn [lift_or]; try (repeat constructor).
        destruct Ue as [_ Py]. apply pairs_map; [apply hoist_strings|exact Py].
      * now apply IHp.
      * intros x y Hx Hy s H1 H2. apply in_flat_map in Hy as (e' & He' & Hy). rewrite Forall_forall in He.
        exact (He e' He' s (lift_or_strings _ _ _ Hx H1) (lift_or_strings _ _ _ Hy H2)).
Qed.

(** ** The loop *)
Fixpoint expr_size (e : expr) : nat :=
  match e with
  | EAnd es | EOr es => S (list_sum (map expr_size es))
  | ENot x => S (expr_size x)
  | _ => 1
  end.
Lemma expr_size_pos : forall e, 0 < expr_size e.
Proof. intros e. destruct e; cbn; lia. Qed.

Lemma prune_operands_size : forall es, Forall (fun e => expr_size (prune e) < expr_size e \/ prune e = e) es -> forall memo,
  list_sum (map expr_size (prune_operands prune memo es)) < list_sum (map expr_size es) \/ prune_operands prune memo es = es.
Proof.
  unfold list_sum. induction 1 as [|e es H F IH]; intros memo; [now right|]. cbn [prune_operands map fold_right]. pose proof (expr_size_pos e).
  assert (L : forall memo, fold_right Nat.add 0 (map expr_size (prune_operands prune memo es)) <= fold_right Nat.add 0 (map expr_size es)).
  { intros mm. destruct (IH mm) as [H'| ->]; lia. }
  destruct (expr_string e) as [s|].
  - destruct (existsb (bytes_eqb s) memo); [left; specialize (L memo); lia|]. cbn [map fold_right]. destruct (IH (s :: memo)) as [H'| ->]; [left; lia|now right].
  - cbn [map fold_right]. destruct H as [H| ->]; [left; specialize (L memo); lia|]. destruct (IH memo) as [H'| ->]; [left; lia|now right].
Qed.
Lemma prune_size : forall e, expr_size (prune e) < expr_size e \/ prune e = e.
Proof.
  induction e as [|es IH|es IH|e IH|p] using expr_rect'; cbn [prune expr_size]; auto.
  - destruct (prune_operands_size es IH []) as [H| ->]; [left; lia|now right].
  - destruct (prune_operands_size es IH []) as [H| ->]; [left; lia|now right].
  - destruct IH as [H| ->]; [left; lia|now right].
Qed.

Lemma list_sum_single : forall con es, con = EAnd \/ con = EOr ->
  expr_size (single con es) < S (list_sum (map expr_size es)) \/ single con es = con es.
Proof. intros con [|e [|e' es] ] H; cbn [single]; auto. left. cbn. lia. Qed.
Lemma hoist_size : forall e, expr_size (hoist e) < expr_size e \/ hoist e = e.
Proof.
  assert (Hs : forall con es, con = EAnd \/ con = EOr -> expr_size (single con es) <= S (list_sum (map expr_size es))).
  { intros con es H. destruct (list_sum_single con es H) as [L| ->]; [lia|]. destruct H as [-> | ->]; reflexivity. }
  assert (M : forall ys, Forall (fun e => expr_size (hoist e) < expr_size e \/ hoist e = e) ys -> list_sum (map expr_size (map hoist ys)) <= list_sum (map expr_size ys)).
  { unfold list_sum. induction 1 as [|y ys H F IH]; [reflexivity|]. cbn [map fold_right]. destruct H as [H| ->]; lia. }
  assert (G : forall lift, (forall x, two_level (fun e => expr_size (hoist e) < expr_size e \/ hoist e = e) x -> list_sum (map expr_size (lift x)) < expr_size x \/ lift x = [x]) ->
    forall es, Forall (two_level (fun e => expr_size (hoist e) < expr_size e \/ hoist e = e)) es ->
    list_sum (map expr_size (flat_map lift es)) < list_sum (map expr_size es) \/ flat_map lift es = es).
  { intros lift HL. induction 1 as [|x xs H F IH]; [now right|]. cbn [flat_map]. rewrite map_app, list_sum_app. cbn [map].
    change (list_sum (expr_size x :: map expr_size xs)) with (expr_size x + list_sum (map expr_size xs)).
    destruct (HL x H) as [L|E].
    - left. destruct IH as [L'| ->]; lia.
    - rewrite E. cbn [map]. change (list_sum [expr_size x]) with (expr_size x + 0). destruct IH as [L'|E']; [left; lia|right]. now rewrite E'. }
  apply (two_level_ind (fun e => expr_size (hoist e) < expr_size e \/ hoist e = e)); try (now right).
  - intros e [H|E]; cbn [hoist expr_size]; [left; lia|right; now rewrite E].
  - intros es IH. rewrite hoist_and. cbn [expr_size]. specialize (Hs EAnd (flat_map lift_and es) (or_introl eq_refl)).
    destruct (G lift_and) with (es := es) as [L|E]; [|exact IH|left; lia|].
    + intros x [H1 H2]. destruct x as [|ys|ys|y|p]; cbn [lift_and];
        try (destruct H1 as [H1| ->]; [left; cbn [map]; unfold list_sum; cbn [fold_right]; lia|now right]).
      left. cbn [expr_size]. specialize (M ys H2). lia.
    + rewrite E in *. destruct (list_sum_single EAnd es (or_introl eq_refl)) as [L|E']; [left; exact L|right; exact E'].
  - intros es IH. rewrite hoist_or. cbn [expr_size]. specialize (Hs EOr (flat_map lift_or es) (or_intror eq_refl)).
    destruct (G lift_or) with (es := es) as [L|E]; [|exact IH|left; lia|].
    + intros x [H1 H2]. destruct x as [|ys|ys|y|p]; cbn [lift_or];
        try (destruct H1 as [H1| ->]; [left; cbn [map]; unfold list_sum; cbn [fold_right]; lia|now right]).
      left. cbn [expr_size]. specialize (M ys H2). lia.
    + rewrite E in *. destruct (list_sum_single EOr es (or_intror eq_refl)) as [L|E']; [left; exact L|right; exact E'].
Qed.

(** Equality is reflexive without NaN. *)
Definition equals_itself (p : predicate) : Prop := pred_eqb p p = true.
Lemma expr_eqb_refl : forall e, all_preds equals_itself e -> expr_eqb e e = true.
Proof.
  induction e as [|es IH|es IH|e IH|p] using expr_rect'; cbn [expr_eqb all_preds]; auto.
  - rewrite all_preds_Forall. induction IH as [|e es He H IHe]; intros F; [reflexivity|]. inversion F; subst. cbn [eqs]. rewrite He, IHe by assumption. reflexivity.
  - rewrite all_preds_Forall. induction IH as [|e es He H IHe]; intros F; [reflexivity|]. inversion F; subst. cbn [eqs]. rewrite He, IHe by assumption. reflexivity.
Qed.
Definition operand_no_nan (o : operand) : Prop := match o with OVal d => no_nan d | _ => True end.
Lemma no_nan_equals : forall p, operand_no_nan (p_lhs p) -> operand_no_nan (p_rhs p) -> equals_itself p.
Proof.
  assert (G : forall o, operand_no_nan o -> operand_eqb o o = true).
  { intros [k|n|t|t o|d] H; cbn [operand_eqb].
    - destruct k; reflexivity.
    - now apply bytes_eqb_iff.
    - now apply ty_eqb_eq.
    - rewrite (proj2 (ty_eqb_eq t t) eq_refl). apply (proj2 (offset_eqb_spec o o) eq_refl).
    - apply eqb_cmp; [exact H|exact H|]. rewrite data_cmp_enc by assumption. apply zlex_refl. }
  intros [l op r] Hl Hr. unfold equals_itself, pred_eqb. cbn [p_lhs p_op p_rhs] in *. rewrite (G l Hl), (G r Hr). now destruct op.
Qed.

Lemma prune_preds : forall (P : predicate -> Prop) e, all_preds P e -> all_preds P (prune e).
Proof.
  intros P. induction e as [|es IH|es IH|e IH|p] using expr_rect'; cbn [prune all_preds]; auto;
    rewrite !all_preds_Forall; rewrite !Forall_forall in *; intros H x Hx; apply prune_operands_in in Hx as (y & Hy & ->); auto.
Qed.

Lemma prune_loop_ends : forall fuel r e, expr_size r <= fuel -> all_preds equals_itself r -> exists x, prune_loop fuel r e = Some x.
Proof.
  induction fuel as [|fuel IH]; intros r e L A; cbn [prune_loop]; [pose proof (expr_size_pos r); lia|].
  destruct (expr_eqb r e); [eauto|].
  assert (D : expr_size (hoist (prune r)) < expr_size r \/ hoist (prune r) = r).
  { destruct (prune_size r) as [L1|E1], (hoist_size (prune r)) as [L2|E2]; rewrite ?E1 in *; rewrite ?E2 in *; auto; left; lia. }
  destruct D as [D|E]; [apply IH; [lia|]; apply hoist_preds; now apply prune_preds|].
  rewrite E. destruct fuel; cbn [prune_loop]; rewrite (expr_eqb_refl r A); eauto.
Qed.
Lemma prune_loop_keeps : forall (Q : expr -> Prop), (forall e, Q e -> Q (prune e)) -> (forall e, Q e -> Q (hoist e)) ->
  forall fuel r e x, prune_loop fuel r e = Some x -> Q r -> Q x.
Proof.
  intros Q H1 H2. induction fuel as [|fuel IH]; intros r e x E Hr; cbn [prune_loop] in E; (destruct (expr_eqb r e); [injection E as <-; exact Hr|]).
  - discriminate.
  - apply (IH _ _ _ E). auto.
Qed.
Lemma prune_all_keeps : forall (Q : expr -> Prop), (forall e, Q e -> Q (prune e)) -> (forall e, Q e -> Q (hoist e)) ->
  forall fuel e x, prune_all fuel e = Some x -> Q e -> Q x.
Proof. intros Q H1 H2 fuel e x E He. unfold prune_all in E. eapply prune_loop_keeps; eauto. Qed.
Lemma prune_all_ends : forall e, all_preds equals_itself e -> exists x, prune_all (expr_size e) e = Some x.
Proof.
  intros e A. unfold prune_all. apply prune_loop_ends; [|now apply prune_preds]. destruct (prune_size e) as [H| ->]; lia.
Qed.

(** * Lookups *)

Lemma ascending_NoDup : forall xs, ascending xs -> NoDup xs.
Proof. induction 1 as [|x xs H IH F]; [constructor|]. constructor; [now apply above_not_in|exact IH]. Qed.
Lemma unique_key : forall (A : Type) (m : list (N * A)) k x y, ascending (map fst m) -> In (k, x) m -> In (k, y) m -> x = y.
Proof.
  intros A. induction m as [|[k' z] m IH]; intros k x y H Hx Hy; [destruct Hx|]. cbn [map fst] in H. apply ascending_inv in H as [H F].
  assert (G : forall w, In (k', w) m -> False).
  { intros w Hw. apply (above_not_in k' (map fst m) F). apply in_map_iff. exists (k', w). auto. }
  destruct Hx as [Hx|Hx], Hy as [Hy|Hy].
  - congruence.
  - injection Hx as <- <-. destruct (G _ Hy).
  - injection Hy as <- <-. destruct (G _ Hx).
  - eauto.
Qed.

Section Lookup.
  Variable hash : N -> data -> N.
  Variable re : regex.
  Notation passes := (passes hash re).

  Lemma select_ids_spec : forall f m ids, select_ids f m = Some ids -> ascending (map fst m) ->
    ascending ids /\ forall id, In id ids <-> exists ps, In (id, ps) m /\ f ps = Some true.
  Proof.
    intros f. induction m as [|[i p] m IH]; intros ids E H; cbn [select_ids] in E.
    - injection E as <-. split; [constructor|]. intros id. split; [intros []|intros (ps & [] & _)].
    - cbn [map fst] in H. apply ascending_inv in H as [H F].
      destruct (f p) as [b|] eqn:Fp; [|discriminate]. destruct (select_ids f m) as [rest|]; [|discriminate]. destruct (IH rest eq_refl H) as [A S].
      assert (B : Forall (N.lt i) rest).
      { apply Forall_forall. intros x Hx. apply S in Hx as (ps & Hx & _). rewrite Forall_forall in F. apply F. apply in_map_iff. exists (x, ps). auto. }
      destruct b; injection E as <-.
      + split; [now apply ascending_cons|]. intros id. cbn [In]. rewrite S. split.
        * intros [<-|(ps & Hin & Hf)]; [exists p; auto|exists ps; auto].
        * intros (ps & [Hin|Hin] & Hf); [injection Hin as <- <-; now left|right; eauto].
      + split; [exact A|]. intros id. rewrite S. split; [intros (ps & Hin & Hf); exists ps; split; [now right|exact Hf]|].
        intros (ps & [Hin|Hin] & Hf); [injection Hin as <- <-; congruence|eauto].
  Qed.
  Lemma select_ids_defined : forall f m ids id ps, select_ids f m = Some ids -> In (id, ps) m -> f ps <> None.
  Proof.
    intros f. induction m as [|[i p] m IH]; intros ids id ps E Hin; [destruct Hin|]. cbn [select_ids] in E.
    destruct (f p) as [b|] eqn:Fp; [|discriminate]. destruct (select_ids f m) as [rest|]; [|discriminate]. destruct Hin as [Hin|Hin].
    - injection Hin as -> ->. congruence.
    - eapply IH; [reflexivity|exact Hin].
  Qed.

  Lemma lookup_pred_spec : forall m p ids, lookup_pred hash re m p = Some ids -> ascending (map fst m) ->
    ascending ids /\ forall id, In id ids <-> exists ps, In (id, ps) m /\ passes ps p = true.
  Proof.
    intros m p ids E H. unfold lookup_pred in E. destruct (select_ids (keeps hash re p) m) as [a|] eqn:S; [|discriminate].
    destruct (select_ids_spec _ _ _ S H) as [Aa Sa]. pose proof (fun id ps => select_ids_defined _ _ _ id ps S) as Da.
    destruct (is_timestamp p) eqn:T.
    - destruct (select_ids (keeps_timestamp hash p) m) as [b|] eqn:S'; [|discriminate]. injection E as <-.
      destruct (select_ids_spec _ _ _ S' H) as [Ab Sb]. pose proof (fun id ps => select_ids_defined _ _ _ id ps S') as Db.
      split; [now apply inplace_unify_ascending|]. intros id. rewrite inplace_unify_in, Sa, Sb. unfold MetaIndexProofs.passes. rewrite T. split.
      + intros [(ps & Hin & Hf)|(ps & Hin & Hf)]; exists ps; rewrite Hf; split; auto using orb_true_r.
      + intros (ps & Hin & Hf). specialize (Da id ps Hin). specialize (Db id ps Hin).
        destruct (keeps hash re p ps) as [ [|]|] eqn:K1; [left; eauto| |contradiction].
        destruct (keeps_timestamp hash p ps) as [ [|]|] eqn:K2; [right; eauto|discriminate|contradiction].
    - injection E as <-. split; [exact Aa|]. intros id. rewrite Sa. unfold MetaIndexProofs.passes. rewrite T. split.
      + intros (ps & Hin & Hf). exists ps. rewrite Hf. auto.
      + intros (ps & Hin & Hf). exists ps. split; [exact Hin|]. specialize (Da id ps Hin). destruct (keeps hash re p ps) as [ [|]|]; try contradiction; [reflexivity|discriminate].
  Qed.

  (** The identifiers are those of a set of partitions. *)
  Definition exactly (m : list (N * psyn)) (ids : list N) (g : psyn -> bool) : Prop :=
    ascending ids /\ forall id, In id ids <-> exists ps, In (id, ps) m /\ g ps = true.

  Lemma and_rest_spec : forall m es g r ids, ascending (map fst m) ->
    Forall (fun e => forall ids, lookup_impl hash re m e = Some ids -> exactly m ids (fun ps => cand (passes ps) e)) es ->
    exactly m r g -> and_rest (lookup_impl hash re m) r es = Some ids ->
    exactly m ids (fun ps => g ps && forallb (cand (passes ps)) es).
  Proof.
    intros m es. induction es as [|e es IH]; intros g r ids H F X E; cbn [and_rest] in E.
    - injection E as <-. destruct X as [A S]. split; [exact A|]. intros id. rewrite S. cbn [forallb]. setoid_rewrite andb_true_r. reflexivity.
    - inversion F as [|? ? Fe Fs]; subst. destruct (lookup_impl hash re m e) as [xs|] eqn:L; [|discriminate]. destruct (Fe xs eq_refl) as [Ax Sx].
      destruct X as [A S]. destruct xs as [|x xs].
      + injection E as <-. split; [constructor|]. intros id. split; [intros []|]. intros (ps & Hin & Hg). cbn [forallb] in Hg.
        apply (Sx id). exists ps. split; [exact Hin|]. apply andb_true_iff in Hg as [_ Hg]. now apply andb_true_iff in Hg as [Hg _].
      + assert (X' : exactly m (inplace_intersect r (x :: xs)) (fun ps => g ps && cand (passes ps) e)).
        { rewrite inplace_intersect_eq. split; [now apply intersect_ascending|]. intros id. rewrite intersect_in, S, Sx by assumption. split.
          - intros [(ps & Hin & Hg) (ps' & Hin' & Hg')]. rewrite <- (unique_key _ m id ps ps' H Hin Hin') in Hg'. exists ps. rewrite Hg, Hg'. auto.
          - intros (ps & Hin & Hg). apply andb_true_iff in Hg as [H1 H2]. split; exists ps; auto. }
        destruct (IH _ _ _ H Fs X' E) as [A' S']. split; [exact A'|]. intros id. rewrite S'. cbn [forallb]. setoid_rewrite andb_assoc. reflexivity.
  Qed.
  Lemma or_loop_spec : forall m es g r ids, ascending (map fst m) ->
    Forall (fun e => forall ids, lookup_impl hash re m e = Some ids -> exactly m ids (fun ps => cand (passes ps) e)) es ->
    exactly m r g -> or_loop (lookup_impl hash re m) (length m) r es = Some ids ->
    exactly m ids (fun ps => g ps || existsb (cand (passes ps)) es).
  Proof.
    intros m es. induction es as [|e es IH]; intros g r ids H F X E; cbn [or_loop] in E.
    - injection E as <-. destruct X as [A S]. split; [exact A|]. intros id. rewrite S. cbn [existsb]. setoid_rewrite orb_false_r. reflexivity.
    - inversion F as [|? ? Fe Fs]; subst. destruct (lookup_impl hash re m e) as [xs|] eqn:L; [|discriminate]. destruct (Fe xs eq_refl) as [Ax Sx].
      destruct X as [A S]. destruct (Nat.eqb_spec (length xs) (length m)) as [Len|Len].
      + injection E as <-. split; [exact Ax|]. intros id. split.
        * intros Hx. apply Sx in Hx as (ps & Hin & Hg). exists ps. split; [exact Hin|]. cbn [existsb]. rewrite Hg, orb_true_r. reflexivity.
        * intros (ps & Hin & _). assert (Inc : incl (map fst m) xs).
          { apply NoDup_length_incl; [now apply ascending_NoDup|rewrite map_length; lia|]. intros i Hi. apply Sx in Hi as (ps' & Hi & _). apply in_map_iff. exists (i, ps'). auto. }
          apply Inc. apply in_map_iff. exists (id, ps). auto.
      + assert (X' : exactly m (inplace_unify r xs) (fun ps => g ps || cand (passes ps) e)).
        { split; [now apply inplace_unify_ascending|]. intros id. rewrite inplace_unify_in, S, Sx. split.
          - intros [(ps & Hin & Hg)|(ps & Hin & Hg)]; exists ps; rewrite Hg; auto using orb_true_r.
          - intros (ps & Hin & Hg). apply orb_true_iff in Hg as [Hg|Hg]; eauto. }
        destruct (IH _ _ _ H Fs X' E) as [A' S']. split; [exact A'|]. intros id. rewrite S'. cbn [existsb]. setoid_rewrite orb_assoc. reflexivity.
  Qed.

  Lemma lookup_impl_spec : forall m, ascending (map fst m) -> forall e ids, lookup_impl hash re m e = Some ids ->
    exactly m ids (fun ps => cand (passes ps) e).
  Proof.
    intros m H. induction e as [|es IH|es IH|e IH|p] using expr_rect'; intros ids E; cbn [lookup_impl cand] in *.
    - discriminate.
    - unfold and_loop in E. destruct es as [|e es]; [discriminate|]. inversion IH as [|? ? He Hes]; subst.
      destruct (lookup_impl hash re m e) as [r|] eqn:L; [|discriminate]. destruct r as [|x r].
      + injection E as <-. destruct (He [] eq_refl) as [_ S]. split; [constructor|]. intros id. split; [intros []|]. intros (ps & Hin & Hg). cbn [forallb] in Hg.
        apply (S id). exists ps. split; [exact Hin|]. now apply andb_true_iff in Hg as [Hg _].
      + exact (and_rest_spec m es _ _ _ H Hes (He _ eq_refl) E).
    - apply (or_loop_spec m es (fun _ => false) [] ids H IH); [|exact E]. split; [constructor|]. intros id. split; [intros []|]. intros (ps & _ & Hg). discriminate.
    - injection E as <-. split; [exact H|]. intros id. rewrite in_map_iff. split.
      + intros ([i ps] & <- & Hin). exists ps. auto.
      + intros (ps & Hin & _). exists (id, ps). auto.
    - now apply lookup_pred_spec.
  Qed.

  Lemma mi_lookup_spec : forall fuel m e ids, ascending (map fst m) -> mi_lookup hash re fuel m e = Some ids ->
    exists e', prune_all fuel e = Some e' /\ exactly m ids (fun ps => cand (passes ps) e').
  Proof.
    intros fuel m e ids H E. unfold mi_lookup in E. destruct (prune_all fuel e) as [e'|]; [|discriminate]. exists e'. split; [reflexivity|].
    now apply lookup_impl_spec.
  Qed.

  (** A partition that the unpruned expression keeps is found. *)
  Lemma mi_lookup_finds : forall fuel m e ids id ps, ascending (map fst m) -> unambiguous e -> mi_lookup hash re fuel m e = Some ids ->
    In (id, ps) m -> cand (passes ps) e = true -> In id ids.
  Proof.
    intros fuel m e ids id ps H U E Hin C. destruct (mi_lookup_spec _ _ _ _ H E) as (e' & P & [_ S]). apply S. exists ps. split; [exact Hin|].
    apply (prune_all_keeps (fun x => unambiguous x /\ cand (passes ps) x = true)) with (fuel := fuel) (e := e); auto.
    - intros x [U' C']. split; [now apply prune_unambiguous|now apply prune_cand].
    - intros x [U' C']. split; [now apply hoist_unambiguous|now rewrite cand_hoist].
  Qed.

  (** * When lookups are defined *)

  (** No synopsis buffers its values. *)
  Definition shrunk (ps : psyn) : Prop :=
    (forall q s, In (q, Some s) (field_syns ps) -> well_formed s /\ is_buffered s = false) /\
    (forall t s, In (t, Some s) (type_syns ps) -> well_formed s /\ is_buffered s = false).
  Definition typed (p : predicate) : Prop :=
    match p_lhs p with OType (TNull as t) | OType (TNone _ as t) => ty_name t <> [] | _ => True end.

  Lemma evaluate_name : forall n op d, evaluate re (DString n) op d <> None.
  Proof.
    intros n op d. destruct op; cbn [evaluate]; try discriminate; destruct d; cbn; try discriminate.
  Qed.
  Lemma column_check_defined : forall ps op d e, shrunk ps -> In e (field_syns ps) -> column_check hash ps op d e <> None.
  Proof.
    intros ps op d [q so] [S1 S2] Hin. unfold column_check. cbn [fst snd].
    assert (G : forall s, well_formed s /\ is_buffered s = false -> option_map (fun r => match r with Some b => b | None => true end) (syn_lookup hash s op d) <> None).
    { intros s [W B]. pose proof (lookup_defined hash s op d W B). destruct (syn_lookup hash s op d); [discriminate|contradiction]. }
    destruct so as [s|]; [apply G; eauto|]. destruct (find_entry ty_eqb (cleaned (q_type q)) (type_syns ps)) as [ [s|]|] eqn:F; try discriminate.
    apply (find_in _ _ _ ty_eqb_eq) in F. apply G. eauto.
  Qed.
  Lemma search_fields_defined : forall matches ps op d es, shrunk ps -> incl es (field_syns ps) -> search_fields hash matches ps op d es <> None.
  Proof.
    intros matches ps op d es S. induction es as [|e es IH]; intros Inc; cbn [search_fields]; [discriminate|].
    assert (Inc' : incl es (field_syns ps)) by (intros x Hx; apply Inc; now right).
    destruct (matches (fst e)); [|now apply IH]. pose proof (column_check_defined ps op d e S (Inc e (or_introl eq_refl))) as D.
    destruct (column_check hash ps op d e) as [ [|]|]; [discriminate|now apply IH|contradiction].
  Qed.
  Lemma keeps_defined : forall ps p, shrunk ps -> typed p -> keeps hash re p ps <> None /\ keeps_timestamp hash p ps <> None.
  Proof.
    intros ps [l op r] S T. unfold keeps, keeps_timestamp, typed in *. cbn [p_lhs p_op p_rhs] in *. split.
    - destruct l as [ [|]|n|t|t o|d0], r as [| | | |d]; try discriminate.
      + generalize (field_syns ps). intros es. induction es as [|e es IH]; [discriminate|]. cbn [search_layouts].
        pose proof (evaluate_name (q_layout (fst e)) op d) as D. destruct (evaluate re (DString (q_layout (fst e))) op d) as [ [|]|]; [discriminate|exact IH|contradiction].
      + destruct d; discriminate.
      + apply search_fields_defined; [exact S|apply incl_refl].
      + destruct t; try (apply search_fields_defined; [exact S|apply incl_refl]); [now cbn in T|].
        change (ty_name (TNone m)) with (m_name m) in T. destruct (m_name m); [contradiction|]. apply search_fields_defined; [exact S|apply incl_refl].
    - destruct r; try discriminate. apply search_fields_defined; [exact S|apply incl_refl].
  Qed.
  Lemma select_ids_total : forall f (m : list (N * psyn)), (forall id ps, In (id, ps) m -> f ps <> None) -> select_ids f m <> None.
  Proof.
    intros f. induction m as [|[i p] m IH]; intros H; [discriminate|]. cbn [select_ids]. pose proof (H i p (or_introl eq_refl)).
    destruct (f p); [|contradiction]. destruct (select_ids f m); [discriminate|]. exfalso. apply IH; [|reflexivity]. intros id ps Hin. apply (H id). now right.
  Qed.
  Lemma lookup_impl_defined : forall m, (forall id ps, In (id, ps) m -> shrunk ps) -> forall e, complete e = true -> inhabited_expr e = true -> all_preds typed e ->
    lookup_impl hash re m e <> None.
  Proof.
    intros m S. induction e as [|es IH|es IH|e IH|p] using expr_rect'; cbn [complete inhabited_expr all_preds lookup_impl].
    - discriminate.
    - rewrite all_preds_Forall. intros C Inh T. apply andb_true_iff in Inh as [Ne Inh].
      assert (D : Forall (fun e => lookup_impl hash re m e <> None) es).
      { rewrite forallb_forall in *. rewrite Forall_forall in *. auto. }
      clear IH C Inh T. destruct es as [|e es]; [discriminate|]. inversion D as [|? ? He Hes]; subst. cbn [and_loop].
      destruct (lookup_impl hash re m e) as [r|]; [|contradiction]. destruct r as [|x r]; [discriminate|]. clear - Hes. generalize (x :: r) as acc.
      induction Hes as [|e es He Hes IH]; intros acc; cbn [and_rest]; [discriminate|].
      destruct (lookup_impl hash re m e) as [xs|]; [|contradiction]. destruct xs as [|y xs]; [discriminate|apply IH].
    - rewrite all_preds_Forall. intros C Inh T. apply andb_true_iff in Inh as [Ne Inh].
      assert (D : Forall (fun e => lookup_impl hash re m e <> None) es).
      { rewrite forallb_forall in *. rewrite Forall_forall in *. auto. }
      clear - D. generalize (@nil N) as acc. induction D as [|e es He Hes IH]; intros acc; cbn [or_loop]; [discriminate|].
      destruct (lookup_impl hash re m e) as [xs|]; [|contradiction]. destruct (length xs =? length m); [discriminate|apply IH].
    - discriminate.
    - intros _ _ T. unfold lookup_pred. pose proof (select_ids_total (keeps hash re p) m (fun id ps Hin => proj1 (keeps_defined ps p (S id ps Hin) T))) as D1.
      pose proof (select_ids_total (keeps_timestamp hash p) m (fun id ps Hin => proj2 (keeps_defined ps p (S id ps Hin) T))) as D2.
      destruct (select_ids (keeps hash re p) m); [|contradiction]. destruct (is_timestamp p); [|discriminate].
      destruct (select_ids (keeps_timestamp hash p) m); [discriminate|contradiction].
  Qed.
  Lemma prune_complete : forall e, complete e = true -> complete (prune e) = true.
  Proof.
    induction e as [|es IH|es IH|e IH|p] using expr_rect'; cbn [prune complete]; auto;
      intros H; rewrite forallb_forall in *; rewrite Forall_forall in IH; intros x Hx; apply prune_operands_in in Hx as (y & Hy & ->); auto.
  Qed.
  Lemma prune_inhabited : forall e, inhabited_expr e = true -> inhabited_expr (prune e) = true.
  Proof.
    induction e as [|es IH|es IH|e IH|p] using expr_rect'; cbn [prune inhabited_expr]; auto;
      intros H; apply andb_true_iff in H as [Ne H]; apply andb_true_iff; (split;
      [pose proof (prune_operands_nonempty es) as P; destruct es; [discriminate|]; destruct (prune_operands prune [] (e :: es)); [now destruct P|reflexivity]
      |rewrite forallb_forall in *; rewrite Forall_forall in IH; intros x Hx; apply prune_operands_in in Hx as (y & Hy & ->); auto]).
  Qed.
End Lookup.

Lemma hoist_inhabited : forall e, inhabited_expr e = true -> inhabited_expr (hoist e) = true.
Proof.
  assert (S : forall con es, con = EAnd \/ con = EOr -> es <> [] -> forallb inhabited_expr es = true -> inhabited_expr (single con es) = true).
  { intros con [|e [|e' es] ] H Ne F; [contradiction|cbn in *; now rewrite andb_true_r in F|]. destruct H as [-> | ->]; exact F. }
  assert (Ne : forall lift, (forall x, inhabited_expr x = true -> lift x <> []) -> forall es, es <> [] -> forallb inhabited_expr es = true -> flat_map lift es <> @nil expr).
  { intros lift L [|e es] H F; [contradiction|]. cbn [forallb] in F. apply andb_true_iff in F as [F _]. cbn [flat_map]. specialize (L e F).
    destruct (lift e); [contradiction|discriminate]. }
  assert (L1 : forall x, inhabited_expr x = true -> lift_and x <> []) by (intros [|[|y ys]| | |]; cbn; discriminate).
  assert (L2 : forall x, inhabited_expr x = true -> lift_or x <> []) by (intros [| |[|y ys]| |]; cbn; discriminate).
  apply (two_level_ind (fun e => inhabited_expr e = true -> inhabited_expr (hoist e) = true)); auto.
  - intros es IH H. rewrite hoist_and. cbn [inhabited_expr] in H. apply andb_true_iff in H as [H1 H2].
    apply S; [auto|apply Ne; [exact L1|destruct es; discriminate|exact H2]|]. rewrite forallb_forall in *. intros x Hx.
    apply in_flat_map in Hx as (y & Hy & Hx). rewrite Forall_forall in IH. destruct (IH y Hy) as [I1 I2]. specialize (H2 y Hy).
    destruct y as [|ys|ys|y|p]; cbn [lift_and] in Hx; try (destruct Hx as [<-|[] ]; now apply I1).
    apply in_map_iff in Hx as (z & <- & Hz). cbn [inhabited_expr] in H2. apply andb_true_iff in H2 as [_ H2]. rewrite forallb_forall in H2. rewrite Forall_forall in I2. auto.
  - intros es IH H. rewrite hoist_or. cbn [inhabited_expr] in H. apply andb_true_iff in H as [H1 H2].
    apply S; [auto|apply Ne; [exact L2|destruct es; discriminate|exact H2]|]. rewrite forallb_forall in *. intros x Hx.
    apply in_flat_map in Hx as (y & Hy & Hx). rewrite Forall_forall in IH. destruct (IH y Hy) as [I1 I2]. specialize (H2 y Hy).
    destruct y as [|ys|ys|y|p]; cbn [lift_or] in Hx; try (destruct Hx as [<-|[] ]; now apply I1).
    apply in_map_iff in Hx as (z & <- & Hz). cbn [inhabited_expr] in H2. apply andb_true_iff in H2 as [_ H2]. rewrite forallb_forall in H2. rewrite Forall_forall in I2. auto.
Qed.

(** * The state *)

Lemma mi_merge_spec : forall id ps m, ascending (map fst m) ->
  ascending (map fst (mi_merge id ps m)) /\
  (forall i p, In (i, p) (mi_merge id ps m) <-> In (i, p) m \/ (i = id /\ p = ps /\ ~ In id (map fst m))).
Proof.
  intros id ps. induction m as [|[i p] m IH]; intros H.
  - split; [repeat constructor|]. intros i p. cbn. intuition congruence.
  - cbn [map fst] in H. apply ascending_inv in H as [H F]. destruct (IH H) as [A S]. cbn [mi_merge].
    destruct (N.ltb_spec i id) as [L|L]; [|destruct (N.ltb_spec id i) as [L'|L'] ].
    + split.
      * cbn [map fst]. apply ascending_cons; [exact A|]. apply Forall_forall. intros x Hx. apply in_map_iff in Hx as ([j q] & <- & Hx). cbn [fst].
        apply S in Hx as [Hx|(-> & _)]; [|exact L]. rewrite Forall_forall in F. apply F. apply in_map_iff. exists (j, q). auto.
      * intros j q. cbn [In map fst]. rewrite S. split.
        -- intros [E|[E|(-> & -> & Hn)] ]; auto. right. split; [reflexivity|]. split; [reflexivity|]. intros [->|Hn']; [lia|contradiction].
        -- intros [ [E|E]|(-> & -> & Hn)]; auto. right. right. split; [reflexivity|]. split; [reflexivity|]. intros X. apply Hn. now right.
    + split.
      * cbn [map fst]. apply ascending_cons; [now apply ascending_cons|now apply below_all].
      * intros j q. split; [intros [[= <- <-]|Hin]; [right|left; exact Hin]|intros [Hin|(-> & -> & _)]; [right; exact Hin|now left] ].
        split; [reflexivity|]. split; [reflexivity|]. apply (above_not_in id). now apply below_all.
    + assert (i = id) as -> by lia. split; [cbn [map fst]; now apply ascending_cons|]. intros j q. split; [auto|]. intros [Hin|(-> & -> & Hn)]; [exact Hin|].
      destruct Hn. now left.
Qed.
Lemma mi_erase_spec : forall id (m : list (N * psyn)), ascending (map fst m) -> ascending (map fst (mi_erase id m)) /\
  (forall i p, In (i, p) (mi_erase id m) <-> In (i, p) m /\ i <> id).
Proof.
  intros id m H. split.
  - unfold mi_erase. induction m as [|[i p] m IH]; [constructor|]. cbn [map fst] in H. apply ascending_inv in H as [H F]. cbn [filter fst].
    destruct (negb (i =? id)%N); [|now apply IH]. cbn [map fst]. apply ascending_cons; [now apply IH|]. apply Forall_forall. intros x Hx.
    apply in_map_iff in Hx as ([j q] & <- & Hx). apply filter_In in Hx as [Hx _]. rewrite Forall_forall in F. apply F. apply in_map_iff. exists (j, q). auto.
  - intros i p. unfold mi_erase. rewrite filter_In. cbn [fst]. rewrite negb_true_iff, N.eqb_neq. reflexivity.
Qed.
Lemma mi_run_ascending : forall ops m, ascending (map fst m) -> ascending (map fst (mi_run ops m)).
Proof.
  unfold mi_run. induction ops as [|o ops IH]; intros m H; [exact H|]. cbn [fold_left]. apply IH. destruct o; cbn [mi_step]; [now apply mi_merge_spec|now apply mi_erase_spec].
Qed.
Lemma mi_run_keeps : forall ops m id ps, ascending (map fst m) -> In (id, ps) m -> ~ In (Erase id) ops -> In (id, ps) (mi_run ops m).
Proof.
  unfold mi_run. induction ops as [|o ops IH]; intros m id ps H Hin Ne; [exact Hin|]. cbn [fold_left]. apply IH.
  - destruct o; cbn [mi_step]; [now apply mi_merge_spec|now apply mi_erase_spec].
  - destruct o as [i p|i]; cbn [mi_step]; [apply mi_merge_spec; auto|]. apply mi_erase_spec; [exact H|]. split; [exact Hin|]. intros ->. apply Ne. now left.
  - intros Hn. apply Ne. now right.
Qed.
Lemma mi_run_origin : forall ops m id, ascending (map fst m) -> In id (map fst (mi_run ops m)) -> In id (map fst m) \/ exists ps, In (Merge id ps) ops.
Proof.
  unfold mi_run. induction ops as [|o ops IH]; intros m id H Hin; [now left|]. cbn [fold_left] in Hin.
  destruct (IH (mi_step m o) id) as [H'|(ps & H')]; [|exact Hin| |right; exists ps; now right].
  - destruct o; cbn [mi_step]; [now apply mi_merge_spec|now apply mi_erase_spec].
  - apply in_map_iff in H' as ([i p] & <- & H'). cbn [fst]. destruct o as [j q|j]; cbn [mi_step] in H'.
    + apply mi_merge_spec in H' as [H'|(-> & -> & _)]; [left; apply in_map_iff; exists (i, p); auto|right; exists q; now left|exact H].
    + apply mi_erase_spec in H' as [H' _]; [left; apply in_map_iff; exists (i, p); auto|exact H].
Qed.
