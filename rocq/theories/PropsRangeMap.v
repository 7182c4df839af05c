(** C24: the range map behaves as a partial function on points. *)
From Coq Require Import List NArith Lia Bool.
From Verif Require Import RangeMapModel RangeMapProofs.
Import ListNotations.
Open Scope N_scope.

(** Operations a client can perform; [insert] and [inject] require [l < r]
    (VAST_ASSERT in range_map.hpp:84,100). *)
Inductive op (V : Type) :=
| Insert (l r : N) (v : V)
| Inject (l r : N) (v : V)
| ErasePoint (p : N)
| EraseValue (v : V).
Arguments Insert {V}. Arguments Inject {V}.
Arguments ErasePoint {V}. Arguments EraseValue {V}.

Section Histories.
Context {V : Type} (veq : V -> V -> bool).
Hypothesis veq_ok : forall x y, veq x y = true <-> x = y.

Definition apply (m : rmap V) (o : op V) : rmap V :=
  match o with
  | Insert l r v => fst (insert l r v m)
  | Inject l r v => fst (inject veq l r v m)
  | ErasePoint p => fst (erase_point p m)
  | EraseValue v => erase_value veq v m
  end.

Definition legal (o : op V) : Prop :=
  match o with
  | Insert l r _ | Inject l r _ => l < r
  | _ => True
  end.

Definition run (os : list (op V)) : rmap V := fold_left apply os [].

Lemma apply_wf : forall m o, wf m -> legal o -> wf (apply m o).
Proof.
  intros m [l r v|l r v|p|v] W L; cbn in *.
  - pose proof (insert_spec m l r v W L) as H. destruct (insert l r v m) as [m' [|]].
    + apply H; auto. + destruct H as [_ H]. destruct (H eq_refl) as [_ ->]. auto.
  - pose proof (inject_spec veq veq_ok m l r v W L) as H. destruct (inject veq l r v m) as [m' [|]].
    + apply H; auto. + destruct H as [_ H]. destruct (H eq_refl) as [_ ->]. auto.
  - pose proof (erase_point_spec m p W) as H. destruct (erase_point p m). apply H.
  - now apply erase_value_spec.
Qed.

Lemma run_wf : forall os, Forall legal os -> wf (run os).
Proof.
  intros os. unfold run. assert (G : forall m, wf m -> Forall legal os -> wf (fold_left apply os m)).
  { induction os as [|o os IH]; intros m W F; cbn; auto.
    apply Forall_cons_iff in F as [F1 F2]. apply IH; auto. now apply apply_wf. }
  apply G. exact I.
Qed.

(** After any history, [insert] and [inject] succeed exactly if no point of
    [l, r) is mapped; on success the mapping (observed by [lookup]) grows by
    exactly [l, r) and on failure the map is unchanged. *)
Theorem C24_insert_exact : forall os l r v, Forall legal os -> l < r ->
  let m := run os in
  let '(m', ok) := insert l r v m in
  (ok = true <-> forall p, l <= p < r -> lookup m p = None) /\
  (ok = true -> forall p,
     lookup m' p = if (l <=? p) && (p <? r) then Some v else lookup m p) /\
  (ok = false -> m' = m).
Proof.
  intros os l r v F Hlr m. pose proof (run_wf os F) as W. fold m in W.
  pose proof (insert_spec m l r v W Hlr) as H.
  destruct (insert l r v m) as [m' ok]. destruct H as [H1 H2].
  assert (NO : ~ overlaps m l r <-> forall p, l <= p < r -> lookup m p = None).
  { split.
    - intros H p Hp. destruct (lookup m p) as [w|] eqn:E; auto. exfalso. apply H.
      apply lookup_spec in E; auto. exists p, w. auto.
    - intros H (p & w & M & Q). apply lookup_spec in M; auto. rewrite H in M by auto. discriminate. }
  split; [|split].
  - rewrite <- NO. destruct ok; split; auto; [intros _; now apply H1|discriminate|].
    intro. exfalso. destruct (H2 eq_refl). auto.
  - intros -> p. destruct (H1 eq_refl) as (N1 & W' & S).
    destruct ((l <=? p) && (p <? r)) eqn:B.
    + apply lookup_spec; auto. apply S. right. apply andb_prop in B as [B1 B2].
      apply N.leb_le in B1. apply N.ltb_lt in B2. auto.
    + apply andb_false_iff in B. rewrite N.leb_gt, N.ltb_ge in B.
      destruct (lookup m p) as [w|] eqn:E.
      * apply lookup_spec; auto. apply S. left. now apply lookup_spec.
      * destruct (lookup m' p) as [w|] eqn:E'; auto. apply lookup_spec in E'; auto.
        apply S in E' as [E'|E']; [|lia]. apply lookup_spec in E'; auto. congruence.
  - intros ->. now apply H2.
Qed.

Theorem C24_inject_exact : forall os l r v, Forall legal os -> l < r ->
  let m := run os in
  let '(m', ok) := inject veq l r v m in
  (ok = true <-> forall p, l <= p < r -> lookup m p = None) /\
  (ok = true -> forall p,
     lookup m' p = if (l <=? p) && (p <? r) then Some v else lookup m p) /\
  (ok = false -> m' = m).
Proof.
  intros os l r v F Hlr m. pose proof (run_wf os F) as W. fold m in W.
  pose proof (inject_spec veq veq_ok m l r v W Hlr) as H.
  destruct (inject veq l r v m) as [m' ok]. destruct H as [H1 H2].
  assert (NO : ~ overlaps m l r <-> forall p, l <= p < r -> lookup m p = None).
  { split.
    - intros H p Hp. destruct (lookup m p) as [w|] eqn:E; auto. exfalso. apply H.
      apply lookup_spec in E; auto. exists p, w. auto.
    - intros H (p & w & M & Q). apply lookup_spec in M; auto. rewrite H in M by auto. discriminate. }
  split; [|split].
  - rewrite <- NO. destruct ok; split; auto; [intros _; now apply H1|discriminate|].
    intro. exfalso. destruct (H2 eq_refl). auto.
  - intros -> p. destruct (H1 eq_refl) as (N1 & W' & S).
    destruct ((l <=? p) && (p <? r)) eqn:B.
    + apply lookup_spec; auto. apply S. right. apply andb_prop in B as [B1 B2].
      apply N.leb_le in B1. apply N.ltb_lt in B2. auto.
    + apply andb_false_iff in B. rewrite N.leb_gt, N.ltb_ge in B.
      destruct (lookup m p) as [w|] eqn:E.
      * apply lookup_spec; auto. apply S. left. now apply lookup_spec.
      * destruct (lookup m' p) as [w|] eqn:E'; auto. apply lookup_spec in E'; auto.
        apply S in E' as [E'|E']; [|lia]. apply lookup_spec in E'; auto. congruence.
  - intros ->. now apply H2.
Qed.

(** After any history the stored intervals are non-empty and disjoint; [find]
    returns the interval that contains the point, and [lookup] agrees. *)
Theorem C24_find_exact : forall os p, Forall legal os ->
  match find (run os) p with
  | Some (l, r, v) => l <= p /\ p < r /\ (forall q, l <= q < r -> lookup (run os) q = Some v)
  | None => lookup (run os) p = None
  end.
Proof.
  intros os p F. pose proof (run_wf os F) as W.
  destruct (find (run os) p) as [[[l r] v]|] eqn:EQ.
  - apply find_spec in EQ as (I & A & B); auto. repeat split; auto.
    intros q Hq. apply lookup_spec; auto. exists (E l r v). cbn. tauto.
  - unfold find in EQ. unfold lookup. destruct (locate p (lower_bound (run os) p)); [discriminate|reflexivity].
Qed.

(** [erase(p)] removes exactly the interval that [find] reports for [p], and
    succeeds exactly if there is one. *)
Theorem C24_erase_point_exact : forall os p, Forall legal os ->
  let m := run os in
  let '(m', ok) := erase_point p m in
  match find m p with
  | Some (l, r, _) =>
    ok = true /\ forall q, lookup m' q = if (l <=? q) && (q <? r) then None else lookup m q
  | None => ok = false /\ m' = m
  end.
Proof.
  intros os p F m. pose proof (run_wf os F) as W. fold m in W.
  pose proof (erase_point_spec m p W) as H. unfold erase_point in *.
  destruct (find m p) as [[[l r] v]|] eqn:EQ.
  - pose proof EQ as E'. apply find_spec in E' as (I & A & B); auto.
    unfold find in EQ. destruct (locate p (lower_bound m p)) as [e|] eqn:L; [|discriminate].
    cbn in EQ. inversion EQ; subst. clear EQ. split; auto. destruct H as (W' & _ & H).
    intro q. destruct ((eleft e <=? q) && (q <? eright e)) eqn:Q.
    + apply andb_prop in Q as [Q1 Q2]. apply N.leb_le in Q1. apply N.ltb_lt in Q2.
      destruct (lookup (map_erase (eleft e) m) q) as [w|] eqn:K; auto.
      apply lookup_spec in K; auto. apply H in K as [_ K]. exfalso. apply K.
      exists (E (eleft e) (eright e) (evalue e)). cbn. auto.
    + apply andb_false_iff in Q. rewrite N.leb_gt, N.ltb_ge in Q.
      destruct (lookup m q) as [w|] eqn:K.
      * apply lookup_spec; auto. apply H. apply lookup_spec in K; auto. split; auto.
        intros (x & X1 & X2 & X3 & X4 & X5).
        assert (find m p = Some (eleft x, eright x, evalue x)).
        { apply find_spec; auto. destruct x; auto. }
        unfold find in H0. rewrite L in H0. cbn in H0. inversion H0. lia.
      * destruct (lookup (map_erase (eleft e) m) q) as [w|] eqn:K'; auto.
        apply lookup_spec in K'; auto. apply H in K' as [K' _]. apply lookup_spec in K'; auto.
        congruence.
  - unfold find in EQ. destruct (locate p (lower_bound m p)); [discriminate|]. auto.
Qed.

(** [erase_value(x)] removes exactly the points mapped to [x]. *)
Theorem C24_erase_value_exact : forall os x q, Forall legal os ->
  lookup (erase_value veq x (run os)) q =
    match lookup (run os) q with
    | Some v => if veq v x then None else Some v
    | None => None
    end.
Proof.
  intros os x q F. pose proof (run_wf os F) as W.
  destruct (erase_value_spec veq veq_ok (run os) x W) as [W' H].
  destruct (lookup (run os) q) as [v|] eqn:E.
  - destruct (veq v x) eqn:Q.
    + apply veq_ok in Q. subst v.
      destruct (lookup (erase_value veq x (run os)) q) as [w|] eqn:K; auto.
      apply lookup_spec in K; auto. apply H in K as [K1 K2]. apply lookup_spec in K1; auto. congruence.
    + apply lookup_spec; auto. apply H. apply lookup_spec in E; auto. split; auto.
      intros ->. rewrite (proj2 (veq_ok _ _) eq_refl) in Q. discriminate.
  - destruct (lookup (erase_value veq x (run os)) q) as [w|] eqn:K; auto.
    apply lookup_spec in K; auto. apply H in K as [K1 K2]. apply lookup_spec in K1; auto. congruence.
Qed.

(** [erase(l, r)] removes exactly the points of [l, r), provided no stored
    interval starts at [l] and ends after [r], or starts before [l] and ends at
    [r]. The two excluded cases are refuted below. *)
Theorem C24_erase_range_partial : forall os l r, Forall legal os -> l <= r ->
  (forall a b v, find (run os) l = Some (a, b, v) -> ~ (a = l /\ r < b) /\ ~ (a < l /\ b = r)) ->
  exists m', erase_range veq l r (run os) = Some m' /\
    forall q, lookup m' q = if (l <=? q) && (q <? r) then None else lookup (run os) q.
Proof.
  intros os l r F Hlr Hb. pose proof (run_wf os F) as W.
  destruct (erase_range_spec veq veq_ok (run os) l r W Hlr) as (m' & E & W' & H).
  { intros x Hx Hl. pose proof (wf_lt _ _ W Hx).
    assert (Fx : eleft x <= l -> l < eright x -> find (run os) l = Some (eleft x, eright x, evalue x)).
    { intros. apply find_spec; auto. destruct x; auto. }
    split; intros [A B].
    - specialize (Hb _ _ _ (Fx ltac:(lia) ltac:(lia))). intuition.
    - specialize (Hb _ _ _ (Fx ltac:(lia) ltac:(lia))). intuition. }
  exists m'. split; auto. intro q.
  destruct ((l <=? q) && (q <? r)) eqn:Q.
  - apply andb_prop in Q as [Q1 Q2]. apply N.leb_le in Q1. apply N.ltb_lt in Q2.
    destruct (lookup m' q) as [w|] eqn:K; auto. apply lookup_spec in K; auto. apply H in K. lia.
  - apply andb_false_iff in Q. rewrite N.leb_gt, N.ltb_ge in Q.
    destruct (lookup (run os) q) as [w|] eqn:K.
    + apply lookup_spec; auto. apply H. split; auto. now apply lookup_spec.
    + destruct (lookup m' q) as [w|] eqn:K'; auto. apply lookup_spec in K'; auto.
      apply H in K' as [K' _]. apply lookup_spec in K'; auto. congruence.
Qed.

End Histories.

Print Assumptions C24_insert_exact.
Print Assumptions C24_inject_exact.
Print Assumptions C24_find_exact.
Print Assumptions C24_erase_point_exact.
Print Assumptions C24_erase_value_exact.
Print Assumptions C24_erase_range_partial.

(** Erasing a prefix of an interval leaves its first point mapped: after
    inserting [10, 20) and erasing [10, 15), [lookup 10] still succeeds. *)
Theorem C24_erase_range_prefix_refuted : exists os l r q,
  Forall (@legal bool) os /\ l <= q < r /\
  exists m', erase_range Bool.eqb l r (run Bool.eqb os) = Some m' /\ lookup m' q <> None.
Proof.
  exists [Insert 10 20 true], 10, 15, 10. repeat split; try lia.
  - repeat constructor.
  - eexists. split; [reflexivity|]. vm_compute. discriminate.
Qed.
Print Assumptions C24_erase_range_prefix_refuted.

(** Erasing a suffix of an interval violates the precondition of the nested
    [inject]. *)
Theorem C24_erase_range_suffix_refuted : exists os l r,
  Forall (@legal bool) os /\ l < r /\ erase_range Bool.eqb l r (run Bool.eqb os) = None.
Proof.
  exists [Insert 10 20 true], 15, 20. repeat split; try lia. repeat constructor.
Qed.
Print Assumptions C24_erase_range_suffix_refuted.

(** A history that meets the hypotheses: two merges, a gap and a rejected
    overlapping insert. *)
Example C24_example :
  let os := [Insert 10 20 1; Inject 30 40 1; Inject 20 30 1; Insert 35 50 2; Insert 50 60 3] in
  Forall (@legal N) os /\
  run N.eqb os = [E 10 40 1; E 50 60 3] /\
  erase_range N.eqb 20 55 (run N.eqb os) = Some [E 10 20 1; E 55 60 3] /\
  insert 40 50 7 (run N.eqb os) = ([E 10 40 1; E 40 50 7; E 50 60 3], true).
Proof. cbn. repeat split. repeat constructor. Qed.
