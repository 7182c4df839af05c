(** Proofs about the evaluation of queries in a partition (EvaluatorModel.v). *)
From Coq Require Import List ZArith NArith Lia Bool Arith Permutation.
From Verif Require Import BitmapOps OperatorModel AddressModel AddressProofs DataModel TypeModel TypeProofs
  ExpressionModel ExpressionProofs EvaluatorModel.
Import ListNotations.
Open Scope nat_scope.

(** * Specification: the value of an expression at a position *)

Section Indexed.
  Variable f : list nat -> expr -> bool.
  Fixpoint all_at (o : list nat) (i : nat) (es : list expr) : bool :=
    match es with [] => true | e :: es' => f (o ++ [i]) e && all_at o (S i) es' end.
  Fixpoint some_at (o : list nat) (i : nat) (es : list expr) : bool :=
    match es with [] => false | e :: es' => f (o ++ [i]) e || some_at o (S i) es' end.
End Indexed.
(** The truth of an expression given the truth of the predicate at each position. *)
Fixpoint truth (v : list nat -> bool) (o : list nat) (e : expr) : bool :=
  match e with
  | ENone => false
  | EAnd es => all_at (truth v) o 0 es
  | EOr es => some_at (truth v) o 0 es
  | ENot x => negb (truth v (o ++ [0]) x)
  | EPred _ => v o
  end.
(** Every connective has an operand. *)
Fixpoint inhabited_expr (e : expr) : bool :=
  match e with
  | EAnd es | EOr es => negb (match es with [] => true | _ => false end) && forallb inhabited_expr es
  | ENot x => inhabited_expr x
  | _ => true
  end.

Lemma offset_eqb_spec : forall a b : list nat, eqs Nat.eqb a b = true <-> a = b.
Proof. intros a b. apply eqs_eq. apply Forall_forall. intros x _ y. apply Nat.eqb_eq. Qed.
Lemma offset_eqb_refl : forall a : list nat, eqs Nat.eqb a a = true.
Proof. intros a. now apply offset_eqb_spec. Qed.
Lemma offset_eqb_false : forall a b : list nat, eqs Nat.eqb a b = false <-> a <> b.
Proof.
  intros a b. split; intros H.
  - intros ->. rewrite offset_eqb_refl in H. discriminate.
  - destruct (eqs Nat.eqb a b) eqn:E; [|reflexivity]. apply offset_eqb_spec in E. contradiction.
Qed.
Lemma offset_dec : forall a b : list nat, {a = b} + {a <> b}.
Proof. decide equality. apply Nat.eq_dec. Qed.

Lemma truth_mono : forall v w, (forall o, v o = true -> w o = true) ->
  forall e o, positive e = true -> truth v o e = true -> truth w o e = true.
Proof.
  intros v w H. induction e as [|es IH|es IH|e IH|p] using expr_rect'; intros o P T; cbn [truth positive] in *; auto; try discriminate.
  - generalize dependent 0. induction IH as [|e es H1 H2 IH2]; intros i T; cbn [all_at forallb] in *; [reflexivity|].
    apply andb_true_iff in P as [P1 P2]. apply andb_true_iff in T as [T1 T2].
    rewrite (H1 (o ++ [i]) P1 T1). now apply IH2.
  - generalize dependent 0. induction IH as [|e es H1 H2 IH2]; intros i T; cbn [some_at forallb] in *; [discriminate|].
    apply andb_true_iff in P as [P1 P2]. apply orb_true_iff in T as [T|T].
    + now rewrite (H1 (o ++ [i]) P1 T).
    + rewrite (IH2 P2 (S i) T). apply orb_true_r.
Qed.
Lemma truth_ext : forall v w, (forall o, v o = w o) -> forall e o, truth v o e = truth w o e.
Proof.
  intros v w H. induction e as [|es IH|es IH|e IH|p] using expr_rect'; intros o; cbn [truth]; auto.
  - generalize 0. induction IH as [|e es H1 H2 IH2]; intros i; cbn [all_at]; [reflexivity|]. now rewrite H1, IH2.
  - generalize 0. induction IH as [|e es H1 H2 IH2]; intros i; cbn [some_at]; [reflexivity|]. now rewrite H1, IH2.
  - now rewrite IH.
Qed.
(** Reading the value of each predicate off its position. *)
Lemma truth_holds : forall v pv e o,
  (forall q p, descend_expr e q = Some (EPred p) -> v (o ++ q) = pv p) -> truth v o e = holds pv e.
Proof.
  intros v pv. induction e as [|es IH|es IH|e IH|p] using expr_rect'; intros o H; cbn [truth holds].
  - reflexivity.
  - assert (K : forall j, (forall i q p x, nth_error es i = Some x -> descend_expr x q = Some (EPred p) -> v ((o ++ [j + i]) ++ q) = pv p) -> all_at (truth v) o j es = forallb (holds pv) es).
    { clear H. induction IH as [|e es H1 H2 IH2]; intros j G; [reflexivity|]. cbn [all_at forallb]. f_equal.
      - apply H1. intros q p Hq. specialize (G 0 q p e eq_refl Hq). now rewrite Nat.add_0_r in G.
      - apply IH2. intros i q p x Hx Hq. specialize (G (S i) q p x Hx Hq). now rewrite Nat.add_succ_r in G. }
    apply K. intros i q p x Hx Hq. rewrite <- app_assoc. apply H. cbn [app descend_expr child Nat.add]. now rewrite Hx.
  - assert (K : forall j, (forall i q p x, nth_error es i = Some x -> descend_expr x q = Some (EPred p) -> v ((o ++ [j + i]) ++ q) = pv p) -> some_at (truth v) o j es = existsb (holds pv) es).
    { clear H. induction IH as [|e es H1 H2 IH2]; intros j G; [reflexivity|]. cbn [some_at existsb]. f_equal.
      - apply H1. intros q p Hq. specialize (G 0 q p e eq_refl Hq). now rewrite Nat.add_0_r in G.
      - apply IH2. intros i q p x Hx Hq. specialize (G (S i) q p x Hx Hq). now rewrite Nat.add_succ_r in G. }
    apply K. intros i q p x Hx Hq. rewrite <- app_assoc. apply H. cbn [app descend_expr child Nat.add]. now rewrite Hx.
  - f_equal. apply IH. intros q p Hq. rewrite <- app_assoc. apply H. exact Hq.
  - specialize (H [] p eq_refl). now rewrite app_nil_r in H.
Qed.

Section Evaluator.
  Context {B : Type} (ops : bitmap_ops B) (content : B -> list bool).
  Context (laws : bitmap_laws ops content).
  Notation bit := (bit content).
  Notation len := (len content).
  Notation hits_map := (list (list nat * (nat * B))).

  Lemma find_put : forall (m : hits_map) o v q,
    find_hits (put_hits m o v) q = if eqs Nat.eqb o q then Some v else find_hits m q.
  Proof.
    induction m as [|[k w] m IH]; intros o v q; cbn [put_hits find_hits]; [reflexivity|].
    destruct (eqs Nat.eqb k o) eqn:E; cbn [find_hits].
    - apply offset_eqb_spec in E. subst k. now destruct (eqs Nat.eqb o q).
    - rewrite IH. destruct (eqs Nat.eqb k q) eqn:F; [|reflexivity].
      apply offset_eqb_spec in F. subst k. apply offset_eqb_false in E.
      assert (eqs Nat.eqb o q = false) as -> by (apply offset_eqb_false; congruence). reflexivity.
  Qed.

  (** The hits recorded at a position. *)
  Definition recorded (m : hits_map) (i : nat) (o : list nat) : bool :=
    match find_hits m o with Some (_, r) => bit r i | None => false end.

  Lemma bit_empty : forall i, bit (b_empty ops) i = false.
  Proof. intros i. unfold BitmapOps.bit. rewrite (law_empty _ _ laws). now destruct i. Qed.

  Lemma ids_eval_defined : forall m e o, inhabited_expr e = true -> exists r, ids_eval ops m o e = Some r.
  Proof.
    intros m. induction e as [|es IH|es IH|e IH|p] using expr_rect'; intros o W; cbn [ids_eval inhabited_expr] in *; eauto.
    1-2: apply andb_true_iff in W as [W1 W2]; destruct es as [|x es]; [discriminate|];
      inversion IH as [|? ? H1 H2]; subst; cbn [forallb] in W2; apply andb_true_iff in W2 as [W2 W3];
      destruct (H1 (o ++ [0]) W2) as [r ->]; clear H1 IH W1 W2; generalize 1; revert r;
      induction H2 as [|y ys H1 H2 IH2]; intros r i; cbn [connect_ids]; eauto;
      cbn [forallb] in W3; apply andb_true_iff in W3 as [W3 W4];
      destruct (H1 (o ++ [i]) W3) as [r' ->]; now apply IH2.
    destruct (IH (o ++ [0]) W) as [r ->]. cbn. eauto.
  Qed.

  (** Without negations the evaluator computes the truth of the expression from the
      recorded hits. *)
  Lemma ids_eval_truth : forall m e o r, positive e = true -> ids_eval ops m o e = Some r ->
    forall j, bit r j = truth (recorded m j) o e.
  Proof.
    intros m. induction e as [|es IH|es IH|e IH|p] using expr_rect'; intros o r P H j; cbn [ids_eval truth positive] in *.
    - injection H as <-. apply bit_empty.
    - destruct es as [|x es]; [discriminate|]. destruct (ids_eval ops m (o ++ [0]) x) as [r0|] eqn:E0; [|discriminate].
      inversion IH as [|? ? H1 H2]; subst. cbn [forallb all_at] in *. apply andb_true_iff in P as [P1 P2].
      rewrite <- (H1 _ _ P1 E0 j). clear H1 IH P1 E0 x. revert H. generalize 1. revert r0.
      induction H2 as [|y ys H1 H2 IH2]; intros r0 i H; cbn [connect_ids all_at forallb] in *.
      + injection H as <-. now rewrite andb_true_r.
      + destruct (ids_eval ops m (o ++ [i]) y) as [r1|] eqn:E1; [|discriminate].
        apply andb_true_iff in P2 as [P1 P2]. rewrite (IH2 P2 _ _ H), (bit_and ops content laws).
        rewrite <- (H1 _ _ P1 E1 j). now rewrite andb_assoc.
    - destruct es as [|x es]; [discriminate|]. destruct (ids_eval ops m (o ++ [0]) x) as [r0|] eqn:E0; [|discriminate].
      inversion IH as [|? ? H1 H2]; subst. cbn [forallb some_at] in *. apply andb_true_iff in P as [P1 P2].
      rewrite <- (H1 _ _ P1 E0 j). clear H1 IH P1 E0 x. revert H. generalize 1. revert r0.
      induction H2 as [|y ys H1 H2 IH2]; intros r0 i H; cbn [connect_ids some_at forallb] in *.
      + injection H as <-. now rewrite orb_false_r.
      + destruct (ids_eval ops m (o ++ [i]) y) as [r1|] eqn:E1; [|discriminate].
        apply andb_true_iff in P2 as [P1 P2]. rewrite (IH2 P2 _ _ H), (bit_or ops content laws).
        rewrite <- (H1 _ _ P1 E1 j). now rewrite orb_assoc.
    - discriminate.
    - injection H as <-. unfold recorded. destruct (find_hits m o) as [[n r]|]; [reflexivity|apply bit_empty].
  Qed.

  (** With negations it does so when every predicate has an ID set of the same length. *)
  Lemma ids_eval_truth_sized : forall m n e o r, complete e = true ->
    (forall q p, descend_expr e q = Some (EPred p) -> exists k x, find_hits m (o ++ q) = Some (k, x) /\ len x = n) ->
    ids_eval ops m o e = Some r ->
    len r = n /\ forall j, j < n -> bit r j = truth (recorded m j) o e.
  Proof.
    intros m n. induction e as [|es IH|es IH|e IH|p] using expr_rect'; intros o r C P H; cbn [ids_eval truth complete] in *.
    - discriminate.
    - destruct es as [|x es]; [discriminate|]. destruct (ids_eval ops m (o ++ [0]) x) as [r0|] eqn:E0; [|discriminate].
      inversion IH as [|? ? H1 H2]; subst. cbn [forallb all_at] in *. apply andb_true_iff in C as [C1 C2].
      assert (Q : forall k y q p, nth_error es k = Some y -> descend_expr y q = Some (EPred p) ->
        exists c z, find_hits m ((o ++ [1 + k]) ++ q) = Some (c, z) /\ len z = n).
      { intros k y q p Hk Hq. rewrite <- app_assoc. apply (P ([1 + k] ++ q) p). cbn [app descend_expr child Nat.add nth_error]. now rewrite Hk. }
      destruct (H1 (o ++ [0]) r0 C1) as [L0 T0]; [|exact E0|].
      { intros q p Hq. rewrite <- app_assoc. apply (P ([0] ++ q) p). exact Hq. }
      clear P H1 IH C1 E0.
      enough (G : len r = n /\ forall j, j < n -> bit r j = bit r0 j && all_at (truth (recorded m j)) o 1 es).
      { destruct G as [G1 G2]. split; [exact G1|]. intros j Hj. rewrite (G2 j Hj), (T0 j Hj). reflexivity. }
      clear T0 x. revert Q H L0. generalize 1. revert r0.
      induction H2 as [|y ys H1 H2 IH2]; intros r0 i Q H L0; cbn [connect_ids all_at forallb] in *.
      + injection H as <-. split; [exact L0|]. intros. now rewrite andb_true_r.
      + destruct (ids_eval ops m (o ++ [i]) y) as [r1|] eqn:E1; [|discriminate].
        apply andb_true_iff in C2 as [C1 C2].
        destruct (H1 (o ++ [i]) r1 C1) as [L1 T1]; [|exact E1|].
        { intros q p Hq. specialize (Q 0 y q p eq_refl Hq). now rewrite Nat.add_0_r in Q. }
        destruct (IH2 C2 (b_and ops r0 r1) (S i)) as [L T].
        * intros k z q p Hk Hq. specialize (Q (S k) z q p Hk Hq). now rewrite Nat.add_succ_r in Q.
        * exact H.
        * rewrite (len_and ops content laws). lia.
        * split; [exact L|]. intros j Hj. rewrite (T j Hj), (bit_and ops content laws), (T1 j Hj). now rewrite andb_assoc.
    - destruct es as [|x es]; [discriminate|]. destruct (ids_eval ops m (o ++ [0]) x) as [r0|] eqn:E0; [|discriminate].
      inversion IH as [|? ? H1 H2]; subst. cbn [forallb some_at] in *. apply andb_true_iff in C as [C1 C2].
      assert (Q : forall k y q p, nth_error es k = Some y -> descend_expr y q = Some (EPred p) ->
        exists c z, find_hits m ((o ++ [1 + k]) ++ q) = Some (c, z) /\ len z = n).
      { intros k y q p Hk Hq. rewrite <- app_assoc. apply (P ([1 + k] ++ q) p). cbn [app descend_expr child Nat.add nth_error]. now rewrite Hk. }
      destruct (H1 (o ++ [0]) r0 C1) as [L0 T0]; [|exact E0|].
      { intros q p Hq. rewrite <- app_assoc. apply (P ([0] ++ q) p). exact Hq. }
      clear P H1 IH C1 E0.
      enough (G : len r = n /\ forall j, j < n -> bit r j = bit r0 j || some_at (truth (recorded m j)) o 1 es).
      { destruct G as [G1 G2]. split; [exact G1|]. intros j Hj. rewrite (G2 j Hj), (T0 j Hj). reflexivity. }
      clear T0 x. revert Q H L0. generalize 1. revert r0.
      induction H2 as [|y ys H1 H2 IH2]; intros r0 i Q H L0; cbn [connect_ids some_at forallb] in *.
      + injection H as <-. split; [exact L0|]. intros. now rewrite orb_false_r.
      + destruct (ids_eval ops m (o ++ [i]) y) as [r1|] eqn:E1; [|discriminate].
        apply andb_true_iff in C2 as [C1 C2].
        destruct (H1 (o ++ [i]) r1 C1) as [L1 T1]; [|exact E1|].
        { intros q p Hq. specialize (Q 0 y q p eq_refl Hq). now rewrite Nat.add_0_r in Q. }
        destruct (IH2 C2 (b_or ops r0 r1) (S i)) as [L T].
        * intros k z q p Hk Hq. specialize (Q (S k) z q p Hk Hq). now rewrite Nat.add_succ_r in Q.
        * exact H.
        * rewrite (len_or ops content laws). lia.
        * split; [exact L|]. intros j Hj. rewrite (T j Hj), (bit_or ops content laws), (T1 j Hj). now rewrite orb_assoc.
    - destruct (ids_eval ops m (o ++ [0]) e) as [r0|] eqn:E0; [|discriminate]. cbn [option_map] in H. injection H as <-.
      destruct (IH (o ++ [0]) r0 C) as [L0 T0]; [|exact E0|].
      { intros q p Hq. rewrite <- app_assoc. apply (P ([0] ++ q) p). exact Hq. }
      rewrite (len_not ops content laws). split; [exact L0|]. intros j Hj.
      rewrite (bit_not ops content laws), L0, (T0 j Hj). apply Nat.ltb_lt in Hj. now rewrite Hj.
    - destruct (P [] p eq_refl) as (k & x & F & L). rewrite app_nil_r in F. rewrite F in H. injection H as <-.
      split; [exact L|]. intros j _. unfold recorded. now rewrite F.
  Qed.

  (** * Responses in any order *)

  (** The hits some response reports for a position. *)
  Definition reported (rs : list (list nat * option B)) (i : nat) (o : list nat) : bool :=
    existsb (fun r => eqs Nat.eqb (fst r) o && match snd r with Some x => bit x i | None => false end) rs.
  Definition left_at (o : list nat) (rs : list (list nat * option B)) : nat :=
    length (filter (fun r => eqs Nat.eqb (fst r) o) rs).

  Lemma reported_app : forall a b i o, reported (a ++ b) i o = reported a i o || reported b i o.
  Proof. intros. apply existsb_app. Qed.
  Lemma reported_perm : forall a b, Permutation a b -> forall i o, reported a i o = reported b i o.
  Proof.
    intros a b H i o. apply eq_true_iff_eq. unfold reported. rewrite !existsb_exists.
    split; intros (x & X & Y); exists x; split; auto; [eapply Permutation_in; eauto|].
    eapply Permutation_in; [apply Permutation_sym; eauto|auto].
  Qed.

  Lemma any_one_spec : forall x, any_one ops x = existsb (fun b => b) (content x).
  Proof.
    intros x. unfold any_one. rewrite (law_size _ _ laws), (law_all _ _ laws). destruct (content x) as [|b l]; [reflexivity|].
    assert (N.eqb (N.of_nat (length (b :: l))) 0 = false) as -> by (apply N.eqb_neq; cbn [length]; lia). cbn [negb andb].
    generalize (b :: l). induction l0 as [|c l0 IH]; [reflexivity|]. cbn [forallb existsb]. rewrite negb_andb, IH. now destruct c.
  Qed.
  Lemma any_one_none : forall x, any_one ops x = false -> forall i, bit x i = false.
  Proof.
    intros x H i. rewrite any_one_spec in H. unfold BitmapOps.bit. destruct (nth i (content x) false) eqn:E; [|reflexivity].
    enough (G : existsb (fun b => b) (content x) = true) by congruence.
    apply existsb_exists. exists true. split; [|reflexivity]. rewrite <- E. apply nth_In.
    destruct (Nat.lt_ge_cases i (length (content x))) as [L|L]; [exact L|]. rewrite nth_overflow in E by exact L. discriminate.
  Qed.

  (** The state after the responses [done] with the responses [todo] to come. *)
  Definition inv (e : expr) (s : evaluator_state) (done todo : list (list nat * option B)) : Prop :=
    pending s = length todo /\
    (forall o, match find_hits (predicate_hits s) o with
               | None => ~ In o (map fst todo) /\ ~ In o (map fst done)
               | Some (n, acc) => n = left_at o todo /\ forall i, bit acc i = reported done i o
               end) /\
    (todo = [] -> done <> [] -> positive e = true -> forall i, truth (reported done i) [0] e = true -> bit (hits s) i = true) /\
    (positive e = true -> forall i, bit (hits s) i = true -> truth (reported done i) [0] e = true).

  Lemma count_position_find : forall ps (m : hits_map) q,
    match find_hits (fold_left (count_position ops) ps m) q with
    | None => find_hits m q = None /\ ~ In q ps
    | Some (n, r) =>
      match find_hits m q with
      | Some (k, r') => r = r' /\ n = k + length (filter (fun p => eqs Nat.eqb p q) ps)
      | None => r = b_empty ops /\ n = length (filter (fun p => eqs Nat.eqb p q) ps)
      end
    end.
  Proof.
    induction ps as [|p ps IH]; intros m q; cbn [fold_left].
    - destruct (find_hits m q) as [[k r]|]; cbn; [split; [reflexivity|lia]|auto].
    - specialize (IH (count_position ops m p) q). cbn [filter].
      destruct (find_hits (fold_left (count_position ops) ps (count_position ops m p)) q) as [[n r]|] eqn:E.
      + unfold count_position in IH. destruct (find_hits m p) as [[k0 r0]|] eqn:F.
        * rewrite find_put in IH. destruct (eqs Nat.eqb p q) eqn:G.
          -- apply offset_eqb_spec in G. subst q. rewrite F. cbn [length]. destruct IH as [-> ->]. split; [reflexivity|lia].
          -- exact IH.
        * rewrite find_put in IH. destruct (eqs Nat.eqb p q) eqn:G.
          -- apply offset_eqb_spec in G. subst q. rewrite F. cbn [length]. destruct IH as [-> ->]. split; [reflexivity|lia].
          -- exact IH.
      + destruct IH as [IH1 IH2]. unfold count_position in IH1. destruct (eqs Nat.eqb p q) eqn:G.
        * exfalso. destruct (find_hits m p) as [[k0 r0]|]; rewrite find_put, G in IH1; discriminate.
        * assert (find_hits m q = None) as Fq by (destruct (find_hits m p) as [[k0 r0]|]; rewrite find_put, G in IH1; exact IH1).
          rewrite Fq. split; [reflexivity|]. intros [->|I]; [|contradiction]. rewrite offset_eqb_refl in G. discriminate.
  Qed.

  Lemma filter_map_length : forall A C (f : A -> C) p (l : list A), length (filter p (map f l)) = length (filter (fun x => p (f x)) l).
  Proof. intros A C f p. induction l as [|x l IH]; [reflexivity|]. cbn. destruct (p (f x)); cbn; now rewrite IH. Qed.
  Lemma filter_perm_length : forall A (p : A -> bool) a b, Permutation a b -> length (filter p a) = length (filter p b).
  Proof.
    intros A p. induction 1; cbn; auto.
    - destruct (p x); cbn; congruence.
    - destruct (p x), (p y); reflexivity.
    - congruence.
  Qed.

  Lemma start_inv : forall e ps rs, Permutation ps (map fst rs) -> inhabited_expr e = true -> inv e (start ops ps) [] rs.
  Proof.
    intros e ps rs P W. unfold start. split; [|split; [|split]]; cbn [pending predicate_hits hits].
    - rewrite (Permutation_length P). apply map_length.
    - intros o. pose proof (count_position_find ps [] o) as H.
      destruct (find_hits (fold_left (count_position ops) ps []) o) as [[n r]|]; cbn [find_hits] in H.
      + destruct H as [-> ->]. split; [|intros i; apply bit_empty].
        rewrite (filter_perm_length _ _ _ _ P), filter_map_length. reflexivity.
      + destruct H as [_ H]. split; [|intros []]. intros I. apply H. eapply Permutation_in; [apply Permutation_sym; exact P|exact I].
    - intros _ C. now contradiction C.
    - intros Q i H. rewrite bit_empty in H. discriminate.
  Qed.

  Lemma left_at_cons : forall r rs o, left_at o (r :: rs) = (if eqs Nat.eqb (fst r) o then 1 else 0) + left_at o rs.
  Proof. intros. unfold left_at. cbn [filter]. now destruct (eqs Nat.eqb (fst r) o). Qed.
  Lemma reported_one : forall r i o, reported [r] i o = eqs Nat.eqb (fst r) o && match snd r with Some x => bit x i | None => false end.
  Proof. intros. unfold reported. cbn [existsb]. apply orb_false_r. Qed.

  Lemma handle_inv : forall e s done r todo, inhabited_expr e = true -> inv e s done (r :: todo) ->
    exists s', handle ops e s r = Some s' /\ inv e s' (done ++ [r]) todo /\
      delivered s' = match todo with [] => delivered s ++ [hits s'] | _ => delivered s end.
  Proof.
    intros e s done r todo W (I1 & I2 & I3 & I4). unfold handle.
    pose proof (I2 (fst r)) as F. destruct (find_hits (predicate_hits s) (fst r)) as [[n acc]|] eqn:E; cycle 1.
    { exfalso. destruct F as [F _]. apply F. now left. }
    destruct F as [-> F]. rewrite left_at_cons, offset_eqb_refl. cbn [Nat.add].
    set (acc' := match snd r with Some ids => b_or ops acc ids | None => acc end).
    set (s1 := {| pending := pending s; predicate_hits := put_hits (predicate_hits s) (fst r) (left_at (fst r) todo, acc');
                  hits := hits s; delivered := delivered s |}).
    assert (A : forall i, bit acc' i = reported (done ++ [r]) i (fst r)).
    { intros i. rewrite reported_app, reported_one, offset_eqb_refl. cbn [andb]. unfold acc'.
      destruct (snd r) as [x|]; [rewrite (bit_or ops content laws), F; reflexivity|]. now rewrite orb_false_r, F. }
    assert (M : forall o, match find_hits (predicate_hits s1) o with
               | None => ~ In o (map fst todo) /\ ~ In o (map fst (done ++ [r]))
               | Some (n, acc) => n = left_at o todo /\ forall i, bit acc i = reported (done ++ [r]) i o
               end).
    { intros o. cbn [predicate_hits s1]. rewrite find_put. destruct (eqs Nat.eqb (fst r) o) eqn:G.
      - apply offset_eqb_spec in G. subst o. split; [reflexivity|exact A].
      - specialize (I2 o). destruct (find_hits (predicate_hits s) o) as [[k x]|].
        + destruct I2 as [-> I2]. rewrite left_at_cons, G. split; [reflexivity|].
          intros i. rewrite reported_app, reported_one, G. cbn [andb]. now rewrite orb_false_r.
        + destruct I2 as [I5 I6]. split; [intros C; apply I5; now right|].
          rewrite map_app. intros C. apply in_app_or in C as [C|[C|[]]]; [contradiction|]. subst o. rewrite offset_eqb_refl in G. discriminate. }
    assert (R : forall i o, recorded (predicate_hits s1) i o = reported (done ++ [r]) i o).
    { intros i o. unfold recorded. specialize (M o). destruct (find_hits (predicate_hits s1) o) as [[k x]|].
      - apply M.
      - destruct M as [_ M]. symmetry. destruct (reported (done ++ [r]) i o) eqn:G; [|reflexivity].
        exfalso. apply M. unfold reported in G. apply existsb_exists in G as (x & X & Y).
        apply andb_true_iff in Y as [Y _]. apply offset_eqb_spec in Y. subst o. now apply in_map. }
    assert (Mono : positive e = true -> forall i, bit (hits s) i = true -> truth (reported (done ++ [r]) i) [0] e = true).
    { intros P i H. eapply truth_mono; [|exact P|apply I4; eauto]. intros o Ho. rewrite reported_app, Ho. reflexivity. }
    destruct (left_at (fst r) todo) as [|k] eqn:K.
    - unfold evaluate_hits. destruct (ids_eval_defined (predicate_hits s1) e [0] W) as [h Hh]. rewrite Hh.
      set (delta := b_diff ops h (hits s1)). set (h' := if any_one ops delta then b_or ops (hits s1) delta else hits s1).
      assert (H' : forall i, bit h' i = bit (hits s) i || bit h i).
      { intros i. unfold h'. assert (D : bit delta i = bit h i && negb (bit (hits s) i)) by (unfold delta; now rewrite (bit_diff ops content laws)).
        destruct (any_one ops delta) eqn:Q.
        - rewrite (bit_or ops content laws), D. cbn [hits s1]. destruct (bit (hits s) i), (bit h i); reflexivity.
        - pose proof (any_one_none _ Q i) as Z. rewrite D in Z. cbn [hits s1]. destruct (bit (hits s) i), (bit h i); try reflexivity; discriminate. }
      unfold decrement_pending. cbn [pending s1]. rewrite I1. cbn [length].
      eexists. split; [reflexivity|]. cbn [predicate_hits hits delivered pending]. split; [|now destruct todo].
      split; [|split; [exact M|split]]; cbn [predicate_hits hits delivered pending]; [reflexivity| |].
      + intros -> _ P i T. rewrite H'. apply orb_true_iff. right.
        rewrite (ids_eval_truth _ _ _ _ P Hh). rewrite (truth_ext _ (reported (done ++ [r]) i)); [exact T|apply R].
      + intros P i H. rewrite H' in H. apply orb_true_iff in H as [H|H]; [now apply Mono|].
        rewrite (ids_eval_truth _ _ _ _ P Hh) in H. rewrite (truth_ext _ (reported (done ++ [r]) i)) in H; [exact H|apply R].
    - unfold decrement_pending. cbn [pending s1]. rewrite I1. cbn [length].
      assert (todo <> []) as N0 by (intros ->; cbn in K; discriminate).
      eexists. split; [reflexivity|]. cbn [predicate_hits hits delivered pending]. split; [|destruct todo; [contradiction|reflexivity]].
      split; [|split; [exact M|split]]; cbn [predicate_hits hits delivered pending]; [reflexivity| |].
      + intros ->. contradiction.
      + exact Mono.
  Qed.

  Lemma handle_all_inv : forall e todo s done, inhabited_expr e = true -> inv e s done todo ->
    exists s', handle_all ops e s todo = Some s' /\ inv e s' (done ++ todo) [] /\
      delivered s' = match todo with [] => delivered s | _ => delivered s ++ [hits s'] end.
  Proof.
    intros e. induction todo as [|r todo IH]; intros s done W I; cbn [handle_all].
    - exists s. rewrite app_nil_r. auto.
    - destruct (handle_inv e s done r todo W I) as (s1 & -> & I1 & D1).
      destruct (IH s1 (done ++ [r]) W I1) as (s2 & H2 & I2 & D2). rewrite <- app_assoc in I2. cbn [app] in I2.
      exists s2. split; [exact H2|]. split; [exact I2|]. rewrite D2. destruct todo as [|r' todo].
      + injection H2 as <-. exact D1.
      + now rewrite D1.
  Qed.
  Lemma handle_prefix_inv : forall e done todo s before, inhabited_expr e = true -> inv e s before (done ++ todo) -> todo <> [] ->
    exists s', handle_all ops e s done = Some s' /\ inv e s' (before ++ done) todo /\ delivered s' = delivered s.
  Proof.
    intros e. induction done as [|r done IH]; intros todo s before W I N; cbn [handle_all].
    - exists s. rewrite app_nil_r. auto.
    - cbn [app] in I. destruct (handle_inv e s before r (done ++ todo) W I) as (s1 & -> & I1 & D1).
      destruct (IH todo s1 (before ++ [r]) W I1 N) as (s2 & H2 & I2 & D2). rewrite <- app_assoc in I2. cbn [app] in I2.
      exists s2. split; [exact H2|]. split; [exact I2|]. rewrite D2, D1. destruct (done ++ todo) eqn:E; [|reflexivity].
      apply app_eq_nil in E as [_ E]. contradiction.
  Qed.
End Evaluator.
