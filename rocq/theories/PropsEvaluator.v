(** C22: partition evaluation is independent of the order of responses.
    C42: evaluating an expression over ID sets agrees with evaluating it on each row.
    C21: removing meta predicates before the candidate check. *)
From Coq Require Import List ZArith NArith Lia Bool Arith Permutation.
From Verif Require Import BitmapOps OperatorModel AddressModel DataModel TypeModel TypeProofs ExpressionModel ExpressionProofs
  EvaluatorModel EvaluatorProofs TableSliceModel TableSliceProofs TailorProofs PropsData PropsTableSlice.
Import ListNotations.
Open Scope nat_scope.

(** * C22 *)

Section Evaluator.
  Context {B : Type} (ops : bitmap_ops B) (content : B -> list bool).
  Context (laws : bitmap_laws ops content).

  (** [rs] are the responses in the order of their arrival, one per request and in any
      order. Each is an ID set or an error. The evaluation delivers exactly one answer,
      whatever the expression is. *)
  Theorem C22_once : forall e positions rs, inhabited_expr e = true -> positions <> [] ->
    Permutation positions (map fst rs) ->
    exists s h, handle_all ops e (start ops positions) rs = Some s /\ delivered s = [h] /\ pending s = 0.
  Proof.
    intros e ps rs W N P. destruct (handle_all_inv ops content laws e rs (start ops ps) [] W (start_inv ops content laws e ps rs P W)) as (s & H & I & D).
    exists s, (hits s). split; [exact H|]. split; [|apply I]. rewrite D. destruct rs as [|r rs].
    - apply Permutation_sym, Permutation_nil in P. contradiction.
    - cbn [start delivered]. destruct ps; [contradiction|reflexivity].
  Qed.
  (** It does not deliver anything before the last response. *)
  Theorem C22_not_before : forall e positions rs rest, inhabited_expr e = true -> rest <> [] ->
    Permutation positions (map fst (rs ++ rest)) ->
    exists s, handle_all ops e (start ops positions) rs = Some s /\ delivered s = [] /\ pending s = length rest.
  Proof.
    intros e ps rs rest W N P.
    destruct (handle_prefix_inv ops content laws e rs rest (start ops ps) [] W (start_inv ops content laws e ps (rs ++ rest) P W) N) as (s & H & I & D).
    exists s. split; [exact H|]. split; [|apply I]. rewrite D. cbn [start delivered]. destruct ps; [|reflexivity].
    apply Permutation_length in P. rewrite map_length, app_length in P. destruct rest; [contradiction|]. cbn in P. lia.
  Qed.
  (** Without negations, which normalised queries do not have, an ID is in the answer
      exactly if the expression is true when a predicate counts as true for an ID that
      some response to it contains. *)
  Theorem C22_answer : forall e positions rs, inhabited_expr e = true -> positive e = true -> positions <> [] ->
    Permutation positions (map fst rs) ->
    exists s h, handle_all ops e (start ops positions) rs = Some s /\ delivered s = [h] /\
      forall i, bit content h i =
        truth (fun o => existsb (fun r => eqs Nat.eqb (fst r) o && match snd r with Some x => bit content x i | None => false end) rs) [0] e.
  Proof.
    intros e ps rs W Q N P. destruct (handle_all_inv ops content laws e rs (start ops ps) [] W (start_inv ops content laws e ps rs P W)) as (s & H & I & D).
    exists s, (hits s). split; [exact H|]. assert (rs <> []) as R.
    { intros ->. apply Permutation_sym, Permutation_nil in P. contradiction. }
    split.
    - rewrite D. destruct rs; [contradiction|]. cbn [start delivered]. destruct ps; [contradiction|reflexivity].
    - intros i. destruct I as (_ & _ & I3 & I4). cbn [app] in *. specialize (I3 eq_refl R Q i). specialize (I4 Q i).
      change (bit content (hits s) i = truth (reported content rs i) [0] e). apply eq_true_iff_eq. split; assumption.
  Qed.
  (** Two orders of arrival give the same answer. *)
  Theorem C22_order : forall e positions rs rs', inhabited_expr e = true -> positive e = true -> positions <> [] ->
    Permutation positions (map fst rs) -> Permutation rs rs' ->
    exists s s' h h', handle_all ops e (start ops positions) rs = Some s /\ handle_all ops e (start ops positions) rs' = Some s' /\
      delivered s = [h] /\ delivered s' = [h'] /\ forall i, bit content h i = bit content h' i.
  Proof.
    intros e ps rs rs' W Q N P R.
    destruct (C22_answer e ps rs W Q N P) as (s & h & H1 & H2 & H3).
    destruct (C22_answer e ps rs' W Q N) as (s' & h' & H1' & H2' & H3').
    { eapply Permutation_trans; [exact P|]. now apply Permutation_map. }
    exists s, s', h, h'. repeat (split; [assumption|]). intros i. rewrite H3, H3'. apply truth_ext. intros o.
    exact (reported_perm content rs rs' R i o).
  Qed.

  (** * C42 *)

  (** If the set recorded for the predicate at every position contains the IDs for which
      the predicate is true, the evaluator computes the IDs for which the expression is
      true. *)
  Theorem C42_positive : forall (m : list (list nat * (nat * B))) e v, inhabited_expr e = true -> positive e = true ->
    (forall o p, expr_at e o = Some (EPred p) -> hd 0 o = 0 -> exists k x, find_hits m o = Some (k, x) /\ forall i, bit content x i = v i p) ->
    exists r, ids_eval ops m [0] e = Some r /\ forall i, bit content r i = holds (v i) e.
  Proof.
    intros m e v W Q H. destruct (ids_eval_defined ops m e [0] W) as [r Hr]. exists r. split; [exact Hr|]. intros i.
    rewrite (ids_eval_truth ops content laws m e [0] r Q Hr). apply truth_holds. intros q p Hq.
    destruct (H (0 :: q) p) as (k & x & F & V).
    - destruct q as [|j q]; [now injection Hq as ->|exact Hq].
    - reflexivity.
    - unfold recorded. cbn [app]. rewrite F. apply V.
  Qed.
  (** With negations the same holds for the first [n] IDs if every set has length [n]. *)
  Theorem C42_negations : forall (m : list (list nat * (nat * B))) n e v, inhabited_expr e = true -> complete e = true ->
    (forall o p, expr_at e o = Some (EPred p) -> hd 0 o = 0 -> exists k x, find_hits m o = Some (k, x) /\ len content x = n /\
       forall i, i < n -> bit content x i = v i p) ->
    exists r, ids_eval ops m [0] e = Some r /\ len content r = n /\ forall i, i < n -> bit content r i = holds (v i) e.
  Proof.
    intros m n e v W C H. destruct (ids_eval_defined ops m e [0] W) as [r Hr]. exists r. split; [exact Hr|].
    assert (H' : forall q p, descend_expr e q = Some (EPred p) -> exists k x, find_hits m ([0] ++ q) = Some (k, x) /\ len content x = n /\
       forall i, i < n -> bit content x i = v i p).
    { intros q p Hq. apply H; [|reflexivity]. destruct q as [|j q]; [now injection Hq as ->|exact Hq]. }
    destruct (ids_eval_truth_sized ops content laws m n e [0] r C) as [L T]; [|exact Hr|].
    { intros q p Hq. destruct (H' q p Hq) as (k & x & F & Lx & _). eauto. }
    split; [exact L|]. intros i Hi. rewrite (T i Hi). apply truth_holds. intros q p Hq.
    destruct (H' q p Hq) as (k & x & F & _ & V). unfold recorded. rewrite F. now apply V.
  Qed.
End Evaluator.

(** The rows of a slice: ID sets that are right for every predicate lead to the same IDs
    as evaluating the expression on each row. *)
Theorem C42_rows : forall {B} (ops : bitmap_ops B) content, bitmap_laws ops content ->
  forall re s o e (m : list (list nat * (nat * B))), s_offset s = Some o ->
  inhabited_expr e = true -> positive e = true -> Forall (fun r => evaluable re (s_layout s) r e) (s_rows s) ->
  (forall q p, expr_at e q = Some (EPred p) -> hd 0 q = 0 -> exists k x, find_hits m q = Some (k, x) /\
     forall i row, In (i, row) (events s) -> row_pred re (s_layout s) row p = Some (bit content x i)) ->
  exists hits rows, ids_eval ops m [0] e = Some hits /\ evaluate_slice re e s = Some rows /\
    forall i row, In (i, row) (events s) -> bit content hits i = in_ids rows i.
Proof.
  intros B ops content laws re s o e m O W Q Ev H.
  destruct (C20_evaluate re s o e O Ev) as (ids & E & _ & I).
  destruct (ids_eval_defined ops m e [0] W) as [r Hr]. exists r, ids. split; [exact Hr|]. split; [exact E|].
  intros i row Hi. rewrite (ids_eval_truth ops content laws m e [0] r Q Hr), I.
  assert (T : truth (recorded content m i) [0] e = holds (row_truth re (s_layout s) row) e).
  { apply truth_holds. intros q p Hq. destruct (H (0 :: q) p) as (k & x & F & V).
    - destruct q as [|j q]; [now injection Hq as ->|exact Hq].
    - reflexivity.
    - unfold recorded. cbn [app]. rewrite F. specialize (V i row Hi). unfold row_truth. now rewrite V. }
  rewrite T. apply eq_true_iff_eq. rewrite existsb_exists. split.
  - intros Hh. exists (i, row). split; [exact Hi|]. cbn [fst snd]. now rewrite Nat.eqb_refl.
  - intros ((j & row') & Hj & Hh). cbn [fst snd] in Hh. apply andb_true_iff in Hh as [Hji Hh]. apply Nat.eqb_eq in Hji. subst j.
    assert (row' = row) as ->; [|exact Hh]. unfold events in *. rewrite O in *.
    apply in_numbered in Hi as [_ Hi]. apply in_numbered in Hj as [_ Hj]. congruence.
Qed.

(** [p && (q || r)] with positions, and responses to it. *)
Definition pq (c : N) : expr := EPred {| p_lhs := OField [c]; p_op := op_eq; p_rhs := OVal (DCount 1) |}.
Definition sample_e : expr := EAnd [pq 112; EOr [pq 113; pq 114]].
Definition sample_rs : list (list nat * option (list bool)) :=
  [([0; 1; 1], None); ([0; 0], Some [false; true; true]); ([0; 1; 0], Some [true; true]); ([0; 0], Some [false; false; false; true]);
   ([0; 1; 1], Some [true; false; false; true])].
Definition sample_positions : list (list nat) := [[0; 0]; [0; 0]; [0; 1; 0]; [0; 1; 1]; [0; 1; 1]].
Example C22_example : inhabited_expr sample_e = true /\ positive sample_e = true /\
  Permutation sample_positions (map fst sample_rs) /\
  option_map (delivered (B := list bool)) (handle_all list_ops sample_e (start list_ops sample_positions) sample_rs) = Some [[false; true; false; true]].
Proof.
  split; [reflexivity|]. split; [reflexivity|]. split; [|vm_compute; reflexivity].
  cbn. apply (perm_trans (l' := [[0; 0]; [0; 0]; [0; 1; 1]; [0; 1; 0]; [0; 1; 1]])).
  - do 2 apply perm_skip. apply perm_swap.
  - apply (perm_trans (l' := [[0; 0]; [0; 1; 1]; [0; 0]; [0; 1; 0]; [0; 1; 1]])).
    + apply perm_skip, perm_swap.
    + apply (perm_trans (l' := [[0; 1; 1]; [0; 0]; [0; 0]; [0; 1; 0]; [0; 1; 1]])); [apply perm_swap|].
      do 2 apply perm_skip. apply perm_swap.
Qed.
Definition sample_map : list (list nat * (nat * list bool)) := [([0; 0], (0, [true; true; false])); ([0; 1; 0], (0, [true; false; true])); ([0; 1; 1], (0, [false; false; true]))].
Example C42_example : ids_eval list_ops sample_map [0] sample_e = Some [true; false; false] /\
  ids_eval list_ops sample_map [0] (EOr [EPred {| p_lhs := OField []; p_op := op_eq; p_rhs := OVal DNone |}; ENot (EOr [pq 113; pq 114])]) = Some [true; true; false] /\
  (forall o p, expr_at sample_e o = Some (EPred p) -> hd 0 o = 0 -> exists k x, find_hits sample_map o = Some (k, x) /\ length x = 3).
Proof.
  split; [reflexivity|]. split; [reflexivity|]. intros [|[|o] [|[|[|i]] [|[|[|j]] [|k q]]]] p H Z; try discriminate;
    try (destruct i; discriminate); try (destruct j; discriminate); try (cbn; eauto).
Qed.

(** The answer for EWAH bitmaps, which is what the code uses. *)
Theorem C22_ewah : forall e positions rs rs', inhabited_expr e = true -> positive e = true -> positions <> [] ->
  Permutation positions (map fst rs) -> Permutation rs rs' ->
  exists s s' h h', handle_all ewah_ops e (start ewah_ops positions) rs = Some s /\ handle_all ewah_ops e (start ewah_ops positions) rs' = Some s' /\
    delivered s = [h] /\ delivered s' = [h'] /\ forall i, bit ebm_content h i = bit ebm_content h' i.
Proof. exact (C22_order ewah_ops ebm_content ewah_laws). Qed.

(** ** What does not hold *)

(** With a negation, an ID can be in the answer or not depending on the order in which
    the same responses arrive: hits of an incomplete evaluation are never taken back. *)
Theorem C22_negation_refuted : exists e positions rs rs' s s', inhabited_expr e = true /\ complete e = true /\
  Permutation positions (map fst rs) /\ Permutation rs rs' /\
  handle_all list_ops e (start list_ops positions) rs = Some s /\ handle_all list_ops e (start list_ops positions) rs' = Some s' /\
  delivered s = [[true]] /\ delivered s' = [[]].
Proof.
  exists (ENot (EOr [pq 112; pq 113])), [[0; 0; 0]; [0; 0; 1]], [([0; 0; 0], Some [false]); ([0; 0; 1], Some [true])],
    [([0; 0; 1], Some [true]); ([0; 0; 0], Some [false])].
  do 2 eexists. split; [reflexivity|]. split; [reflexivity|]. split; [apply Permutation_refl|]. split; [apply perm_swap|].
  split; [vm_compute; reflexivity|]. split; [vm_compute; reflexivity|]. split; reflexivity.
Qed.
(** The negation of a predicate without any responses finds nothing, although the
    predicate is false for every ID. *)
Theorem C42_negation_refuted : exists e, inhabited_expr e = true /\ complete e = true /\
  ids_eval list_ops [] [0] e = Some [] /\ holds (fun _ => false) e = true.
Proof. exists (ENot (pq 112)). repeat split. Qed.

(** * C21 *)

(** No meta extractor in the expression. *)
Fixpoint meta_free (e : expr) : bool :=
  match e with
  | ENone => true
  | EAnd es | EOr es => forallb meta_free es
  | ENot x => meta_free x
  | EPred p => negb (is_meta (p_lhs p) || is_meta (p_rhs p))
  end.
(** Meta extractors only below conjunctions. *)
Fixpoint meta_conjunctive (e : expr) : bool :=
  match e with
  | EAnd es => forallb meta_conjunctive es
  | EPred _ => true
  | _ => meta_free e
  end.
(** The check on the remaining expression; nothing remains if there were only meta
    predicates, and then every row passes. *)
Definition check (v : predicate -> bool) (e : expr) : bool := match e with ENone => true | _ => holds v e end.

Lemma prune_list_forall : forall con es, con = EAnd \/ con = EOr -> Forall (fun e => e <> ENone) es -> es <> [] ->
  prune_list con es <> ENone /\ forall v, holds v (prune_list con es) = holds v (con es).
Proof.
  intros con es C H N. unfold prune_list. assert (F : filter (fun e => negb (is_none e)) es = es).
  { apply filter_all. intros x Hx. rewrite Forall_forall in H. specialize (H x Hx). now destruct x. }
  rewrite F. destruct es as [|x [|y es]]; [contradiction| |].
  - split; [now inversion H|]. intros v. destruct C as [-> | ->]; cbn; now rewrite ?andb_true_r, ?orb_false_r.
  - split; [destruct C as [-> | ->]; discriminate|reflexivity].
Qed.
Lemma prune_meta_free : forall e, meta_free e = true -> complete e = true -> inhabited_expr e = true ->
  prune_meta e <> ENone /\ forall v, holds v (prune_meta e) = holds v e.
Proof.
  induction e as [|es IH|es IH|e IH|p] using expr_rect'; intros M C W; cbn [meta_free complete inhabited_expr prune_meta] in *.
  - discriminate.
  - apply andb_true_iff in W as [W1 W2]. rewrite forallb_forall in M, C, W2. rewrite Forall_forall in IH.
    assert (G : Forall (fun e => e <> ENone) (map prune_meta es)).
    { apply Forall_map. apply Forall_forall. intros x Hx. apply (IH x Hx); auto. }
    destruct (prune_list_forall EAnd (map prune_meta es) (or_introl eq_refl) G) as [A1 A2]; [destruct es; discriminate|].
    split; [exact A1|]. intros v. rewrite A2. cbn [holds]. rewrite forallb_map'. apply forallb_ext'. apply Forall_forall. intros x Hx. apply IH; auto.
  - apply andb_true_iff in W as [W1 W2]. rewrite forallb_forall in M, C, W2. rewrite Forall_forall in IH.
    assert (G : Forall (fun e => e <> ENone) (map prune_meta es)).
    { apply Forall_map. apply Forall_forall. intros x Hx. apply (IH x Hx); auto. }
    destruct (prune_list_forall EOr (map prune_meta es) (or_intror eq_refl) G) as [A1 A2]; [destruct es; discriminate|].
    split; [exact A1|]. intros v. rewrite A2. cbn [holds]. rewrite existsb_map'. apply existsb_ext''. apply Forall_forall. intros x Hx. apply IH; auto.
  - destruct (IH M C W) as [A1 A2]. destruct (prune_meta e) eqn:E; try contradiction; (split; [discriminate|]); intros v; specialize (A2 v); cbn [holds] in *; now rewrite A2.
  - apply negb_true_iff in M. rewrite M. split; [discriminate|reflexivity].
Qed.

Lemma check_prune_list : forall v es, Forall (fun e => True) es ->
  check v (prune_list EAnd es) = forallb (check v) es.
Proof.
  intros v es _. unfold prune_list.
  assert (F : forallb (check v) es = forallb (check v) (filter (fun e => negb (is_none e)) es)).
  { induction es as [|x es IH]; [reflexivity|]. cbn [filter forallb]. rewrite IH. destruct x; reflexivity. }
  assert (G : Forall (fun e => is_none e = false) (filter (fun e => negb (is_none e)) es)).
  { apply Forall_forall. intros x Hx. apply filter_In in Hx as [_ Hx]. now apply negb_true_iff. }
  rewrite F. clear F. destruct (filter (fun e => negb (is_none e)) es) as [|x [|y l]]; [reflexivity|cbn; now rewrite andb_true_r|].
  cbn [check holds]. apply forallb_ext'. eapply Forall_impl; [|exact G]. intros z Hz. destruct z; [discriminate|reflexivity..].
Qed.

(** If meta extractors occur only below conjunctions and the index has answered them
    ([w] agrees with [v] on meta predicates and the expression is true under [w]), the
    check of the pruned expression gives the truth of the whole expression. *)
Theorem C21_conjunctive : forall v w e, meta_conjunctive e = true -> complete e = true -> inhabited_expr e = true ->
  (forall p, is_meta (p_lhs p) || is_meta (p_rhs p) = true -> w p = v p) -> holds w e = true ->
  check v (prune_meta e) = holds v e.
Proof.
  intros v w e M C W E. revert M C W.
  induction e as [|es IH|es IH|e IH|p] using expr_rect'; intros M C W H.
  - discriminate.
  - cbn [prune_meta]. rewrite check_prune_list by (apply Forall_forall; auto). cbn [meta_conjunctive complete inhabited_expr holds] in *.
    apply andb_true_iff in W as [_ W]. rewrite forallb_forall in M, C, W, H. rewrite Forall_forall in IH.
    rewrite forallb_map'. apply forallb_ext'. apply Forall_forall. intros x Hx. apply IH; auto.
  - destruct (prune_meta_free (EOr es) M C W) as [A1 A2]. unfold check. destruct (prune_meta (EOr es)); [contradiction|apply A2..].
  - destruct (prune_meta_free (ENot e) M C W) as [A1 A2]. unfold check. destruct (prune_meta (ENot e)); [contradiction|apply A2..].
  - cbn [prune_meta]. destruct (is_meta (p_lhs p) || is_meta (p_rhs p)) eqn:Q; [|reflexivity].
    cbn [check holds] in *. now rewrite <- (E p Q).
Qed.
(** Without meta extractors pruning changes nothing, on any row. *)
Theorem C21_meta_free : forall v e, meta_free e = true -> complete e = true -> inhabited_expr e = true ->
  check v (prune_meta e) = holds v e.
Proof.
  intros v e M C W. destruct (prune_meta_free e M C W) as [A1 A2]. unfold check. destruct (prune_meta e); [contradiction|apply A2..].
Qed.
(** What remains has no meta extractors. *)
Theorem C21_removes_meta : forall e, meta_free (prune_meta e) = true.
Proof.
  assert (P : forall con es, con = EAnd \/ con = EOr -> Forall (fun e => meta_free e = true) es -> meta_free (prune_list con es) = true).
  { intros con es Cn H. unfold prune_list.
    assert (F : Forall (fun e => meta_free e = true) (filter (fun e => negb (is_none e)) es)).
    { rewrite Forall_forall in *. intros x Hx. apply filter_In in Hx as [Hx _]. auto. }
    destruct (filter (fun e => negb (is_none e)) es) as [|x [|y l]]; [reflexivity|now inversion F|].
    destruct Cn as [-> | ->]; cbn [meta_free]; apply forallb_forall; now apply Forall_forall. }
  induction e as [|es IH|es IH|e IH|p] using expr_rect'; cbn [prune_meta].
  - reflexivity.
  - apply P; [now left|]. now apply Forall_map.
  - apply P; [now right|]. now apply Forall_map.
  - destruct (prune_meta e); cbn [meta_free] in *; auto.
  - destruct (is_meta (p_lhs p) || is_meta (p_rhs p)) eqn:Q; [reflexivity|]. cbn [meta_free]. now rewrite Q.
Qed.

(** * The positions the evaluator is asked about *)

Lemma resolve_positions_spec : forall glob t e base ps, resolve_positions glob t base e = ok ps -> forall o q,
  In (o, q) ps <-> exists below p r, o = base ++ below /\ descend_expr e below = Some (EPred p) /\
    resolve_pred glob t p = ok r /\ In q (predicatize r).
Proof.
  intros glob t.
  assert (C : forall es, Forall (fun e => forall base ps, resolve_positions glob t base e = ok ps -> forall o q,
      In (o, q) ps <-> exists below p r, o = base ++ below /\ descend_expr e below = Some (EPred p) /\
        resolve_pred glob t p = ok r /\ In q (predicatize r)) es ->
    forall i base ps, resolve_children (resolve_positions glob t) base i es = ok ps -> forall o q,
    In (o, q) ps <-> exists j below p r e, nth_error es j = Some e /\ o = base ++ (i + j) :: below /\ descend_expr e below = Some (EPred p) /\
        resolve_pred glob t p = ok r /\ In q (predicatize r)).
  { intros es H. induction H as [|e es He _ IH]; intros i base ps E o q; cbn [resolve_children] in E.
    - injection E as <-. split; [intros []|]. intros ([|j] & below & p & r & e & A & _); discriminate A.
    - destruct (resolve_positions glob t (base ++ [i]) e) as [a| |] eqn:Ea; try discriminate. cbn [res_bind] in E.
      destruct (resolve_children (resolve_positions glob t) base (S i) es) as [b| |] eqn:Eb; try discriminate. cbn [res_bind] in E.
      injection E as <-. rewrite in_app_iff, (He _ _ Ea), (IH _ _ _ Eb). split.
      + intros [(below & p & r & A & B)|(j & below & p & r & x & A & B & D)].
        * exists 0, below, p, r, e. split; [reflexivity|]. split; [now rewrite A, <- app_assoc, Nat.add_0_r|exact B].
        * exists (S j), below, p, r, x. split; [exact A|]. split; [now rewrite B, Nat.add_succ_comm|exact D].
      + intros ([|j] & below & p & r & x & A & B & D).
        * left. injection A as <-. exists below, p, r. split; [now rewrite B, <- app_assoc, Nat.add_0_r|exact D].
        * right. exists j, below, p, r, x. split; [exact A|]. split; [now rewrite B, Nat.add_succ_comm|exact D]. }
  induction e as [|es IH|es IH|e IH|p] using expr_rect'; intros base ps E o q; cbn [resolve_positions] in E.
  - discriminate.
  - rewrite (C es IH 0 base ps E). split.
    + intros (j & below & p & r & x & A & B & D). exists (j :: below), p, r. split; [exact B|]. cbn [descend_expr child]. rewrite A. exact D.
    + intros ([|j below] & p & r & A & B & D); [discriminate B|]. cbn [descend_expr child] in B.
      destruct (nth_error es j) as [x|] eqn:X; [|discriminate]. exists j, below, p, r, x. auto.
  - rewrite (C es IH 0 base ps E). split.
    + intros (j & below & p & r & x & A & B & D). exists (j :: below), p, r. split; [exact B|]. cbn [descend_expr child]. rewrite A. exact D.
    + intros ([|j below] & p & r & A & B & D); [discriminate B|]. cbn [descend_expr child] in B.
      destruct (nth_error es j) as [x|] eqn:X; [|discriminate]. exists j, below, p, r, x. auto.
  - rewrite (IH _ _ E). split.
    + intros (below & p & r & A & B). exists (0 :: below), p, r. split; [now rewrite A, <- app_assoc|exact B].
    + intros ([|[|j] below] & p & r & A & B & D); try discriminate B. exists below, p, r. split; [now rewrite A, <- app_assoc|]. split; [exact B|exact D].
  - destruct (resolve_pred glob t p) as [r| |] eqn:R; try discriminate. cbn [res_bind] in E. injection E as <-. rewrite in_map_iff. split.
    + intros (x & A & B). injection A as <- <-. exists [], p, r. split; [now rewrite app_nil_r|]. split; [reflexivity|]. split; [exact R|exact B].
    + intros ([|j below] & p' & r' & A & B & D & F); [|discriminate B]. injection B as <-. rewrite R in D. injection D as <-.
      exists q. split; [|exact F]. now rewrite A, app_nil_r.
Qed.
(** The evaluator asks for every predicate that a predicate of the query turns into, at
    the position of that predicate, and for nothing else. *)
Theorem C22_positions : forall glob t e ps, resolve_positions glob t [0] e = ok ps -> forall o q,
  In (o, q) ps <-> exists p r, hd 1 o = 0 /\ expr_at e o = Some (EPred p) /\ resolve_pred glob t p = ok r /\ In q (predicatize r).
Proof.
  intros glob t e ps E o q. rewrite (resolve_positions_spec _ _ _ _ _ E). split.
  - intros (below & p & r & A & B & D). exists p, r. subst o. split; [reflexivity|]. split; [|exact D].
    destruct below as [|j below]; exact B.
  - intros (p & r & A & B & D). destruct o as [|[|k] below]; try discriminate A. exists below, p, r. split; [reflexivity|].
    split; [|exact D]. destruct below as [|j below]; exact B.
Qed.
Example C22_positions_example :
  resolve exact_name (EAnd [pq 97; ENot (EOr [pq 98; pq 120])]) (TRecord (la_meta two_columns) (la_fields two_columns)) <> ub /\
  resolve_positions exact_name (TRecord no_meta [([97%N], TBasic no_meta BCount); ([98%N], TBasic no_meta BCount)]) [0]
    (EAnd [pq 97; ENot (EOr [pq 98; pq 120])]) =
  ok [([0; 0], {| p_lhs := OData (TBasic no_meta BCount) [0]; p_op := op_eq; p_rhs := OVal (DCount 1) |});
      ([0; 1; 0; 0], {| p_lhs := OData (TBasic no_meta BCount) [1]; p_op := op_eq; p_rhs := OVal (DCount 1) |})].
Proof. split; [vm_compute; discriminate|]. vm_compute. reflexivity. Qed.

(** [#type == "A" && x == 1]. *)
Definition type_is : expr := EPred {| p_lhs := OMeta MType; p_op := op_eq; p_rhs := OVal (DString [65%N]) |}.
Example C21_example : meta_conjunctive (EAnd [type_is; EOr [pq 120; pq 121]]) = true /\
  prune_meta (EAnd [type_is; EOr [pq 120; pq 121]]) = EOr [pq 120; pq 121] /\ prune_meta (EAnd [type_is; type_is]) = ENone /\
  holds (fun _ => true) (EAnd [type_is; EOr [pq 120; pq 121]]) = true.
Proof. repeat split. Qed.

(** A meta predicate below a disjunction is lost: an event of type A that the index
    returns for [#type == "A" || x == 1] is dropped by the check. *)
Theorem C21_disjunction_refuted : exists e v, complete e = true /\ inhabited_expr e = true /\ positive e = true /\
  holds v e = true /\ check v (prune_meta e) = false.
Proof.
  exists (EOr [type_is; pq 120]), (fun p => is_meta (p_lhs p)). repeat split.
Qed.

Definition assumptions_evaluator := (@C22_once, @C22_not_before, @C22_answer, @C22_order, C22_ewah, C22_positions, C22_negation_refuted,
  @C42_positive, @C42_negations, @C42_rows, C42_negation_refuted, C21_conjunctive, C21_meta_free, C21_removes_meta, C21_disjunction_refuted).
Print Assumptions assumptions_evaluator.
