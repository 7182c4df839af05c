(** Proofs about table slices (TableSliceModel.v). *)
From Coq Require Import List ZArith NArith Lia Bool Arith ZifyBool ZifyNat.
From Verif Require Import OperatorModel AddressModel DataModel TypeModel TypeProofs ExpressionModel ExpressionProofs TableSliceModel.
Import ListNotations.
Open Scope nat_scope.

(** * Specification: the events of a slice *)

(** Rows numbered from [o]. *)
Definition numbered (o : nat) (rows : list (list data)) : list (nat * list data) := combine (seq o (length rows)) rows.
(** The events of a slice with an offset: IDs and rows. *)
Definition events (s : slice) : list (nat * list data) :=
  match s_offset s with Some o => numbered o (s_rows s) | None => [] end.
(** Membership in an ID set. *)
Definition in_ids (ids : list bool) (i : nat) : bool := nth i ids false.

(** * ID sets *)

Lemma ones_from_filter : forall l k, ones_from k l = filter (fun i => nth (i - k) l false) (seq k (length l)).
Proof.
  induction l as [|b l IH]; intros k; [reflexivity|]. cbn [ones_from length seq filter]. rewrite Nat.sub_diag. cbn [nth].
  rewrite IH. assert (E : filter (fun i => nth (i - S k) l false) (seq (S k) (length l)) = filter (fun i => nth (i - k) (b :: l) false) (seq (S k) (length l))).
  { apply filter_ext_in. intros i Hi. apply in_seq in Hi. replace (i - k) with (S (i - S k)) by lia. reflexivity. }
  rewrite E. now destruct b.
Qed.
Lemma ones_filter : forall l, ones l = filter (in_ids l) (seq 0 (length l)).
Proof. intros l. unfold ones. rewrite ones_from_filter. apply filter_ext. intros i. unfold in_ids. now rewrite Nat.sub_0_r. Qed.

Lemma nth_map_false : forall A (l : list A) i, nth i (map (fun _ => false) l) false = false.
Proof. intros A. induction l as [|x l IH]; intros [|i]; cbn; auto. Qed.
Lemma and_bits_nth : forall x y i, in_ids (and_bits x y) i = in_ids x i && in_ids y i.
Proof.
  unfold in_ids. induction x as [|a x IH]; intros y i.
  - destruct y as [|b y]; cbn [and_bits]; [now destruct i|]. rewrite nth_map_false. now destruct i.
  - destruct y as [|b y]; cbn [and_bits].
    + rewrite nth_map_false. destruct i; cbn; now rewrite andb_false_r.
    + destruct i as [|i]; [reflexivity|]. cbn [nth]. apply IH.
Qed.
Lemma and_bits_length : forall x y, length (and_bits x y) = Nat.max (length x) (length y).
Proof.
  induction x as [|a x IH]; intros [|b y]; cbn [and_bits length]; rewrite ?map_length; cbn [length]; auto; try lia.
  rewrite IH. lia.
Qed.
Lemma range_nth : forall o n i, in_ids (repeat false o ++ repeat true n) i = (o <=? i) && (i <? o + n).
Proof.
  intros o n i. unfold in_ids. destruct (Nat.lt_ge_cases i o) as [H|H].
  - rewrite app_nth1 by (rewrite repeat_length; lia). rewrite nth_repeat. lia.
  - rewrite app_nth2 by (rewrite repeat_length; lia). rewrite repeat_length.
    destruct (Nat.lt_ge_cases (i - o) n) as [G|G].
    + rewrite nth_indep with (d' := true) by (rewrite repeat_length; lia). rewrite nth_repeat. lia.
    + rewrite nth_overflow by (rewrite repeat_length; lia). lia.
Qed.

Lemma filter_none : forall A (f : A -> bool) l, (forall x, In x l -> f x = false) -> filter f l = [].
Proof.
  intros A f. induction l as [|x l IH]; intros H; [reflexivity|]. cbn. rewrite (H x) by now left. apply IH. intros y Hy. apply H. now right.
Qed.
Lemma filter_all : forall A (f : A -> bool) l, (forall x, In x l -> f x = true) -> filter f l = l.
Proof.
  intros A f. induction l as [|x l IH]; intros H; [reflexivity|]. cbn. rewrite (H x) by now left. f_equal. apply IH. intros y Hy. apply H. now right.
Qed.
(** The ones of a set whose members lie in a range. *)
Lemma ones_range : forall l o n f, o + n <= length l ->
  (forall i, in_ids l i = (o <=? i) && (i <? o + n) && f i) -> ones l = filter f (seq o n).
Proof.
  intros l o n f L H. rewrite ones_filter.
  replace (length l) with (o + (n + (length l - o - n))) by lia. rewrite !seq_app, !filter_app.
  rewrite (filter_none _ _ (seq 0 o)), (filter_none _ _ (seq (0 + o + n) _)), app_nil_r; cbn [app].
  - apply filter_ext_in. intros i Hi. apply in_seq in Hi. rewrite H.
    assert ((o <=? i) = true) as -> by lia. assert ((i <? o + n) = true) as -> by lia. reflexivity.
  - intros i Hi. apply in_seq in Hi. rewrite H. assert ((i <? o + n) = false) as -> by lia. now rewrite andb_false_r.
  - intros i Hi. apply in_seq in Hi. rewrite H. assert ((o <=? i) = false) as -> by lia. reflexivity.
Qed.
Lemma ones_and_range : forall sel o n, ones (and_bits sel (repeat false o ++ repeat true n)) = filter (in_ids sel) (seq o n).
Proof.
  intros sel o n. apply ones_range.
  - rewrite and_bits_length, app_length, !repeat_length. lia.
  - intros i. rewrite and_bits_nth, range_nth. apply andb_comm.
Qed.
Lemma ones_range_and : forall sel o n, ones (and_bits (repeat false o ++ repeat true n) sel) = filter (in_ids sel) (seq o n).
Proof.
  intros sel o n. apply ones_range.
  - rewrite and_bits_length, app_length, !repeat_length. lia.
  - intros i. now rewrite and_bits_nth, range_nth.
Qed.
Lemma ones_whole : forall o n, ones (repeat false o ++ repeat true n) = seq o n.
Proof.
  intros o n. rewrite (ones_range _ o n (fun _ => true)).
  - apply filter_all. reflexivity.
  - rewrite app_length, !repeat_length. lia.
  - intros i. rewrite range_nth. now rewrite andb_true_r.
Qed.

Lemma filter_length_all : forall A (f : A -> bool) l, length (filter f l) = length l -> forall x, In x l -> f x = true.
Proof.
  intros A f. induction l as [|x l IH]; intros H y Hy; [contradiction|]. cbn [filter length] in H.
  destruct (f x) eqn:E.
  - cbn [length] in H. destruct Hy as [<-|Hy]; [exact E|]. apply IH; [lia|exact Hy].
  - exfalso. clear -H. assert (length (filter f l) <= length l); [|lia]. clear. induction l as [|z l IH]; [auto|]. cbn. destruct (f z); cbn; lia.
Qed.

(** * Numbered rows *)

Lemma numbered_app : forall a b o, numbered o (a ++ b) = numbered o a ++ numbered (o + length a) b.
Proof.
  unfold numbered. induction a as [|x a IH]; intros b o; cbn [app length seq combine]; [now rewrite Nat.add_0_r|].
  f_equal. rewrite IH. f_equal. f_equal. f_equal. lia.
Qed.
Lemma numbered_length : forall o rows, length (numbered o rows) = length rows.
Proof. intros. unfold numbered. rewrite combine_length, seq_length. lia. Qed.
Lemma numbered_snd : forall o rows, map snd (numbered o rows) = rows.
Proof.
  intros o rows. unfold numbered. revert o. induction rows as [|r rows IH]; intros o; [reflexivity|]. cbn. now rewrite IH.
Qed.
Lemma numbered_fst : forall o rows, map fst (numbered o rows) = seq o (length rows).
Proof.
  intros o rows. unfold numbered. revert o. induction rows as [|r rows IH]; intros o; [reflexivity|]. cbn. now rewrite IH.
Qed.
Lemma filter_map_comm : forall A B (g : A -> B) (f : B -> bool) l, filter f (map g l) = map g (filter (fun x => f (g x)) l).
Proof. intros A B g f. induction l as [|x l IH]; [reflexivity|]. cbn. destruct (f (g x)); cbn; now rewrite IH. Qed.

Lemma filter_seq_numbered : forall f o rows, filter f (seq o (length rows)) = map fst (filter (fun e => f (fst e)) (numbered o rows)).
Proof. intros. rewrite <- (numbered_fst o rows), filter_map_comm. reflexivity. Qed.
Lemma in_numbered : forall o rows i r, In (i, r) (numbered o rows) -> o <= i < o + length rows /\ nth_error rows (i - o) = Some r.
Proof.
  unfold numbered. intros o rows. revert o. induction rows as [|x rows IH]; intros o i r H; [contradiction|].
  cbn [length seq combine] in H. destruct H as [H|H].
  - injection H as <- <-. rewrite Nat.sub_diag. split; [cbn [length]; lia|reflexivity].
  - apply IH in H as [H1 H2]. split; [cbn [length]; lia|]. replace (i - o) with (S (i - S o)) by lia. exact H2.
Qed.

(** * Selecting *)

Definition sel_events (st : selecting) : list (nat * list data) :=
  flat_map events (sel_out st) ++ numbered (sel_first st) (sel_rows st).
Definition good (la : layout) (x : slice) : Prop := s_layout x = la /\ s_rows x <> [] /\ s_offset x <> None.
Definition sel_inv (la : layout) (st : selecting) : Prop :=
  sel_next st = sel_first st + length (sel_rows st) /\ Forall (good la) (sel_out st).

Lemma push_slice_events : forall la st, Forall (good la) (sel_out st) ->
  flat_map events (sel_out (push_slice la st)) = sel_events st /\ Forall (good la) (sel_out (push_slice la st)) /\
  sel_rows (push_slice la st) = [].
Proof.
  intros la st F. unfold push_slice, sel_events. destruct (sel_rows st) as [|r rs] eqn:E.
  - unfold numbered. cbn [length seq combine]. rewrite app_nil_r. auto.
  - cbn [sel_out sel_rows]. rewrite flat_map_app. cbn [flat_map events s_offset s_rows]. rewrite app_nil_r. split; [reflexivity|].
    split; [|reflexivity]. apply Forall_app. split; [exact F|]. constructor; [|constructor]. unfold good. cbn. repeat split; discriminate.
Qed.

Lemma select_loop_events : forall s o ps st, sel_inv (s_layout s) st -> Forall (fun e => In e (numbered o (s_rows s))) ps ->
  exists st', select_loop s o st (map fst ps) = Some st' /\ sel_inv (s_layout s) st' /\ sel_events st' = sel_events st ++ ps.
Proof.
  intros s o. induction ps as [|[i r] ps IH]; intros st [I1 I2] H.
  - exists st. split; [reflexivity|]. split; [split; auto|now rewrite app_nil_r].
  - inversion H as [|? ? H1 H2]; subst. apply in_numbered in H1 as [H1 H3].
    cbn [map fst select_loop]. unfold select_step. assert ((i <? o) = false) as -> by lia. rewrite H3.
    destruct (Nat.eqb_spec (sel_next st) i) as [E|E]; cbn [sel_rows sel_first sel_next sel_out].
    + destruct (IH {| sel_rows := sel_rows st ++ [r]; sel_first := sel_first st; sel_next := S (sel_next st); sel_out := sel_out st |})
        as (st' & S1 & S2 & S3); [split; cbn [sel_next sel_first sel_rows sel_out]; [rewrite app_length; cbn [length]; lia|exact I2]|exact H2|].
      exists st'. split; [exact S1|]. split; [exact S2|]. rewrite S3. unfold sel_events. cbn [sel_out sel_first sel_rows].
      rewrite numbered_app, <- !app_assoc. f_equal. f_equal. unfold numbered. cbn [length seq combine app]. now rewrite <- I1, E.
    + destruct (push_slice_events (s_layout s) st I2) as (P1 & P2 & P3).
      destruct (IH {| sel_rows := sel_rows (push_slice (s_layout s) st) ++ [r]; sel_first := i; sel_next := S i; sel_out := sel_out (push_slice (s_layout s) st) |})
        as (st' & S1 & S2 & S3); [split; cbn [sel_next sel_first sel_rows sel_out]; [rewrite P3; cbn [app length]; lia|exact P2]|exact H2|].
      exists st'. split; [exact S1|]. split; [exact S2|]. rewrite S3. unfold sel_events at 1. cbn [sel_out sel_first sel_rows].
      rewrite P1, P3. rewrite <- app_assoc. reflexivity.
Qed.

Lemma select_events : forall s o sel, s_offset s = Some o -> s_rows s <> [] ->
  exists xs, select s sel = Some xs /\ flat_map events xs = filter (fun e => in_ids sel (fst e)) (events s) /\
    Forall (good (s_layout s)) xs.
Proof.
  intros s o sel O R. unfold select, make_ids. rewrite O.
  assert (L : length (s_rows s) <> 0) by (destruct (s_rows s); [contradiction|discriminate]).
  assert ((o <? o + length (s_rows s)) = true) as -> by lia.
  replace (o + length (s_rows s) - o) with (length (s_rows s)) by lia.
  unfold rank1. rewrite ones_and_range, ones_whole, seq_length.
  assert (Ev : events s = numbered o (s_rows s)) by (unfold events; now rewrite O).
  rewrite filter_seq_numbered, map_length, <- Ev.
  destruct (Nat.eqb_spec (length (filter (fun e => in_ids sel (fst e)) (events s))) 0) as [Z|Z].
  { exists []. split; [reflexivity|]. split; [|constructor]. now destruct (filter (fun e => in_ids sel (fst e)) (events s)). }
  destruct (Nat.eqb_spec (length (s_rows s)) (length (filter (fun e => in_ids sel (fst e)) (events s)))) as [A|A].
  { exists [s]. split; [reflexivity|]. cbn [flat_map]. rewrite app_nil_r. split.
    - symmetry. apply filter_all. apply filter_length_all. rewrite <- A, Ev. symmetry. apply numbered_length.
    - constructor; [|constructor]. split; [reflexivity|]. split; [exact R|]. rewrite O. discriminate. }
  destruct (select_loop_events s o (filter (fun e => in_ids sel (fst e)) (events s)) {| sel_rows := []; sel_first := o; sel_next := o; sel_out := [] |})
    as (st & S1 & [S2 S3] & S4).
  { split; cbn; [lia|constructor]. }
  { apply Forall_forall. intros e He. apply filter_In in He as [He _]. now rewrite <- Ev. }
  rewrite S1. cbn [option_map]. destruct (push_slice_events (s_layout s) st S3) as (P1 & P2 & P3).
  exists (sel_out (push_slice (s_layout s) st)). split; [reflexivity|]. split; [|exact P2]. rewrite P1, S4. reflexivity.
Qed.

(** A set that covers a range of the rows gives one slice. *)
Lemma filter_numbered_range : forall o rows a b, a <= b <= length rows ->
  filter (fun e => in_ids (repeat false (o + a) ++ repeat true (b - a)) (fst e)) (numbered o rows) = numbered (o + a) (firstn (b - a) (skipn a rows)).
Proof.
  intros o rows a b H.
  assert (E : rows = firstn a rows ++ firstn (b - a) (skipn a rows) ++ skipn b rows).
  { rewrite <- (firstn_skipn a rows) at 1. f_equal. rewrite <- (firstn_skipn (b - a) (skipn a rows)) at 1. f_equal.
    clear - H. revert a b H. induction rows as [|r rows IH]; intros [|a] [|b] H; cbn; auto; try lia.
    - now destruct (b - a).
    - cbn [length] in H. apply (IH a b). lia. }
  set (x := firstn a rows) in *. set (y := firstn (b - a) (skipn a rows)) in *. set (z := skipn b rows) in *.
  assert (Lx : length x = a) by (unfold x; rewrite firstn_length; lia).
  assert (Ly : length y = b - a) by (unfold y; rewrite firstn_length, skipn_length; lia).
  rewrite E, !numbered_app, !filter_app, Lx, Ly.
  rewrite (filter_none _ _ (numbered o x)), (filter_none _ _ (numbered (o + a + (b - a)) z)), (filter_all _ _ (numbered (o + a) y)); [now rewrite app_nil_r| | |].
  all: intros [i r] Hi; apply in_numbered in Hi as [Hi _]; rewrite range_nth; cbn [fst]; lia.
Qed.

Lemma nth_error_range : forall A a n i (l : list A), i < n -> nth_error (firstn n (skipn a l)) i = nth_error l (a + i).
Proof.
  intros A a n i l. revert a n i. induction l as [|x l IH]; intros a n i H.
  - rewrite skipn_nil, firstn_nil. destruct i; destruct a; reflexivity.
  - destruct a as [|a]; cbn [skipn Nat.add]; [|exact (IH a n i H)].
    destruct n as [|n]; [lia|]. destruct i as [|i]; [reflexivity|]. cbn [firstn nth_error]. apply (IH 0). lia.
Qed.
Lemma select_range_rows : forall s o a b, s_offset s = Some o -> a < b <= length (s_rows s) -> b - a < length (s_rows s) ->
  select s (repeat false (o + a) ++ repeat true (b - a)) =
  Some [{| s_layout := s_layout s; s_offset := Some (o + a); s_rows := firstn (b - a) (skipn a (s_rows s)) |}].
Proof.
  intros s o a b O H L. unfold select, make_ids. rewrite O.
  assert ((o <? o + length (s_rows s)) = true) as -> by lia.
  replace (o + length (s_rows s) - o) with (length (s_rows s)) by lia.
  unfold rank1. rewrite ones_and_range, ones_whole, seq_length, filter_seq_numbered, map_length, filter_numbered_range, numbered_length by lia.
  rewrite numbered_fst. set (rs := firstn (b - a) (skipn a (s_rows s))).
  assert (Lr : length rs = b - a) by (unfold rs; rewrite firstn_length, skipn_length; lia).
  assert ((length rs =? 0) = false) as -> by lia. assert ((length (s_rows s) =? length rs) = false) as -> by lia.
  (* The first row starts a run at [o + a]; every further row continues it. *)
  assert (G : forall done todo, rs = done ++ todo -> done <> [] ->
    select_loop s o {| sel_rows := done; sel_first := o + a; sel_next := o + a + length done; sel_out := [] |}
      (seq (o + a + length done) (length todo)) = Some {| sel_rows := rs; sel_first := o + a; sel_next := o + a + length rs; sel_out := [] |}).
  { intros done todo. revert done. induction todo as [|r todo IH]; intros done E N; cbn [length seq select_loop].
    - rewrite app_nil_r in E. now subst done.
    - unfold select_step. cbn [sel_next sel_rows sel_first sel_out]. rewrite Nat.eqb_refl. cbn [sel_next sel_rows sel_first sel_out].
      assert ((o + a + length done <? o) = false) as -> by lia.
      assert (nth_error (s_rows s) (o + a + length done - o) = Some r) as ->.
      { replace (o + a + length done - o) with (a + length done) by lia.
        assert (X : nth_error rs (length done) = Some r) by (rewrite E, nth_error_app2, Nat.sub_diag by lia; reflexivity).
        assert (length done < length rs) by (rewrite E, app_length; cbn [length]; lia).
        unfold rs in X. rewrite nth_error_range in X by lia. exact X. }
      replace (S (o + a + length done)) with (o + a + length (done ++ [r])) by (rewrite app_length; cbn [length]; lia).
      apply IH; [rewrite E, <- app_assoc; reflexivity|]. now destruct done. }
  destruct rs as [|r rs'] eqn:Ers; [cbn in Lr; lia|]. cbn [length seq select_loop]. unfold select_step at 1.
  cbn [sel_next sel_rows sel_first sel_out]. assert ((o + a <? o) = false) as -> by lia.
  assert (nth_error (s_rows s) (o + a - o) = Some r) as ->.
  { replace (o + a - o) with (a + 0) by lia. rewrite <- (nth_error_range _ _ (b - a)) by lia. fold rs. now rewrite Ers. }
  specialize (G [r] rs' eq_refl ltac:(discriminate)). cbn [length] in G. rewrite Nat.add_1_r in G.
  replace (o + a + S (length rs')) with (o + a + length (r :: rs')) in G by reflexivity.
  assert (X : (if o =? o + a
      then {| sel_rows := []; sel_first := o; sel_next := S o; sel_out := [] |}
      else {| sel_rows := sel_rows (push_slice (s_layout s) {| sel_rows := []; sel_first := o; sel_next := o; sel_out := [] |});
              sel_first := o + a; sel_next := S (o + a);
              sel_out := sel_out (push_slice (s_layout s) {| sel_rows := []; sel_first := o; sel_next := o; sel_out := [] |}) |})
      = {| sel_rows := []; sel_first := o + a; sel_next := S (o + a); sel_out := [] |}).
  { destruct (Nat.eqb_spec o (o + a)) as [Q|Q]; [now rewrite <- Q|reflexivity]. }
  cbv zeta. rewrite X. cbn [sel_rows sel_first sel_next sel_out app]. rewrite G. reflexivity.
Qed.

(** * Row evaluation as a boolean function *)

Lemma expr_eqb_none : forall e, expr_eqb e ENone = match e with ENone => true | _ => false end.
Proof. destruct e; reflexivity. Qed.

(** The truth of a predicate on a row, false where the evaluation is undefined. *)
Definition row_truth (re : regex) (la : layout) (row : list data) (p : predicate) : bool :=
  match row_pred re la row p with Some b => b | None => false end.
(** Every predicate of the expression can be evaluated on the row. *)
Definition evaluable (re : regex) (la : layout) (row : list data) (e : expr) : Prop :=
  all_preds (fun p => row_pred re la row p <> None) e.
Lemma row_eval_holds : forall re la row e, evaluable re la row e -> row_eval re la row e = Some (holds (row_truth re la row) e).
Proof.
  intros re la row. induction e as [|es IH|es IH|e IH|p] using expr_rect'; intros H; unfold evaluable in H; cbn [row_eval holds all_preds] in *.
  - reflexivity.
  - rewrite all_preds_Forall in H. induction IH as [|x xs H1 H2 IH2]; [reflexivity|]. inversion H; subst.
    cbn [all_of forallb]. rewrite H1 by assumption. destruct (holds (row_truth re la row) x); [now apply IH2|reflexivity].
  - rewrite all_preds_Forall in H. induction IH as [|x xs H1 H2 IH2]; [reflexivity|]. inversion H; subst.
    cbn [any_of existsb]. rewrite H1 by assumption. destruct (holds (row_truth re la row) x); [reflexivity|now apply IH2].
  - rewrite IH by exact H. reflexivity.
  - unfold row_truth. destruct (row_pred re la row p); [reflexivity|contradiction].
Qed.

(** Whether a row passes the check of [filter]. *)
Definition passes (re : regex) (la : layout) (e : expr) (row : list data) : bool :=
  match e with ENone => true | _ => holds (row_truth re la row) e end.
Lemma check_rows_spec : forall re e s o ps, Forall (fun x => evaluable re (s_layout s) (snd x) e) ps ->
  Forall (fun x => In x (numbered o (s_rows s))) ps ->
  check_rows re e s o (map fst ps) = Some (map snd (filter (fun x => passes re (s_layout s) e (snd x)) ps)).
Proof.
  intros re e s o. induction ps as [|[i r] ps IH]; intros E H; [reflexivity|].
  inversion H as [|? ? H1 H2]; inversion E as [|? ? E1 E2]; subst. apply in_numbered in H1 as [H1 H3].
  cbn [map fst check_rows]. assert ((i <? o) = false) as -> by lia. rewrite H3, (IH E2 H2).
  assert (C : (if expr_eqb e ENone then Some true else row_eval re (s_layout s) r e) = Some (passes re (s_layout s) e r)).
  { rewrite expr_eqb_none. cbn [snd] in E1. unfold passes. destruct e; try reflexivity; now apply row_eval_holds. }
  rewrite C. cbn [filter snd]. now destruct (passes re (s_layout s) e r).
Qed.
