(** C20: candidate checks keep exactly the matching rows.
    C41: table slice selection and splitting preserve rows. *)
From Coq Require Import List ZArith NArith Lia Bool Arith ZifyBool ZifyNat.
From Verif Require Import OperatorModel AddressModel DataModel TypeModel TypeProofs ExpressionModel ExpressionProofs TableSliceModel
  TableSliceProofs TailorProofs PropsData.
Import ListNotations.
Open Scope nat_scope.

(** * C41 *)

(** Selecting from a slice of at least one row with an offset succeeds for every ID
    set. The slices it returns contain exactly the events of the slice whose IDs are
    in the set, in order and under their IDs. Each has the layout of the original, a
    valid offset and at least one row. *)
Theorem C41_select : forall s o sel, s_offset s = Some o -> s_rows s <> [] ->
  exists xs, select s sel = Some xs /\
    flat_map events xs = filter (fun e => in_ids sel (fst e)) (events s) /\
    Forall (fun x => s_layout x = s_layout s /\ s_rows x <> [] /\ s_offset x <> None) xs.
Proof. exact select_events. Qed.

(** Truncating to at least one row returns the first rows under the same offset, be
    it valid or not. *)
Theorem C41_truncate : forall s n, 0 < n ->
  truncate s n = Some {| s_layout := s_layout s; s_offset := s_offset s; s_rows := firstn n (s_rows s) |}.
Proof.
  intros s n N. unfold truncate. assert ((n =? 0) = false) as -> by lia.
  destruct (Nat.leb_spec (length (s_rows s)) n) as [L|L].
  { rewrite firstn_all2 by exact L. now destruct s. }
  set (off := match s_offset s with None => 0 | Some o => o end). unfold make_ids.
  assert ((off <? off + n) = true) as -> by lia. replace (off + n - off) with n by lia.
  pose proof (select_range_rows (with_offset s (Some off)) off 0 n eq_refl) as H. cbn [s_rows with_offset s_layout skipn] in H.
  rewrite Nat.add_0_r, Nat.sub_0_r in H. rewrite H by lia. f_equal. unfold off, with_offset. destruct (s_offset s); reflexivity.
Qed.

(** Splitting at a point inside the slice returns the rows before and after it, the
    second part under the ID of its first row; a part that would be empty is missing. *)
Theorem C41_split : forall s p,
  exists a b, split s p = Some (a, b) /\
    a = (if p =? 0 then None else Some {| s_layout := s_layout s; s_offset := s_offset s; s_rows := firstn p (s_rows s) |}) /\
    b = (if (length (s_rows s) <=? p) && negb (p =? 0) then None
         else Some {| s_layout := s_layout s; s_offset := option_map (fun o => o + p) (s_offset s); s_rows := skipn p (s_rows s) |}).
Proof.
  intros s p. unfold split. destruct (Nat.eqb_spec p 0) as [->|P].
  { do 2 eexists. split; [reflexivity|]. rewrite andb_false_r. split; [reflexivity|]. cbn [skipn]. destruct s as [la [o|] rs]; cbn; now rewrite ?Nat.add_0_r. }
  destruct (Nat.leb_spec (length (s_rows s)) p) as [L|L].
  { do 2 eexists. split; [reflexivity|]. split; [|reflexivity]. rewrite firstn_all2 by exact L. now destruct s. }
  set (first := match s_offset s with None => 0 | Some o => o end). unfold make_ids.
  assert ((first <? first + p) = true) as -> by lia. assert ((first + p <? first + length (s_rows s)) = true) as -> by lia.
  pose proof (select_range_rows (with_offset s (Some first)) first 0 p eq_refl) as H.
  pose proof (select_range_rows (with_offset s (Some first)) first p (length (s_rows s)) eq_refl) as G.
  cbn [s_rows with_offset s_layout skipn] in H, G. rewrite Nat.add_0_r, Nat.sub_0_r in H.
  replace (first + p - first) with p by lia. replace (first + length (s_rows s) - (first + p)) with (length (s_rows s) - p) by lia.
  rewrite H, G by lia.
  rewrite (firstn_all2 (n := length (s_rows s) - p)) by (rewrite skipn_length; lia).
  cbn [negb andb].
  unfold first. destruct (s_offset s) as [o|] eqn:O; cbn [with_offset s_layout s_offset s_rows option_map];
    do 2 eexists; (split; [reflexivity|split; reflexivity]).
Qed.

(** Nothing is lost or changed: the two parts put together are the original events. *)
Theorem C41_split_events : forall s p a b, s_offset s <> None -> split s p = Some (a, b) ->
  match a with Some x => events x | None => [] end ++ match b with Some x => events x | None => [] end = events s.
Proof.
  intros s p a b O H. destruct (C41_split s p) as (a' & b' & E & -> & ->). rewrite E in H. injection H as <- <-. clear E.
  unfold events at 3. destruct (s_offset s) as [o|] eqn:Eo; [|contradiction].
  assert (S : numbered o (s_rows s) = numbered o (firstn p (s_rows s)) ++ numbered (o + Nat.min p (length (s_rows s))) (skipn p (s_rows s))).
  { rewrite <- firstn_length, <- numbered_app, firstn_skipn. reflexivity. }
  rewrite S. destruct (Nat.eqb_spec p 0) as [->|P].
  - rewrite andb_false_r. unfold events. cbn [s_offset s_rows option_map Nat.min firstn skipn]. rewrite !Nat.add_0_r. reflexivity.
  - cbn [negb]. rewrite andb_true_r. destruct (Nat.leb_spec (length (s_rows s)) p) as [L|L].
    + unfold events. cbn [s_offset s_rows]. rewrite (skipn_all2 (s_rows s)) by exact L. reflexivity.
    + unfold events. cbn [s_offset s_rows option_map]. rewrite Nat.min_l by lia. reflexivity.
Qed.

Definition two_columns : layout :=
  {| la_meta := {| m_name := [84%N]; m_attrs := [] |};
     la_fields := [([120%N], TBasic no_meta BCount); ([121%N], TBasic no_meta BString)] |}.
Definition five_rows : slice :=
  {| s_layout := two_columns; s_offset := Some 3;
     s_rows := map (fun n => [DCount n; DString [97 + n]%N]) [0; 1; 2; 3; 4]%N |}.
Example C41_example :
  (exists a b, select five_rows [true; false; false; true; true; false; true; false; true] = Some [a; b] /\
     events a = [(3, [DCount 0; DString [97%N]]); (4, [DCount 1; DString [98%N]])] /\
     events b = [(6, [DCount 3; DString [100%N]])]) /\
  (exists a b, split five_rows 2 = Some (Some a, Some b) /\ length (s_rows a) = 2 /\ length (s_rows b) = 3 /\ s_offset b = Some 5).
Proof. split; do 2 eexists; split; vm_compute; auto. Qed.

(** Selecting from a slice without a valid offset, or without rows, fails an assertion,
    also where no row is asked for. *)
Theorem C41_select_invalid_refuted : exists s t, s_rows s <> [] /\ s_offset t <> None /\
  select s [] = None /\ select t [] = None.
Proof.
  exists {| s_layout := two_columns; s_offset := None; s_rows := [[DCount 1; DNone]] |},
    {| s_layout := two_columns; s_offset := Some 0; s_rows := [] |}.
  repeat split; discriminate.
Qed.

(** * C20 *)

(** The offset the candidate check counts from. *)
Definition base_offset (s : slice) : nat := match s_offset s with Some o => o | None => 0 end.
(** The rows to keep: the hints, unless they are empty, contain the ID, and the row
    satisfies the expression, unless there is none. *)
Definition wanted (re : regex) (s : slice) (e : expr) (hints : list bool) : list (list data) :=
  map snd (filter (fun x => (match hints with [] => true | _ => in_ids hints (fst x) end) &&
                            (match e with ENone => true | _ => holds (row_truth re (s_layout s) (snd x)) e end))
                  (numbered (base_offset s) (s_rows s))).

Lemma filter_filter : forall A (f g : A -> bool) l, filter f (filter g l) = filter (fun x => g x && f x) l.
Proof. intros A f g. induction l as [|x l IH]; [reflexivity|]. cbn. destruct (g x); cbn; [destruct (f x); now rewrite IH|exact IH]. Qed.
Lemma candidates_ones : forall o rows hints, rows <> [] ->
  exists w sel, candidates o (length rows) hints = Some (w, sel) /\ ones w = map fst (numbered o rows) /\
    ones sel = map fst (filter (fun x : nat * list data => match hints with [] => true | _ => in_ids hints (fst x) end) (numbered o rows)).
Proof.
  intros o rows hints R. unfold candidates, make_ids. assert (length rows <> 0) by (destruct rows; [contradiction|discriminate]).
  assert ((o <? o + length rows) = true) as -> by lia. replace (o + length rows - o) with (length rows) by lia.
  do 2 eexists. split; [reflexivity|]. split; [now rewrite ones_whole, numbered_fst|].
  destruct hints as [|b hints].
  - rewrite ones_whole, filter_all by reflexivity. now rewrite numbered_fst.
  - rewrite ones_range_and. apply filter_seq_numbered.
Qed.

Lemma wanted_all : forall re s e hints, length (wanted re s e hints) = length (s_rows s) -> wanted re s e hints = s_rows s.
Proof.
  intros re s e hints H. unfold wanted in *. rewrite map_length in H.
  rewrite filter_all; [apply numbered_snd|]. apply filter_length_all. now rewrite numbered_length.
Qed.

(** For every slice with rows, every ID set and every expression that can be evaluated
    on the rows, the check returns a slice with exactly the wanted rows, in order, or
    no slice if there are none. The slice has the layout of the original; it has its
    offset if all rows are kept and no offset otherwise. *)
Theorem C20_filter : forall re s e hints, s_rows s <> [] -> Forall (fun r => evaluable re (s_layout s) r e) (s_rows s) ->
  filter_slice re s e hints = Some (match wanted re s e hints with
    | [] => None
    | rows => Some {| s_layout := s_layout s; s_rows := rows;
                      s_offset := if length rows =? length (s_rows s) then s_offset s else None |}
    end).
Proof.
  intros re s e hints R Ev. unfold filter_slice. fold (base_offset s).
  destruct (candidates_ones (base_offset s) (s_rows s) hints R) as (w & sel & -> & W & S).
  set (inh := fun x : nat * list data => match hints with [] => true | _ => in_ids hints (fst x) end) in *.
  assert (Wn : wanted re s e hints = map snd (filter (fun x => passes re (s_layout s) e (snd x)) (filter inh (numbered (base_offset s) (s_rows s))))).
  { unfold wanted. rewrite filter_filter. reflexivity. }
  unfold rank1. rewrite W, S, !map_length.
  destruct (Nat.eqb_spec (length (filter inh (numbered (base_offset s) (s_rows s)))) 0) as [Z|Z].
  { rewrite Wn. destruct (filter inh (numbered (base_offset s) (s_rows s))); [reflexivity|discriminate]. }
  rewrite expr_eqb_none.
  destruct ((match e with ENone => true | _ => false end) && (length (numbered (base_offset s) (s_rows s)) =? length (filter inh (numbered (base_offset s) (s_rows s))))) eqn:A.
  - apply andb_true_iff in A as [A1 A2]. destruct e; try discriminate. apply Nat.eqb_eq in A2.
    assert (Wa : wanted re s ENone hints = s_rows s).
    { rewrite Wn. rewrite (filter_all _ (fun x => passes re (s_layout s) ENone (snd x))) by reflexivity.
      rewrite filter_all; [apply numbered_snd|]. apply filter_length_all. now symmetry. }
    rewrite Wa. destruct (s_rows s) as [|r rs] eqn:Er; [contradiction|]. rewrite Nat.eqb_refl, <- Er. now destruct s.
  - rewrite check_rows_spec.
    + rewrite <- Wn. destruct (wanted re s e hints) as [|r rs] eqn:Ew; [reflexivity|].
      destruct (Nat.eqb_spec (length (r :: rs)) (length (s_rows s))) as [L|L]; [|reflexivity].
      rewrite <- Ew in *. rewrite (wanted_all _ _ _ _ L). now destruct s.
    + apply Forall_forall. intros [i r] H. apply filter_In in H as [H _]. rewrite Forall_forall in Ev. apply Ev.
      apply in_numbered in H as [_ H]. eapply nth_error_In. exact H.
    + apply Forall_forall. intros x H. now apply filter_In in H.
Qed.

(** Counting agrees with filtering. *)
Theorem C20_count : forall re s e hints, s_offset s <> None -> s_rows s <> [] ->
  Forall (fun r => evaluable re (s_layout s) r e) (s_rows s) ->
  count_matching re s e hints = Some (length (wanted re s e hints)).
Proof.
  intros re s e hints O R Ev. unfold count_matching. destruct (s_offset s) as [o|] eqn:Eo; [|contradiction].
  assert (Bo : base_offset s = o) by (unfold base_offset; now rewrite Eo).
  destruct (candidates_ones o (s_rows s) hints R) as (w & sel & -> & W & S).
  set (inh := fun x : nat * list data => match hints with [] => true | _ => in_ids hints (fst x) end) in *.
  assert (Wn : wanted re s e hints = map snd (filter (fun x => passes re (s_layout s) e (snd x)) (filter inh (numbered o (s_rows s))))).
  { unfold wanted. rewrite filter_filter, Bo. reflexivity. }
  unfold rank1. rewrite W, S, !map_length.
  destruct (Nat.eqb_spec (length (filter inh (numbered o (s_rows s)))) 0) as [Z|Z].
  { rewrite Wn. destruct (filter inh (numbered o (s_rows s))); [reflexivity|discriminate]. }
  rewrite expr_eqb_none.
  destruct ((match e with ENone => true | _ => false end) && (length (numbered o (s_rows s)) =? length (filter inh (numbered o (s_rows s))))) eqn:A.
  - apply andb_true_iff in A as [A1 A2]. destruct e; try discriminate. apply Nat.eqb_eq in A2.
    rewrite Wn, map_length. rewrite (filter_all _ (fun x => passes re (s_layout s) ENone (snd x))) by reflexivity.
    now rewrite <- A2, numbered_length.
  - rewrite check_rows_spec.
    + rewrite <- Wn. reflexivity.
    + apply Forall_forall. intros [i r] H. apply filter_In in H as [H _]. rewrite Forall_forall in Ev. apply Ev.
      apply in_numbered in H as [_ H]. eapply nth_error_In. exact H.
    + apply Forall_forall. intros x H. now apply filter_In in H.
Qed.

(** Evaluating an expression over a whole slice sets exactly the bits of the rows that
    satisfy it. *)
Theorem C20_evaluate : forall re s o e, s_offset s = Some o -> Forall (fun r => evaluable re (s_layout s) r e) (s_rows s) ->
  exists ids, evaluate_slice re e s = Some ids /\ length ids = o + length (s_rows s) /\
    forall i, in_ids ids i = existsb (fun x => (fst x =? i) && holds (row_truth re (s_layout s) (snd x)) e) (events s).
Proof.
  intros re s o e O Ev. unfold evaluate_slice. rewrite O.
  assert (E : eval_rows re (s_layout s) e (s_rows s) = Some (map (fun r => holds (row_truth re (s_layout s) r) e) (s_rows s))).
  { induction (s_rows s) as [|r rows IH]; [reflexivity|]. inversion Ev; subst. cbn [eval_rows map]. rewrite IH by assumption.
    rewrite row_eval_holds by assumption. reflexivity. }
  rewrite E. cbn [option_map]. eexists. split; [reflexivity|]. rewrite app_length, repeat_length, map_length. split; [reflexivity|].
  intros i. unfold events. rewrite O. unfold in_ids. clear E Ev O. unfold numbered.
  assert (G : forall rows k, nth i (repeat false k ++ map (fun r => holds (row_truth re (s_layout s) r) e) rows) false =
    existsb (fun x => (fst x =? i) && holds (row_truth re (s_layout s) (snd x)) e) (combine (seq k (length rows)) rows)).
  { induction rows as [|r rows IH]; intros k; cbn [map length seq combine existsb fst snd].
    - rewrite app_nil_r, nth_repeat. reflexivity.
    - rewrite <- (IH (S k)). destruct (Nat.lt_ge_cases i k) as [L|L].
      + rewrite !app_nth1 by (rewrite repeat_length; lia). rewrite !nth_repeat. assert ((k =? i) = false) as -> by lia. reflexivity.
      + rewrite app_nth2 by (rewrite repeat_length; lia). rewrite repeat_length. destruct (Nat.eqb_spec k i) as [->|N].
        * rewrite Nat.sub_diag. cbn [nth andb]. rewrite app_nth1 by (rewrite repeat_length; lia). rewrite nth_repeat. now rewrite orb_false_r.
        * destruct (i - k) as [|j] eqn:J; [lia|]. cbn [nth andb orb]. rewrite app_nth2 by (rewrite repeat_length; lia). rewrite repeat_length.
          now replace (i - S k) with j by lia. }
  apply G.
Qed.

(** An expression that passed validation and was tailored to the layout of the slice
    can be evaluated on every row, if its field extractors are not compared with nil or
    containers. Together with [C20_filter] the check then does what it should. *)
Theorem C20_tailored : forall re glob regex_ok la e e' row,
  forallb (fun f => no_empty (snd f)) (la_fields la) = true ->
  validate regex_ok e = true -> all_preds leaf_data e -> all_preds (operand_is proper) e ->
  tailor glob e (TRecord (la_meta la) (la_fields la)) = ok e' ->
  proper_row (la_fields la) row -> evaluable re la row e'.
Proof.
  intros re glob regex_ok la e e' row H V L D T R. unfold evaluable.
  eapply all_preds_impl; [|eapply tailor_on_leaf; eassumption]. intros p Hp. now apply on_leaf_evaluable.
Qed.

(** [x > 1 && y != "d"], as a query and tailored to the layout. *)
Definition sample_query : expr :=
  EAnd [EPred {| p_lhs := OField [120%N]; p_op := op_gt; p_rhs := OVal (DCount 1) |};
        EPred {| p_lhs := OField [121%N]; p_op := op_ne; p_rhs := OVal (DString [100%N]) |}].
Definition exact_name (key name : list N) : bool := ends_with name (dot :: key).
Definition tailored_query : expr :=
  EAnd [EPred {| p_lhs := OData (TBasic no_meta BCount) [0]; p_op := op_gt; p_rhs := OVal (DCount 1) |};
        EPred {| p_lhs := OData (TBasic no_meta BString) [1]; p_op := op_ne; p_rhs := OVal (DString [100%N]) |}].
Example C20_example :
  validate (fun _ => true) sample_query = true /\
  tailor exact_name sample_query (TRecord (la_meta two_columns) (la_fields two_columns)) = ok tailored_query /\
  Forall (fun r => evaluable literal_regex two_columns r tailored_query) (s_rows five_rows) /\
  (exists t, filter_slice literal_regex five_rows tailored_query [] = Some (Some t) /\ length (s_rows t) = 2 /\ s_offset t = None) /\
  (exists t, filter_slice literal_regex five_rows tailored_query (repeat false 7 ++ [true]) = Some (Some t) /\
     s_rows t = [[DCount 4; DString [101%N]]]) /\
  count_matching literal_regex five_rows tailored_query [] = Some 2.
Proof.
  split; [reflexivity|]. split; [vm_compute; reflexivity|]. split.
  { assert (R : Forall (proper_row (la_fields two_columns)) (s_rows five_rows)).
    { repeat (constructor; [split; [reflexivity|repeat constructor]|]). constructor. }
    eapply Forall_impl; [|exact R]. intros r Hr.
    apply (C20_tailored literal_regex exact_name (fun _ => true) two_columns sample_query); try reflexivity; try exact Hr;
      cbn; repeat split; discriminate. }
  split; [eexists; split; vm_compute; auto|]. split; [eexists; split; vm_compute; auto|vm_compute; reflexivity].
Qed.

(** ** What does not hold *)

(** Comparing a field that is a record with nil, or asking whether it is in a list,
    passes validation and tailoring, and fails an assertion on every row. *)
Theorem C20_record_field_refuted : exists glob la e e', validate (fun _ => true) e = true /\
  tailor glob e (TRecord (la_meta la) (la_fields la)) = ok e' /\ forall re row, row_eval re la row e' = None.
Proof.
  exists exact_name, {| la_meta := no_meta; la_fields := [([120%N], TRecord no_meta [([121%N], TBasic no_meta BCount)])] |},
    (EPred {| p_lhs := OField [120%N]; p_op := op_in; p_rhs := OVal (DList [DCount 1]) |}).
  eexists. split; [reflexivity|]. split; [vm_compute; reflexivity|]. reflexivity.
Qed.
(** An enumeration compares as the name of its member, and as null if it has no such
    member. *)
Theorem C20_enum : forall re la row m names o k n op, flat_index_at (la_fields la) o = Some k ->
  nth_error row k = Some (DEnum n) -> op = op_eq \/ op = op_ne ->
  (forall s, row_eval re la row (EPred {| p_lhs := OData (TEnum m names) o; p_op := op; p_rhs := OVal (DString s) |}) = Some (negb (is_negated op)) <->
     nth_error names (N.to_nat n) = Some s) /\
  (row_eval re la row (EPred {| p_lhs := OData (TEnum m names) o; p_op := op; p_rhs := OVal DNone |}) = Some (negb (is_negated op)) <->
     length names <= N.to_nat n).
Proof.
  intros re la row m names o k n op K C O. rewrite <- nth_error_None. cbn [row_eval]. unfold row_pred, row_extractor.
  cbn [p_lhs p_op p_rhs]. rewrite K, C. cbn [to_canonical]. split; [intros s|].
  - assert (Q : view_eqb (match nth_error names (N.to_nat n) with Some x => DString x | None => DNone end) (DString s) = true <->
      nth_error names (N.to_nat n) = Some s).
    { destruct (nth_error names (N.to_nat n)) as [x|]; [|split; discriminate]. change (bytes_eqb x s = true <-> Some x = Some s).
      rewrite bytes_eqb_iff. split; [now intros ->|now intros [= ->] ]. }
    rewrite <- Q. destruct O as [-> | ->]; unfold evaluate_view; cbn [is_negated negb];
      destruct (view_eqb _ (DString s)); cbn [negb]; split; congruence.
  - assert (Q : view_eqb (match nth_error names (N.to_nat n) with Some x => DString x | None => DNone end) DNone = true <->
      nth_error names (N.to_nat n) = None).
    { destruct (nth_error names (N.to_nat n)) as [x|]; [split; discriminate|split; reflexivity]. }
    rewrite <- Q. destruct O as [-> | ->]; unfold evaluate_view; cbn [is_negated negb];
      destruct (view_eqb _ DNone); cbn [negb]; split; congruence.
Qed.
Example C20_enum_example : flat_index_at [([120%N], TEnum no_meta [[97%N]; [98%N]])] [0] = Some 0 /\
  row_eval literal_regex {| la_meta := no_meta; la_fields := [([120%N], TEnum no_meta [[97%N]; [98%N]])] |} [DEnum 1]
    (EPred {| p_lhs := OData (TEnum no_meta [[97%N]; [98%N]]) [0]; p_op := op_eq; p_rhs := OVal (DString [98%N]) |}) = Some true.
Proof. split; reflexivity. Qed.
(** A column whose type is an alias of an enumeration keeps its numeric value: comparing
    it with the name it stands for is false. *)
Theorem C20_enum_alias_refuted : exists re glob la row e e',
  validate (fun _ => true) e = true /\ tailor glob e (TRecord (la_meta la) (la_fields la)) = ok e' /\
  la_fields la = [([120%N], TAlias no_meta (TEnum no_meta [[97%N]]))] /\ row = [DEnum 0] /\
  e = EPred {| p_lhs := OField [120%N]; p_op := op_eq; p_rhs := OVal (DString [97%N]) |} /\ row_eval re la row e' = Some false.
Proof.
  exists literal_regex, exact_name, {| la_meta := no_meta; la_fields := [([120%N], TAlias no_meta (TEnum no_meta [[97%N]]))] |}, [DEnum 0].
  exists (EPred {| p_lhs := OField [120%N]; p_op := op_eq; p_rhs := OVal (DString [97%N]) |}),
    (EPred {| p_lhs := OData (TAlias no_meta (TEnum no_meta [[97%N]])) [0]; p_op := op_eq; p_rhs := OVal (DString [97%N]) |}).
  repeat split; vm_compute; reflexivity.
Qed.
(** With the data on the left the operands are swapped but not the operator: [1 < x]
    keeps a row where [x] is 0. *)
Theorem C20_data_left_refuted : exists re la row t, row_eval re la row (EPred {| p_lhs := OVal (DCount 1); p_op := op_lt; p_rhs := OData t [0] |}) = Some true /\
  row = [DCount 0] /\ evaluate re (DCount 1) op_lt (DCount 0) = Some false.
Proof.
  exists literal_regex, {| la_meta := no_meta; la_fields := [([120%N], TBasic no_meta BCount)] |}, [DCount 0], (TBasic no_meta BCount).
  repeat split; vm_compute; reflexivity.
Qed.
(** Hints that contain no ID keep nothing if they are long, and everything if they have
    no bits at all. *)
Theorem C20_empty_hints_refuted : exists re s e, filter_slice re s e [false] = Some None /\
  (forall i, in_ids [] i = in_ids [false] i) /\ exists t, filter_slice re s e [] = Some (Some t).
Proof.
  exists literal_regex, five_rows, tailored_query. split; [vm_compute; reflexivity|]. split; [intros [|[|i]]; reflexivity|].
  eexists. vm_compute. reflexivity.
Qed.
(** The empty expression is false on every row but filters nothing out. *)
Theorem C20_no_expression_refuted : exists re s, evaluate_slice re ENone s = Some (repeat false 8) /\
  filter_slice re s ENone [] = Some (Some s).
Proof. exists literal_regex, five_rows. split; vm_compute; reflexivity. Qed.
(** A slice without an offset can be filtered but not counted. *)
Theorem C20_count_invalid_refuted : exists re s e t, filter_slice re s e [] = Some (Some t) /\ count_matching re s e [] = None.
Proof.
  exists literal_regex, (with_offset five_rows None), tailored_query. eexists. split; vm_compute; reflexivity.
Qed.

Definition assumptions_table_slice := (C41_select, C41_truncate, C41_split, C41_split_events, C41_select_invalid_refuted,
  C20_filter, C20_count, C20_evaluate, C20_tailored, C20_enum, C20_record_field_refuted, C20_enum_alias_refuted, C20_data_left_refuted,
  C20_empty_hints_refuted, C20_no_expression_refuted, C20_count_invalid_refuted).
Print Assumptions assumptions_table_slice.
