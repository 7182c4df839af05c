(** C17: looking up a query in the meta index loses no partition with a matching event. *)
From Coq Require Import List ZArith NArith Lia Bool Arith.
From Verif Require Import OperatorModel AddressModel AddressProofs DataModel DataProofs TypeModel TypeProofs ExpressionModel ExpressionProofs
  EvaluatorProofs TableSliceModel TableSliceProofs TailorProofs ExtractorProofs SetOpsModel SetOpsProofs BloomModel BloomProofs
  SynopsisModel SynopsisProofs MetaIndexModel MetaIndexProofs MetaLookupProofs PropsData PropsTableSlice PropsExtractor PropsSynopsis.
Import ListNotations.
Open Scope nat_scope.

Lemma validate_complete : forall regex_ok e, validate regex_ok e = true -> complete e = true.
Proof.
  intros regex_ok. induction e as [|es IH|es IH|e IH|p] using expr_rect'; cbn [validate complete]; auto;
    intros H; rewrite forallb_forall in *; rewrite Forall_forall in IH; auto.
Qed.

(** A partition synopsis is built from any slices with any settings, and shrunk or not. It
    is merged under a new identifier, with any merges and erasures of other partitions
    before and after. Then the partition is among the candidates for every query that one
    of its events satisfies in the sense of [column_truth], if no string occurs in two
    operands of a disjunction of the query and [prunable] holds of its predicates. *)
Theorem C17_no_candidate_lost : forall hash opts re glob regex_ok fuel slices ps ps' before after id s row e ids,
  psyn_add_all hash opts empty_psyn slices = Some ps -> (ps' = ps \/ psyn_shrink hash opts ps = Some ps') ->
  Forall (fun s => forallb (fun f => no_empty (snd f)) (la_fields (s_layout s)) = true) slices ->
  In s slices -> In row (s_rows s) ->
  ~ In id (map fst (mi_run before [])) -> ~ In (Erase id) after ->
  validate regex_ok e = true -> unambiguous e -> all_preds (prunable re glob (s_layout s) row) e ->
  holds (column_truth re glob (s_layout s) row) e = true ->
  mi_lookup hash re fuel (mi_run (before ++ Merge id ps' :: after) []) e = Some ids -> In id ids.
Proof.
  intros hash opts re glob regex_ok fuel slices ps ps' before after id s row e ids A Sh Ne Hs Hr Nid Nerase V U P T L.
  destruct (psyn_add_all_knows hash opts slices _ _ A (empty_in_order hash) Ne) as (O & _ & K). specialize (K s row Hs Hr).
  assert (OK : in_order hash ps' /\ knows_row hash ps' (s_layout s) row).
  { destruct Sh as [->|Sh]; [auto|]. destruct (psyn_shrink_knows hash opts _ _ Sh O) as [O' M]. split; [exact O'|].
    intros k ns t Hc. destruct (K k ns t Hc) as (x & Hx & Kx). eauto. }
  destruct OK as [O' K']. set (m := mi_run (before ++ Merge id ps' :: after) []) in *.
  assert (Am : ascending (map fst m)) by (apply mi_run_ascending; constructor).
  assert (Hin : In (id, ps') m).
  { unfold m, mi_run. rewrite fold_left_app. cbn [fold_left mi_step]. fold (mi_run before []).
    assert (A1 : ascending (map fst (mi_run before []))) by (apply mi_run_ascending; constructor).
    apply (mi_run_keeps after); [now apply mi_merge_spec| |exact Nerase]. apply mi_merge_spec; [exact A1|]. auto. }
  apply (mi_lookup_finds hash re fuel m e ids id ps' Am U L Hin).
  apply (cand_sound (column_truth re glob (s_layout s) row)); [|eapply validate_complete; exact V|exact T].
  eapply all_preds_impl; [|exact P]. cbv beta. intros p Hp Tp.
  assert (Nes : forallb (fun f => no_empty (snd f)) (la_fields (s_layout s)) = true) by (rewrite Forall_forall in Ne; auto).
  eapply passes_sound; eassumption.
Qed.

(** The same in terms of the check of single events: tailoring the query to the layout and
    evaluating it on the event. *)
Theorem C17_no_event_lost : forall hash opts re glob regex_ok fuel slices ps ps' before after id s row e r ids,
  psyn_add_all hash opts empty_psyn slices = Some ps -> (ps' = ps \/ psyn_shrink hash opts ps = Some ps') ->
  Forall (fun s => forallb (fun f => no_empty (snd f)) (la_fields (s_layout s)) = true) slices ->
  In s slices -> In row (s_rows s) -> proper_row (la_fields (s_layout s)) row ->
  ~ In id (map fst (mi_run before [])) -> ~ In (Erase id) after ->
  positive e = true -> inhabited_expr e = true -> validate regex_ok e = true ->
  all_preds leaf_data e -> all_preds plain e -> all_preds (operand_is proper) e ->
  unambiguous e -> all_preds (prunable re glob (s_layout s) row) e ->
  tailor glob e (TRecord (la_meta (s_layout s)) (la_fields (s_layout s))) = ok r -> row_eval re (s_layout s) row r = Some true ->
  mi_lookup hash re fuel (mi_run (before ++ Merge id ps' :: after) []) e = Some ids -> In id ids.
Proof.
  intros hash opts re glob regex_ok fuel slices ps ps' before after id s row e r ids A Sh Ne Hs Hr Pr Nid Nerase Po Inh V Ld Pl Dp U P T R L.
  eapply C17_no_candidate_lost; try eassumption.
  assert (Nes : forallb (fun f => no_empty (snd f)) (la_fields (s_layout s)) = true) by (rewrite Forall_forall in Ne; auto).
  rewrite (C45_query re glob regex_ok (s_layout s) row e r Nes Po Inh V Ld Pl Dp Pr T) in R. now injection R.
Qed.

(** Lookups have an answer: pruning ends, and no assertion fails, for queries without NaN
    and with named types if no synopsis buffers its values any more. *)
Theorem C17_defined : forall hash re m e, (forall id ps, In (id, ps) m -> shrunk ps) ->
  complete e = true -> inhabited_expr e = true -> all_preds typed e ->
  all_preds (fun p => operand_no_nan (p_lhs p) /\ operand_no_nan (p_rhs p)) e ->
  mi_lookup hash re (expr_size e) m e <> None.
Proof.
  intros hash re m e S C Inh T Nn. unfold mi_lookup.
  assert (Q : all_preds equals_itself e) by (eapply all_preds_impl; [|exact Nn]; cbv beta; intros p [H1 H2]; now apply no_nan_equals).
  destruct (prune_all_ends e Q) as (e' & E). rewrite E. apply lookup_impl_defined; [exact S|..].
  - apply (prune_all_keeps (fun x => complete x = true) prune_complete hoist_complete _ _ _ E C).
  - apply (prune_all_keeps (fun x => inhabited_expr x = true) prune_inhabited hoist_inhabited _ _ _ E Inh).
  - apply (prune_all_keeps (all_preds typed) (prune_preds typed) (hoist_preds typed) _ _ _ E T).
Qed.

(** The candidates are partitions that were merged, sorted and without duplicates; a
    partition that was erased and not merged again is not among them. *)
Theorem C17_known : forall hash re fuel ops e ids, mi_lookup hash re fuel (mi_run ops []) e = Some ids ->
  ascending ids /\ (forall id, In id ids -> exists ps, In (Merge id ps) ops) /\
  forall before after id, ops = before ++ Erase id :: after -> (forall ps, ~ In (Merge id ps) after) -> ~ In id ids.
Proof.
  intros hash re fuel ops e ids L. assert (A : forall ops, ascending (map fst (mi_run ops []))) by (intros; apply mi_run_ascending; constructor).
  destruct (mi_lookup_spec hash re _ _ _ _ (A ops) L) as (e' & _ & [As S]).
  assert (K : forall id, In id ids -> In id (map fst (mi_run ops []))).
  { intros id Hid. apply S in Hid as (ps & Hin & _). apply in_map_iff. exists (id, ps). auto. }
  split; [exact As|]. split.
  - intros id Hid. apply K in Hid. apply mi_run_origin in Hid as [ []|H]; [exact H|constructor].
  - intros before after id -> Nm Hid. apply K in Hid. unfold mi_run in Hid. rewrite fold_left_app in Hid. cbn [fold_left mi_step] in Hid. fold (mi_run before []) in Hid.
    pose proof (A before) as Ab. destruct (mi_erase_spec id _ Ab) as [Ae Se].
    apply (mi_run_origin after) in Hid as [Hid|(ps & Hid)]; [|exact (Nm ps Hid)|exact Ae].
    apply in_map_iff in Hid as ([i p] & E & Hid). cbn [fst] in E. subst i. apply Se in Hid as [_ Hid]. now apply Hid.
Qed.

(** The meta index is of use: a partition none of whose columns has a name that ends with
    the field name of a predicate is not a candidate for it. *)
Theorem C17_absent_field : forall hash re fuel m name op d ids id ps, ascending (map fst m) -> In (id, ps) m ->
  (forall q so, In (q, so) (field_syns ps) -> ends_with (fqn q) name = false) ->
  mi_lookup hash re fuel m (EPred {| p_lhs := OField name; p_op := op; p_rhs := OVal d |}) = Some ids -> ~ In id ids.
Proof.
  intros hash re fuel m name op d ids id ps A Hin F L. set (p := {| p_lhs := OField name; p_op := op; p_rhs := OVal d |}) in *.
  destruct (mi_lookup_spec hash re _ _ _ _ A L) as (e' & E & [_ S]).
  assert (e' = EPred p) as ->.
  { unfold prune_all in E. cbn [prune] in E. apply (prune_loop_keeps (fun x => x = EPred p)) in E; auto; intros x ->; reflexivity. }
  intros Hid. apply S in Hid as (ps' & Hin' & C). rewrite (unique_key _ m id ps' ps A Hin' Hin) in C. cbn [cand] in C. unfold passes, keeps, is_timestamp in C. cbn [p_lhs p_rhs p_op p] in C.
  rewrite orb_false_r in C.
  enough (G : search_fields hash (fun q => ends_with (fqn q) name) ps op d (field_syns ps) = Some false) by (unfold p in C; cbn [p_lhs p_rhs p_op] in C; rewrite G in C; discriminate).
  revert F. generalize (field_syns ps). intros es. induction es as [|[q so] es IH]; intros F; [reflexivity|]. cbn [search_fields fst].
  rewrite (F q so (or_introl eq_refl)). apply IH. intros q' so' H. apply (F q' so'). now right.
Qed.

(** A layout with a time, a string and a bool, and two partitions. *)
Definition small_layout : layout :=
  {| la_meta := {| m_name := [108%N]; m_attrs := [] |};
     la_fields := [([116%N], TBasic no_meta BTime); ([115%N], TBasic no_meta BString); ([98%N], TBasic no_meta BBool)] |}.
Definition small_slice (rows : list (list data)) : slice := {| s_layout := small_layout; s_offset := Some 0; s_rows := rows |}.
Definition first_row : list data := [DTime 9; DString [121%N; 121%N]; DBool true].
Definition first_slices : list slice := [small_slice [[DTime 5; DString [120%N]; DBool true]; first_row]; small_slice [[DNone; DNone; DNone]]].
Definition second_slices : list slice := [small_slice [[DTime 7; DString [122%N]; DBool false]]].
Definition synopsis_of (slices : list slice) : psyn :=
  match psyn_add_all length_hash sample_options empty_psyn slices with
  | Some ps => match psyn_shrink length_hash sample_options ps with Some ps' => ps' | None => empty_psyn end
  | None => empty_psyn
  end.
Definition field_pred (name : list N) (op : relop) (d : data) : expr := EPred {| p_lhs := OField name; p_op := op; p_rhs := OVal d |}.
Definition small_query : expr :=
  EAnd [EOr [field_pred [116%N] op_lt (DTime 3); field_pred [115%N] op_eq (DString [121%N; 121%N])]; field_pred [98%N] op_ne (DBool false)].
Lemma exact_suffix : forall name n, exact_name name n = true -> ends_with n name = true.
Proof.
  intros name n H. unfold exact_name, ends_with in *. apply andb_true_iff in H as [H1 H2]. apply Nat.leb_le in H1. apply bytes_eqb_iff in H2.
  apply andb_true_iff. split; [apply Nat.leb_le; cbn [length] in H1; lia|]. apply bytes_eqb_iff. cbn [length] in *.
  assert (E : skipn (length n - length name) n = skipn 1 (skipn (length n - S (length name)) n)).
  { replace (length n - length name) with (1 + (length n - S (length name))) by lia. clear. generalize (length n - S (length name)) as k.
    intros k. revert n. induction k as [|k IH]; intros n; [reflexivity|]. destruct n; [reflexivity|]. cbn [skipn plus] in *. apply IH. }
  rewrite E, H2. reflexivity.
Qed.
Example C17_example :
  (exists ps, psyn_add_all length_hash sample_options empty_psyn first_slices = Some ps /\
     psyn_shrink length_hash sample_options ps = Some (synopsis_of first_slices)) /\
  shrunk (synopsis_of first_slices) /\
  validate (fun _ => true) small_query = true /\ unambiguous small_query /\
  all_preds (prunable literal_regex exact_name small_layout first_row) small_query /\
  holds (column_truth literal_regex exact_name small_layout first_row) small_query = true /\
  mi_lookup length_hash literal_regex (expr_size small_query)
    (mi_run [Merge 9%N (synopsis_of second_slices); Merge 7%N (synopsis_of first_slices); Merge 3%N empty_psyn; Erase 3%N] []) small_query = Some [7%N] /\
  mi_lookup length_hash literal_regex 1
    (mi_run [Merge 9%N (synopsis_of second_slices); Merge 7%N (synopsis_of first_slices)] []) (field_pred [116%N] op_ge (DTime 6)) = Some [7%N; 9%N].
Proof.
  split.
  { destruct (psyn_add_all length_hash sample_options empty_psyn first_slices) as [ps|] eqn:E; [|vm_compute in E; discriminate].
    exists ps. split; [reflexivity|]. unfold synopsis_of. rewrite E. destruct (psyn_shrink length_hash sample_options ps) eqn:S; [reflexivity|].
    exfalso. assert (X : match psyn_add_all length_hash sample_options empty_psyn first_slices with Some ps => match psyn_shrink length_hash sample_options ps with None => true | _ => false end | None => false end = true) by now rewrite E, S.
    vm_compute in X. discriminate. }
  split.
  { split; intros q s H.
    - assert (X : forallb (fun e => match snd e with Some s => match s with STime _ _ | SBool _ _ => true | _ => false end | None => true end) (field_syns (synopsis_of first_slices)) = true) by (vm_compute; reflexivity).
      rewrite forallb_forall in X. specialize (X _ H). cbn [snd] in X. destruct s; try discriminate; split; reflexivity || exact I.
    - assert (X : forallb (fun e => match snd e with Some s => match s with SBloom _ f => negb (bf_partitioned f) && match bf_hasher f with double_hasher _ _ _ => true | _ => false end && (0 <? length (bf_bits f)) | _ => false end | None => true end) (type_syns (synopsis_of first_slices)) = true) by (vm_compute; reflexivity).
      rewrite forallb_forall in X. specialize (X _ H). cbn [snd] in X. destruct s; try discriminate. split; [|reflexivity].
      apply andb_true_iff in X as [X X3]. apply andb_true_iff in X as [X1 X2]. cbn [well_formed]. unfold usable.
      destruct (bf_partitioned f); [discriminate|]. destruct (bf_hasher f); [discriminate|]. split; [exact I|]. now apply Nat.ltb_lt. }
  split; [vm_compute; reflexivity|]. split; [|split].
  - cbn. repeat split; repeat constructor. intros s [].
  - cbn [small_query field_pred all_preds fold_right].
    assert (G : forall name op d, forallb (fun c => negb (selects exact_name small_layout (OField name) op d c) || negb (fst c =? 0)) (columns (la_fields small_layout)) = true \/ op = op_lt ->
      prunable literal_regex exact_name small_layout first_row {| p_lhs := OField name; p_op := op; p_rhs := OVal d |}).
    { intros name op d H. split; [cbn [p_lhs]; apply exact_suffix|]. split; [discriminate|]. cbn [p_lhs p_op p_rhs]. intros d' c x [= <-] Hc Hs Hx. split.
      - intros ->. cbn in Hc. destruct Hc as [<-|[<-|[<-|[] ] ] ]; discriminate Hx.
      - intros z ->. destruct H as [H| ->]; [|split; discriminate]. rewrite forallb_forall in H. specialize (H c Hc). rewrite Hs in H. cbn [negb orb] in H.
        cbn in Hc. destruct Hc as [<-|[<-|[<-|[] ] ] ]; discriminate. }
    split; [split; [apply G; now right|split; [apply G; left; vm_compute; reflexivity|exact I] ]|]. split; [apply G; left; vm_compute; reflexivity|exact I].
  - split; [vm_compute; reflexivity|]. split; vm_compute; reflexivity.
Qed.

(** ** What does not hold *)

(** An event of the only partition satisfies the query, and the partition is not found. *)
Definition loses (slices : list slice) (s : slice) (row : list data) (glob : list N -> list N -> bool) (e : expr) : Prop :=
  exists ps, psyn_add_all length_hash sample_options empty_psyn slices = Some ps /\ In s slices /\ In row (s_rows s) /\
  (exists r, tailor glob e (TRecord (la_meta (s_layout s)) (la_fields (s_layout s))) = ok r /\ row_eval literal_regex (s_layout s) row r = Some true) /\
  mi_lookup length_hash literal_regex (expr_size e) (mi_run [Merge 7%N ps] []) e = Some [].
Definition one_column (t : ty) (x : data) : slice :=
  {| s_layout := {| la_meta := {| m_name := [108%N]; m_attrs := [] |}; la_fields := [([98%N], t)] |}; s_offset := Some 0; s_rows := [[x]] |}.
Ltac loses_by ps r := exists ps; split; [vm_compute; reflexivity|]; split; [cbn; auto|]; split; [cbn; auto|]; split; [exists r; split; vm_compute; reflexivity|vm_compute; reflexivity].

(** A disjunction that compares two fields with the same string is reduced to the first:
    [a == "x" || b == "x"] misses the partitions without [a]. *)
Theorem C17_same_string_refuted : exists slices s row glob e,
  e = EOr [field_pred [97%N] op_eq (DString [120%N]); field_pred [98%N] op_eq (DString [120%N])] /\ loses slices s row glob e.
Proof.
  set (s := one_column (TBasic no_meta BString) (DString [120%N])). exists [s], s, [DString [120%N]], exact_name. eexists. split; [reflexivity|].
  loses_by {| field_syns := [({| q_layout := [108%N]; q_key := [98%N]; q_type := TBasic no_meta BString |}, None)];
              type_syns := [(TBasic no_meta BString, Some (SBuffered KString 5 [DString [120%N]]))] |}
    (EPred {| p_lhs := OData (TBasic no_meta BString) [0]; p_op := op_eq; p_rhs := OVal (DString [120%N]) |}).
Qed.
(** The operators are not looked at either: [b == "x" || b != "x"] misses every partition
    without the string. *)
Theorem C17_same_string_operator_refuted : exists slices s row glob e,
  e = EOr [field_pred [98%N] op_eq (DString [120%N]); field_pred [98%N] op_ne (DString [120%N])] /\ loses slices s row glob e.
Proof.
  set (s := one_column (TBasic no_meta BString) (DString [121%N])). exists [s], s, [DString [121%N]], exact_name. eexists. split; [reflexivity|].
  loses_by {| field_syns := [({| q_layout := [108%N]; q_key := [98%N]; q_type := TBasic no_meta BString |}, None)];
              type_syns := [(TBasic no_meta BString, Some (SBuffered KString 5 [DString [121%N]]))] |}
    (EOr [EPred {| p_lhs := OData (TBasic no_meta BString) [0]; p_op := op_eq; p_rhs := OVal (DString [120%N]) |};
          EPred {| p_lhs := OData (TBasic no_meta BString) [0]; p_op := op_ne; p_rhs := OVal (DString [120%N]) |}]).
Qed.
(** [!=] on times: a partition with values around the operand is not found. *)
Theorem C17_time_refuted : exists slices s row glob e,
  e = field_pred [98%N] op_ne (DTime 5) /\ ~ In DNone row /\ loses slices s row glob e.
Proof.
  set (s := one_column (TBasic no_meta BTime) (DTime 4)). set (s2 := one_column (TBasic no_meta BTime) (DTime 6)).
  exists [s; s2], s, [DTime 4], exact_name. eexists. split; [reflexivity|]. split; [intros [H|[] ]; discriminate|].
  loses_by {| field_syns := [({| q_layout := [108%N]; q_key := [98%N]; q_type := TBasic no_meta BTime |}, Some (STime 4 6))]; type_syns := [] |}
    (EPred {| p_lhs := OData (TBasic no_meta BTime) [0]; p_op := op_ne; p_rhs := OVal (DTime 5) |}).
Qed.
(** Events without a value satisfy [!= true] and [< 5] and are not found. *)
Theorem C17_nil_refuted : exists slices s row glob e slices' s' row' e',
  e = field_pred [98%N] op_ne (DBool true) /\ loses slices s row glob e /\
  e' = field_pred [98%N] op_lt (DTime 5) /\ loses slices' s' row' glob e'.
Proof.
  set (s := one_column (TBasic no_meta BBool) DNone). set (s2 := one_column (TBasic no_meta BTime) DNone).
  exists [s], s, [DNone], exact_name. eexists. exists [s2], s2, [DNone]. eexists. split; [reflexivity|]. split; [|split; [reflexivity|] ].
  - loses_by {| field_syns := [({| q_layout := [108%N]; q_key := [98%N]; q_type := TBasic no_meta BBool |}, Some (SBool false false))]; type_syns := [] |}
      (EPred {| p_lhs := OData (TBasic no_meta BBool) [0]; p_op := op_ne; p_rhs := OVal (DBool true) |}).
  - loses_by {| field_syns := [({| q_layout := [108%N]; q_key := [98%N]; q_type := TBasic no_meta BTime |}, Some (STime time_max time_min))]; type_syns := [] |}
      (EPred {| p_lhs := OData (TBasic no_meta BTime) [0]; p_op := op_lt; p_rhs := OVal (DTime 5) |}).
Qed.
(** [#field != "b"] misses a partition that also has events of a layout with that field. *)
Theorem C17_meta_field_refuted : exists slices s row glob e,
  e = EPred {| p_lhs := OMeta MField; p_op := op_ne; p_rhs := OVal (DString [98%N]) |} /\ loses slices s row glob e.
Proof.
  set (s := {| s_layout := {| la_meta := {| m_name := [109%N]; m_attrs := [] |}; la_fields := [([97%N], TBasic no_meta BTime)] |}; s_offset := Some 0; s_rows := [[DTime 1]] |}).
  set (s2 := one_column (TBasic no_meta BTime) (DTime 6)). exists [s; s2], s, [DTime 1], exact_name. eexists. split; [reflexivity|].
  loses_by {| field_syns := [({| q_layout := [109%N]; q_key := [97%N]; q_type := TBasic no_meta BTime |}, Some (STime 1 1));
                             ({| q_layout := [108%N]; q_key := [98%N]; q_type := TBasic no_meta BTime |}, Some (STime 6 6))]; type_syns := [] |}
    (EPred {| p_lhs := OMeta MField; p_op := op_ne; p_rhs := OVal (DString [98%N]) |}).
Qed.
(** Field names with wildcards: the check of events matches them as patterns, the meta
    index compares them literally. Here the pattern is one question mark. *)
Theorem C17_wildcard_refuted : exists slices s row glob e,
  (forall n, glob [63%N] n = true <-> exists l c, n = l ++ [46%N; c]) /\ e = field_pred [63%N] op_eq (DTime 6) /\ loses slices s row glob e.
Proof.
  set (s := one_column (TBasic no_meta BTime) (DTime 6)).
  exists [s], s, [DTime 6], (fun key n => match rev n with c :: 46%N :: _ => true | _ => false end). eexists. split; [|split; [reflexivity|] ].
  - intros n. split.
    + intros H. destruct (rev n) as [|c r] eqn:E; [discriminate|]. destruct r as [|d r]; [discriminate|].
      assert (d = 46%N) as -> by (destruct d as [|p]; [discriminate|]; do 6 (destruct p as [p|p|]; try discriminate); reflexivity).
      exists (rev r), c. rewrite <- (rev_involutive n), E. cbn [rev]. now rewrite <- app_assoc.
    + intros (l & c & ->). rewrite rev_app_distr. reflexivity.
  - loses_by {| field_syns := [({| q_layout := [108%N]; q_key := [98%N]; q_type := TBasic no_meta BTime |}, Some (STime 6 6))]; type_syns := [] |}
    (EPred {| p_lhs := OData (TBasic no_meta BTime) [0]; p_op := op_eq; p_rhs := OVal (DTime 6) |}).
Qed.
(** A query with NaN is pruned forever. *)
Definition nan_bits : N := 9221120237041090560%N.
Theorem C17_nan_refuted : exists e, validate (fun _ => true) e = true /\ forall hash re fuel m, mi_lookup hash re fuel m e = None.
Proof.
  exists (field_pred [98%N] op_eq (DReal nan_bits)). split; [reflexivity|]. intros hash re fuel m. unfold mi_lookup, prune_all.
  set (e := field_pred [98%N] op_eq (DReal nan_bits)). change (prune e) with e.
  assert (E : expr_eqb e e = false) by (vm_compute; reflexivity).
  enough (L : prune_loop fuel e e = None) by now rewrite L.
  induction fuel as [|fuel IH]; cbn [prune_loop]; rewrite E; [reflexivity|exact IH].
Qed.
(** A column whose type is an alias of bool, string or address fails an assertion, as does
    a layout without a name. *)
Theorem C17_alias_refuted : exists s s', s_rows s <> [] /\ s_rows s' <> [] /\
  psyn_add length_hash sample_options empty_psyn s = None /\ psyn_add length_hash sample_options empty_psyn s' = None.
Proof.
  exists (one_column (TAlias {| m_name := [120%N]; m_attrs := [] |} (TBasic no_meta BBool)) (DBool true)),
    {| s_layout := {| la_meta := no_meta; la_fields := [([98%N], TBasic no_meta BBool)] |}; s_offset := Some 0; s_rows := [[DBool true]] |}.
  repeat split; try discriminate; vm_compute; reflexivity.
Qed.

Definition assumptions_meta_index := (C17_no_candidate_lost, C17_no_event_lost, C17_defined, C17_known, C17_absent_field,
  C17_same_string_refuted, C17_same_string_operator_refuted, C17_time_refuted, C17_nil_refuted, C17_meta_field_refuted,
  C17_wildcard_refuted, C17_nan_refuted, C17_alias_refuted).
Print Assumptions assumptions_meta_index.
