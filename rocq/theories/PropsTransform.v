(** Properties of transforms of table slices. *)
From Coq Require Import List ZArith NArith Bool Arith Lia ZifyBool ZifyNat ZifyN.
From Verif Require Import OperatorModel AddressModel AddressProofs DataModel DataProofs TypeModel TypeProofs MsgpackProofs ArrowModel ArrowProofs TransformModel TransformProofs.
Import ListNotations.
Open Scope nat_scope.

(** * C54: Transforms change only what they name *)

(** The name of the layout of a slice. *)
Definition event (s : tslice) : name := m_name (t_meta s).

(** A slice of an event type that no transform names passes as it is. *)
Theorem C54_other : forall digest ts s, (forall t e, In t ts -> In e (tr_events t) -> e <> event s) -> engine digest ts s = Some (Done s).
Proof.
  intros digest ts s H. unfold engine. assert (E : matching ts (m_name (t_meta s)) = []).
  { unfold matching. induction ts as [|t ts IH]; [reflexivity|]. cbn [flat_map]. rewrite IH by (intros t' e A; apply H; now right). rewrite app_nil_r.
    assert (F : filter (bytes_eqb (m_name (t_meta s))) (tr_events t) = []).
    { assert (G : forall e, In e (tr_events t) -> e <> event s) by (intros e; apply H; now left). revert G. generalize (tr_events t). induction l as [|e l IHl]; intros G; [reflexivity|].
      cbn [filter]. destruct (bytes_eqb _ e) eqn:B; [apply bytes_eqb_spec in B; exfalso; apply (G e); [now left|symmetry; exact B]|]. apply IHl. intros e' X. apply G. now right. }
    rewrite F. reflexivity. }
  rewrite E. reflexivity.
Qed.

Lemma matching_in : forall ts n t, In t (matching ts n) <-> In t ts /\ In n (tr_events t).
Proof.
  intros ts n t. unfold matching. rewrite in_flat_map. split.
  - intros (u & A & B). apply in_map_iff in B. destruct B as (e & <- & B). apply filter_In in B. destruct B as [B C]. apply bytes_eqb_spec in C. subst e. auto.
  - intros [A B]. exists t. split; [exact A|]. apply in_map_iff. exists n. split; [reflexivity|]. apply filter_In. split; [exact B|]. apply bytes_eqb_refl.
Qed.

(** Whatever the transforms are, a slice that comes out of them has the name, the number of
    rows and, if any of them has a step, the offset of the slice that went in. *)
Theorem C54_engine : forall digest ts s r, sane s -> engine digest ts s = Some r ->
  exists s', r = Done s' /\ sane s' /\ t_meta s' = t_meta s /\ t_rows s' = t_rows s /\
    ((exists t, In t ts /\ In (event s) (tr_events t) /\ tr_steps t <> []) -> t_offset s' = t_offset s).
Proof.
  intros digest ts s r S H. unfold engine in H. pose proof (matching_in ts (m_name (t_meta s))) as In_m.
  destruct (matching ts (m_name (t_meta s))) as [|t0 l] eqn:E.
  - injection H as <-. exists s. auto 8.
  - destruct (forallb fast_path (t0 :: l)) eqn:F.
    + destruct S as (S1 & S2 & S3). destruct (create _ _ _ _) as [s'|] eqn:C; [|discriminate]. cbn in H. injection H as <-.
      destruct (create_sane _ _ _ _ _ S1 S3 C) as [S' ->]. eexists. split; [reflexivity|]. split; [exact S'|]. split; [reflexivity|]. split; [reflexivity|].
      intros (t & A & B & D). exfalso. rewrite forallb_forall in F. specialize (F t (proj2 (In_m t) (conj A B))). unfold fast_path in F. destruct (tr_steps t); congruence.
    + destruct (apply_all digest (t0 :: l) (t_rows s) s) as [ [s1|]|] eqn:A; [| |discriminate].
      * destruct (apply_all_sane digest _ _ _ _ S eq_refl A) as (s' & Q & S' & M & R). injection Q as <-. injection H as <-. eexists. split; [reflexivity|].
        split; [exact S'|]. split; [exact M|]. split; [exact R|]. reflexivity.
      * destruct (apply_all_sane digest _ _ _ _ S eq_refl A) as (s' & Q & _). discriminate.
Qed.

(** The transforms for an event run one after the other in the order of the configuration,
    each with all of its steps. *)
Definition steps_for (ts : list transform) (n : name) : list step := flat_map tr_steps (filter (fun t => existsb (bytes_eqb n) (tr_events t)) ts).
Definition with_offset (o : option nat) (s : tslice) : tslice :=
  {| t_meta := t_meta s; t_fields := t_fields s; t_batch := t_batch s; t_rows := t_rows s; t_offset := o |}.

Lemma filter_once : forall (n : name) es, NoDup es -> filter (bytes_eqb n) es = if existsb (bytes_eqb n) es then [n] else [].
Proof.
  intros n es H. induction H as [|e es Ni H IH]; [reflexivity|]. cbn [filter existsb]. destruct (bytes_eqb n e) eqn:B; cbn [orb].
  - apply bytes_eqb_spec in B. subst e. rewrite IH. destruct (existsb (bytes_eqb n) es) eqn:X; [|reflexivity].
    apply existsb_exists in X. destruct X as (y & A & C). apply bytes_eqb_spec in C. subst y. contradiction.
  - exact IH.
Qed.
Lemma matching_once : forall ts n, Forall (fun t => NoDup (tr_events t)) ts -> matching ts n = filter (fun t => existsb (bytes_eqb n) (tr_events t)) ts.
Proof.
  intros ts n H. unfold matching. induction H as [|t ts Nd H IH]; [reflexivity|]. cbn [flat_map filter]. rewrite filter_once by exact Nd. rewrite IH.
  destruct (existsb _ _); reflexivity.
Qed.
Lemma apply_all_steps : forall digest l s, sane s -> Forall (fun t => names_event t (event s) = true) l ->
  apply_all digest l (t_rows s) s = option_map Done (apply_steps digest (flat_map tr_steps l) s).
Proof.
  intros digest. assert (App : forall xs ys s, apply_steps digest (xs ++ ys) s = match apply_steps digest xs s with None => None | Some s' => apply_steps digest ys s' end).
  { induction xs as [|x xs IH]; intros ys s; [reflexivity|]. cbn [app apply_steps]. destruct (apply_step digest x s); [apply IH|reflexivity]. }
  induction l as [|t l IH]; intros s S H; [reflexivity|]. inversion H as [|? ? H1 H2]; subst. cbn [apply_all flat_map]. rewrite App. unfold apply_transform. unfold event in H1. rewrite H1.
  destruct (apply_steps digest (tr_steps t) s) as [s1|] eqn:E; [|reflexivity]. destruct (apply_steps_sane digest _ _ _ S E) as (S1 & M1 & R1).
  replace (t_rows s1 =? t_rows s) with true by lia. rewrite <- R1. apply IH; [exact S1|]. unfold event in *. rewrite M1. exact H2.
Qed.
Theorem C54_order : forall digest ts s, sane s -> Forall (fun t => NoDup (tr_events t)) ts -> steps_for ts (event s) <> [] ->
  engine digest ts s = option_map (fun s' => Done (with_offset (t_offset s) s')) (apply_steps digest (steps_for ts (event s)) s).
Proof.
  intros digest ts s S Nd Ne. unfold engine, steps_for in *. unfold event in *. rewrite matching_once by exact Nd.
  set (l := filter (fun t => existsb (bytes_eqb (m_name (t_meta s))) (tr_events t)) ts) in *.
  assert (F : forallb fast_path l = false).
  { destruct (forallb fast_path l) eqn:F; [|reflexivity]. exfalso. apply Ne. clear -F. induction l as [|t l IH]; [reflexivity|]. cbn [forallb] in F. apply andb_true_iff in F.
    destruct F as [F1 F2]. cbn [flat_map]. rewrite IH by exact F2. unfold fast_path in F1. destruct (tr_steps t); [reflexivity|discriminate]. }
  assert (A : Forall (fun t => names_event t (event s) = true) l).
  { apply Forall_forall. intros t Ht. apply filter_In in Ht. apply Ht. }
  pose proof (apply_all_steps digest l s S A) as AA. destruct l as [|t0 l0]; [exfalso; apply Ne; reflexivity|]. rewrite F, AA.
  destruct (apply_steps digest (flat_map tr_steps (t0 :: l0)) s) as [s'|]; reflexivity.
Qed.

(** ** Steps *)

(** Deleting a column by its name removes that column and no other. [clear_path] says that no
    earlier sibling of the field or of a record around it shares a prefix with it. *)
Theorem C54_delete : forall digest s o ns t k, sane s -> leaf_at (t_fields s) o ns t -> clear_path (t_fields s) o -> Forall (fun n => n <> []) ns ->
  flat_index_at (t_fields s) o = Some k ->
  nth_error (keys s) k = Some (join ns) /\
  exists s', apply_step digest (Delete (join ns)) s = Some s' /\ sane s' /\ t_meta s' = t_meta s /\ t_rows s' = t_rows s /\
    S (length (keys s')) = length (keys s) /\ forall j, same_column s (if j <? k then j else S j) s' j.
Proof.
  intros digest s o ns t k S L C Nn K. pose proof (leaves_nth _ _ _ _ _ L K) as Xk.
  assert (Fk : nth_error (flatten_fields (t_fields s)) k = Some (join ns, t)) by (rewrite flatten_leaves, nth_error_map, Xk; reflexivity).
  split; [unfold keys; rewrite nth_error_map, Fk; reflexivity|].
  destruct (remove_at_leaf _ _ _ _ _ L K) as (gs & R & Fl). unfold without in Fl. pose proof (sane_length s S) as Ls. destruct S as (S1 & S2 & S3).
  assert (Hk : k < length (flatten_fields (t_fields s))) by (apply nth_error_Some; congruence).
  assert (Ap : apply_step digest (Delete (join ns)) s = create (t_meta s) gs (firstn k (t_batch s) ++ skipn (S k) (t_batch s)) (t_rows s)).
  { unfold apply_step, run_step. rewrite (resolve_key_leaf _ _ _ _ L C Nn), K. unfold remove_column. replace (k <? length (t_batch s)) with true by lia. rewrite R. reflexivity. }
  pose proof (remove_at_nonempty _ _ _ S1 R) as Ng. rewrite create_spec in Ap by exact Ng.
  assert (Sc : batch_schema (firstn k (t_batch s) ++ skipn (S k) (t_batch s)) = schema_of gs).
  { unfold batch_schema, schema_of in *. rewrite Fl, !map_app, <- !firstn_map, <- !skipn_map, S2. reflexivity. }
  rewrite (proj2 (schema_eqb_eq _ _) Sc) in Ap. eexists. split; [exact Ap|]. split.
  { repeat split; [exact Ng|exact Sc|]. cbn [t_batch t_rows]. apply Forall_app. split; apply forall_firstn_skipn; exact S3. }
  split; [reflexivity|]. split; [reflexivity|]. split.
  - unfold keys. cbn [t_fields]. rewrite !map_length, Fl, app_length, firstn_length, skipn_length. lia.
  - intros j. apply same_column_of; [reflexivity| |]; cbn [t_fields t_batch].
    + rewrite Fl. apply nth_remove.
    + rewrite map_app, <- firstn_map, <- skipn_map. apply nth_remove.
Qed.

(** Hashing a column leaves all columns as they are and appends one with a text per row
    that depends on the value in that row. *)
Theorem C54_hash : forall digest s o ns t k out salt, sane s -> leaf_at (t_fields s) o ns t -> clear_path (t_fields s) o -> Forall (fun n => n <> []) ns ->
  flat_index_at (t_fields s) o = Some k ->
  exists s' a, apply_step digest (Hash (join ns) out salt) s = Some s' /\ sane s' /\ t_meta s' = t_meta s /\ t_rows s' = t_rows s /\
    keys s' = keys s ++ [out] /\ (forall j, j < length (keys s) -> same_column s j s' j) /\
    nth_error (as_arrays (view s)) k = Some a /\
    (forall i, i < t_rows s -> at_ (view s') i (length (keys s)) = Some (DString (digest (slot a i) salt))) /\
    (forall m b i i' x, strip t = TBasic m b -> b <> BSubnet -> at_typed (view s) i k t = Some x -> at_typed (view s) i' k t = Some x -> slot a i = slot a i').
Proof.
  intros digest s o ns t k out salt S L C Nn K. pose proof (leaves_nth _ _ _ _ _ L K) as Xk.
  assert (Fk : nth_error (flatten_fields (t_fields s)) k = Some (join ns, t)) by (rewrite flatten_leaves, nth_error_map, Xk; reflexivity).
  pose proof (sane_length s S) as Ls. destruct S as (S1 & S2 & S3).
  assert (Hk : k < length (flatten_fields (t_fields s))) by (apply nth_error_Some; congruence).
  destruct (nth_error (t_batch s) k) as [ [nk a]|] eqn:Bk; [|apply nth_error_None in Bk; lia].
  assert (Ap : apply_step digest (Hash (join ns) out salt) s =
    create (t_meta s) (t_fields s ++ [(out, TBasic no_meta BString)]) (t_batch s ++ [(out, hashes digest a salt (t_rows s))]) (t_rows s)).
  { unfold apply_step, run_step. rewrite (resolve_key_leaf _ _ _ _ L C Nn), K, Bk. unfold add_column. rewrite hashes_len, Nat.leb_refl, Nat.eqb_refl. cbn [andb option_map].
    rewrite firstn_all, skipn_all. reflexivity. }
  pose proof (nonempty_snoc (t_fields s) out no_meta BString S1) as Ng. rewrite create_spec in Ap by exact Ng.
  assert (Sc : batch_schema (t_batch s ++ [(out, hashes digest a salt (t_rows s))]) = schema_of (t_fields s ++ [(out, TBasic no_meta BString)])).
  { unfold batch_schema, schema_of in *. rewrite flatten_snoc, !map_app, S2. reflexivity. }
  rewrite (proj2 (schema_eqb_eq _ _) Sc) in Ap. eexists. exists a. split; [exact Ap|]. split.
  { repeat split; [exact Ng|exact Sc|]. cbn [t_batch t_rows]. apply Forall_app. split; [exact S3|]. constructor; [apply hashes_len|constructor]. }
  split; [reflexivity|]. split; [reflexivity|]. split; [unfold keys; cbn [t_fields]; rewrite flatten_snoc, map_app; reflexivity|]. split.
  { unfold keys. rewrite map_length. intros j Hj. apply same_column_of; [reflexivity| |]; cbn [t_fields t_batch].
    - rewrite flatten_snoc. apply nth_error_app1, Hj.
    - rewrite map_app. apply nth_error_app1. rewrite map_length. lia. }
  split; [cbn [view as_arrays]; rewrite nth_error_map, Bk; reflexivity|]. split.
  - intros i Hi. unfold at_, view, keys. cbn [as_rows as_cols as_arrays t_rows t_fields t_batch]. rewrite flatten_snoc, !map_length, app_length. cbn [length].
    replace ((i <? t_rows s) && (length (flatten_fields (t_fields s)) <? length (t_batch s) + 1)) with true by lia.
    assert (X : nth_error (map snd (flatten_fields (t_fields s) ++ [(out, TBasic no_meta BString)])) (length (flatten_fields (t_fields s))) = Some (TBasic no_meta BString)).
    { rewrite map_app. rewrite nth_error_app2 by (rewrite map_length; lia). rewrite map_length, Nat.sub_diag. reflexivity. }
    assert (Y : nth_error (map snd (t_batch s ++ [(out, hashes digest a salt (t_rows s))])) (length (flatten_fields (t_fields s))) = Some (hashes digest a salt (t_rows s))).
    { rewrite <- Ls, map_app. rewrite nth_error_app2 by (rewrite map_length; lia). rewrite map_length, Nat.sub_diag. reflexivity. }
    rewrite X, Y. unfold hashes. cbn [value_at decodes]. rewrite nth_error_map. rewrite nth_error_nth' with (d := 0) by (rewrite seq_length; exact Hi). rewrite seq_nth by exact Hi. reflexivity.
  - intros m b i i' x St Nb V V'. unfold at_typed, view in V, V'. cbn [as_rows as_cols as_arrays] in V, V'.
    destruct (_ && _) in V; [|discriminate]. destruct (_ && _) in V'; [|discriminate]. rewrite !nth_error_map, Fk, Bk in V, V'. cbn [option_map snd] in V, V'.
    destruct (congruent t (strip t)); [|discriminate]. rewrite St in V, V'.
    assert (At : arr_type a = TyPrim (kind_of b)).
    { unfold batch_schema, schema_of in S2. pose proof (f_equal (fun l => nth_error l k) S2) as Q. cbn beta in Q. rewrite !nth_error_map, Fk, Bk in Q. cbn [option_map fst snd] in Q.
      injection Q as _ Q. rewrite Q. clear -St. revert St. induction t using ty_rect'; cbn [strip]; intros St; try discriminate; [injection St as -> ->; reflexivity|]. apply IHt, St. }
    destruct a as [|kd xs| |]; try discriminate. injection At as ->. cbn [value_at] in V, V'. cbn [slot].
    assert (D : decodes (kind_of b) b = true) by (destruct b; reflexivity).
    assert (V1 : match nth_error xs i with None => None | Some None => Some DNone | Some (Some p) => of_prim (kind_of b) b p end = Some x) by (destruct b; exact V).
    assert (V2 : match nth_error xs i' with None => None | Some None => Some DNone | Some (Some p) => of_prim (kind_of b) b p end = Some x) by (destruct b; exact V').
    destruct (nth_error xs i) as [ [p|]|]; [| |discriminate]; (destruct (nth_error xs i') as [ [p'|]|]; [| |discriminate]); try reflexivity.
    + assert (p = p'); [|subst; reflexivity]. destruct b; try congruence; destruct p, p'; cbn in V1, V2; congruence.
    + exfalso. destruct b; destruct p; cbn in V1, V2; congruence.
    + exfalso. destruct b; destruct p'; cbn in V1, V2; congruence.
Qed.

Lemma basic_type_cell : forall b x, basic_cell b x -> basic_type x = Some (TBasic no_meta b).
Proof. intros b x H. destruct b, x; cbn in *; try contradiction; reflexivity. Qed.
Lemma value_at_meta : forall m m' b a i, value_at (TBasic m b) a i = value_at (TBasic m' b) a i.
Proof. intros m m' b a i. destruct a; reflexivity. Qed.

(** Replacing a column with a value of its type sets the value in every row of that column and
    leaves the others as they are. *)
Theorem C54_replace : forall digest s o ns t k m b x, sane s -> leaf_at (t_fields s) o ns t -> clear_path (t_fields s) o -> Forall (fun n => n <> []) ns ->
  flat_index_at (t_fields s) o = Some k -> strip t = TBasic m b -> basic_cell b x ->
  exists s', apply_step digest (Replace (join ns) x) s = Some s' /\ sane s' /\ t_meta s' = t_meta s /\ t_rows s' = t_rows s /\ keys s' = keys s /\
    (forall j, j <> k -> same_column s j s' j) /\
    forall i, i < t_rows s -> at_typed (view s') i k t = Some x /\ (t = TBasic m b -> at_ (view s') i k = Some x).
Proof.
  intros digest s o ns t k m b x S L C Nn K St Cx. pose proof (leaves_nth _ _ _ _ _ L K) as Xk.
  assert (Fk : nth_error (flatten_fields (t_fields s)) k = Some (join ns, t)) by (rewrite flatten_leaves, nth_error_map, Xk; reflexivity).
  pose proof (sane_length s S) as Ls. destruct S as (S1 & S2 & S3).
  assert (Hk : k < length (flatten_fields (t_fields s))) by (apply nth_error_Some; congruence).
  destruct (fill_spec (TBasic no_meta b) x (t_rows s) (APrim (kind_of b) [])) as (a & Fa & Sa & La & _ & Va); [exact I|reflexivity|right; exact Cx|]. cbn [alen length] in La, Va.
  assert (Ap : apply_step digest (Replace (join ns) x) s =
    create (t_meta s) (t_fields s) (firstn k (t_batch s) ++ (join ns, a) :: skipn (S k) (t_batch s)) (t_rows s)).
  { unfold apply_step, run_step. rewrite (resolve_key_leaf _ _ _ _ L C Nn), K, (basic_type_cell _ _ Cx). cbn [make_column]. rewrite Fa. unfold remove_column.
    replace (k <? length (t_batch s)) with true by lia. unfold add_column. rewrite app_length, firstn_length, skipn_length.
    replace ((k <=? _) && (alen a =? t_rows s)) with true by lia. rewrite remove_insert by lia.
    destruct (leaf_path _ _ _ _ L) as [No Pr]. unfold assign. destruct o as [|o1 o]; [congruence|]. rewrite Pr. reflexivity. }
  rewrite create_spec in Ap by exact S1.
  assert (At : arr_type a = arrow_type t).
  { assert (A1 : arr_type a = TyPrim (kind_of b)) by (destruct a; try contradiction; cbn in Sa; subst; reflexivity). rewrite A1.
    clear -St. revert St. induction t using ty_rect'; cbn [strip]; intros St; try discriminate; [injection St as -> ->; reflexivity|]. apply IHt, St. }
  assert (Sc : batch_schema (firstn k (t_batch s) ++ (join ns, a) :: skipn (S k) (t_batch s)) = schema_of (t_fields s)).
  { unfold batch_schema, schema_of in *. rewrite map_app. cbn [map fst snd]. rewrite <- firstn_map, <- skipn_map, S2, At.
    apply nth_ext with (d := ([], TyNull)) (d' := ([], TyNull)).
    - rewrite app_length. cbn [length]. rewrite firstn_length, skipn_length, !map_length. lia.
    - intros j Hj. apply nth_error_nth. rewrite nth_replace by (rewrite map_length; exact Hk). destruct (Nat.eqb_spec j k) as [->|Ne].
      + symmetry. rewrite nth_error_nth with (x := (join ns, arrow_type t)); [reflexivity|]. rewrite nth_error_map, Fk. reflexivity.
      + apply nth_error_nth'. rewrite app_length in Hj. cbn [length] in Hj. rewrite firstn_length, skipn_length, map_length in Hj. rewrite map_length. lia. }
  rewrite (proj2 (schema_eqb_eq _ _) Sc) in Ap. eexists. split; [exact Ap|]. split.
  { repeat split; [exact S1|exact Sc|]. cbn [t_batch t_rows]. apply Forall_app. split; [apply forall_firstn_skipn; exact S3|]. constructor; [exact La|]. apply forall_firstn_skipn. exact S3. }
  split; [reflexivity|]. split; [reflexivity|]. split; [reflexivity|].
  assert (Bk : forall j, nth_error (map snd (firstn k (t_batch s) ++ (join ns, a) :: skipn (S k) (t_batch s))) j = if j =? k then Some a else nth_error (map snd (t_batch s)) j).
  { intros j. rewrite map_app. cbn [map snd]. rewrite <- firstn_map, <- skipn_map. apply nth_replace. rewrite map_length. lia. }
  split.
  - intros j Nj. apply same_column_of; [reflexivity|reflexivity|]. cbn [t_batch]. rewrite Bk. destruct (Nat.eqb_spec j k); [contradiction|reflexivity].
  - intros i Hi. unfold at_typed, at_, view. cbn [as_rows as_cols as_arrays t_rows t_fields t_batch]. rewrite !nth_bound, Bk, Nat.eqb_refl, !nth_error_map, Fk. cbn [option_map snd].
    replace (i <? t_rows s) with true by lia. cbn [andb]. assert (Cg : congruent t (strip t) = true) by (apply congruent_shape; symmetry; apply (shape_strip t)). rewrite Cg.
    pose proof (Va i ltac:(lia)) as V. split; [rewrite St, (value_at_meta m no_meta); exact V|]. intros ->. rewrite (value_at_meta m no_meta). exact V.
Qed.

(** A step for a field that is not there changes nothing. *)
Theorem C54_unknown : forall digest st s, sane s ->
  resolve_key (TRecord (t_meta s) (t_fields s)) (match st with Delete f => f | Hash f _ _ => f | Replace f _ => f end) = Some None ->
  apply_step digest st s = Some (with_offset None s).
Proof.
  intros digest st s (S1 & S2 & S3) H. unfold apply_step, run_step. rewrite H. rewrite create_spec by exact S1. unfold batch_schema, schema_of in *.
  rewrite (proj2 (schema_eqb_eq _ _) S2). reflexivity.
Qed.

(** Where a column is after a step, by what the step names: nowhere if it is deleted or
    replaced. *)
Definition after_step (st : step) (s : tslice) (j : nat) : option nat :=
  let target f := match resolve_key (TRecord (t_meta s) (t_fields s)) f with Some (Some o) => flat_index_at (t_fields s) o | _ => None end in
  match st with
  | Hash _ _ _ => Some j
  | Replace f _ => if match target f with Some k => j =? k | None => false end then None else Some j
  | Delete f => match target f with
                | Some k => if j =? k then None else Some (if j <? k then j else pred j)
                | None => Some j
                end
  end.
Fixpoint after_steps (digest : scalar -> option name -> name) (sts : list step) (s : tslice) (j : nat) : option nat :=
  match sts with
  | [] => Some j
  | st :: r => match apply_step digest st s, after_step st s j with
               | Some s', Some j' => after_steps digest r s' j'
               | _, _ => None
               end
  end.
Lemma same_refl : forall s j, same_column s j s j. Proof. intros. repeat split; reflexivity. Qed.
Lemma same_trans : forall s j s1 j1 s2 j2, same_column s j s1 j1 -> same_column s1 j1 s2 j2 -> same_column s j s2 j2.
Proof.
  intros s j s1 j1 s2 j2 (A & B & C & D) (A' & B' & C' & D'). split; [congruence|]. split; [congruence|].
  split; intros i; [rewrite C'; apply C|intros t; rewrite D'; apply D].
Qed.
Lemma after_step_same : forall digest st s s' j j', sane s -> j < length (keys s) -> apply_step digest st s = Some s' -> after_step st s j = Some j' ->
  same_column s j s' j' /\ j' < length (keys s').
Proof.
  intros digest st s s' j j' Sn Hj H A. pose proof (sane_length s Sn) as Ls. destruct Sn as (S1 & S2 & S3). unfold keys in Hj. rewrite map_length in Hj.
  unfold apply_step, run_step in H. set (field := match st with Delete f => f | Hash f _ _ => f | Replace f _ => f end) in *.
  assert (Same : forall fs b s1, fs = t_fields s -> b = t_batch s -> create (t_meta s) fs b (t_rows s) = Some s1 -> same_column s j s1 j /\ j < length (keys s1)).
  { intros fs b s1 -> -> Cr. destruct (create_sane _ _ _ _ _ S1 S3 Cr) as [_ ->]. split; [apply same_column_of; reflexivity|]. unfold keys. cbn [t_fields]. rewrite map_length. exact Hj. }
  destruct (resolve_key (TRecord (t_meta s) (t_fields s)) field) as [ [o|]|] eqn:R; [| |discriminate].
  2:{ assert (j' = j) by (destruct st; cbn [after_step] in A; unfold field in R; rewrite ?R in A; congruence). subst j'. eapply Same; [reflexivity|reflexivity|exact H]. }
  destruct (flat_index_at (t_fields s) o) as [k|] eqn:K; [|discriminate]. pose proof (flat_index_bound _ _ _ K) as Hk.
  assert (Lf : length (flatten_fields (t_fields s)) = length (leaf_list (t_fields s))) by (rewrite flatten_leaves, map_length; reflexivity).
  destruct st as [f|f out salt|f x]; unfold field in *; clear field; cbn [after_step] in A; rewrite ?R, ?K in A.
  - destruct (flat_index_leaf _ _ _ K) as (ns & t & L). destruct (remove_at_leaf _ _ _ _ _ L K) as (gs & Rm & Fl). unfold without in Fl. rewrite Rm in H. unfold remove_column in H.
    replace (k <? length (t_batch s)) with true in H by lia. pose proof (remove_at_nonempty _ _ _ S1 Rm) as Ng. rewrite create_spec in H by exact Ng.
    destruct (schema_eqb _ _); [|discriminate].
    match type of H with Some ?u = Some s' => assert (X : s' = u) by congruence end. subst s'. clear H. destruct (Nat.eqb_spec j k) as [|Nk]; [discriminate|].
    assert (Jj : j' = if j <? k then j else pred j) by congruence. subst j'. split.
    + assert (Back : (if (if j <? k then j else pred j) <? k then (if j <? k then j else pred j) else S (if j <? k then j else pred j)) = j).
      { destruct (Nat.ltb_spec j k); [replace (j <? k) with true by lia; reflexivity|]. replace (pred j <? k) with false by lia. lia. }
      apply same_column_of; [reflexivity| |]; cbn [t_fields t_batch].
      * rewrite Fl, nth_remove, Back. reflexivity.
      * rewrite map_app, <- firstn_map, <- skipn_map, nth_remove, Back. reflexivity.
    + unfold keys. cbn [t_fields]. rewrite map_length, Fl, app_length, firstn_length, skipn_length. destruct (j <? k) eqn:Q; lia.
  - injection A as <-. destruct (nth_error (t_batch s) k) as [ [n a]|]; [|discriminate]. unfold add_column in H. rewrite hashes_len, Nat.leb_refl, Nat.eqb_refl in H. cbn [andb option_map] in H.
    rewrite firstn_all, skipn_all in H. rewrite create_spec in H by (apply nonempty_snoc, S1). destruct (schema_eqb _ _); [|discriminate]. injection H as <-. split.
    + apply same_column_of; [reflexivity| |]; cbn [t_fields t_batch]; [rewrite flatten_snoc; apply nth_error_app1, Hj|]. rewrite map_app. apply nth_error_app1. rewrite map_length. lia.
    + unfold keys. cbn [t_fields]. rewrite flatten_snoc, map_length, app_length. cbn. lia.
  - destruct (Nat.eqb_spec j k) as [|Nk]; [discriminate|]. injection A as <-. destruct (basic_type x) as [t|]; [|discriminate]. destruct (make_column t) as [a0|]; [|discriminate].
    destruct (fill t x (t_rows s) a0) as [a|]; [|discriminate]. unfold remove_column in H. replace (k <? length (t_batch s)) with true in H by lia.
    unfold add_column in H. destruct (_ && _) eqn:Q in H; [|discriminate]. rewrite remove_insert in H by lia.
    destruct (assign (t_meta s) (t_fields s) o (f, t)) as [ [u|]|] eqn:As; try discriminate. apply assign_same in As. subst u. rewrite create_spec in H by exact S1.
    destruct (schema_eqb _ _); [|discriminate]. match type of H with Some ?u = Some s' => assert (X : s' = u) by congruence end. subst s'. clear H. split.
    + apply same_column_of; [reflexivity|reflexivity|]. cbn [t_batch]. rewrite map_app. cbn [map snd]. rewrite <- firstn_map, <- skipn_map, nth_replace by (rewrite map_length; lia).
      destruct (Nat.eqb_spec j k); [contradiction|reflexivity].
    + unfold keys. cbn [t_fields]. rewrite map_length. exact Hj.
Qed.

(** However many steps run, a column that none of them deletes or replaces keeps its name, its
    type and its values. *)
Theorem C54_kept : forall digest sts s s' j j', sane s -> j < length (keys s) -> apply_steps digest sts s = Some s' -> after_steps digest sts s j = Some j' ->
  same_column s j s' j' /\ j' < length (keys s').
Proof.
  intros digest. induction sts as [|st sts IH]; intros s s' j j' S Hj H A; cbn [apply_steps after_steps] in H, A.
  - injection H as <-. injection A as <-. split; [apply same_refl|exact Hj].
  - destruct (apply_step digest st s) as [s1|] eqn:E; [|discriminate]. destruct (after_step st s j) as [j1|] eqn:E1; [|discriminate].
    destruct (after_step_same digest _ _ _ _ _ S Hj E E1) as [Q1 B1]. destruct (apply_step_sane digest _ _ _ S E) as (S1 & _).
    destruct (IH s1 s' j1 j' S1 B1 H A) as [Q2 B2]. split; [|exact B2]. eapply same_trans; eassumption.
Qed.

(** ** Cases *)

Definition bt (b : basic) : ty := TBasic no_meta b.
(** { a: count, c: string, r: { x: int } } with two rows at offset 10. *)
Definition sample_layout : list field := [([97], bt BCount); ([99], bt BString); ([114], TRecord no_meta [([120], bt BInteger)])]%N.
Definition sample : tslice :=
  {| t_meta := {| m_name := [101]%N; m_attrs := [] |}; t_fields := sample_layout;
     t_batch := [([97], APrim KUint64 [Some (PUint 1); None]); ([99], APrim KString [Some (PBytes [104]); Some (PBytes [105])]);
                 ([114; 46; 120], APrim KInt64 [Some (PInt 5); Some (PInt (-6))])]%N;
     t_rows := 2; t_offset := Some 10 |}.
Lemma sample_sane : sane sample.
Proof. split; [reflexivity|]. split; [reflexivity|]. repeat constructor. Qed.
(** A digest that shows what it is given. *)
Definition plain_digest (x : scalar) (salt : option name) : name :=
  match x with SPrim _ (PBytes s) => s | SPrim _ (PUint n) => [n] | SPrim _ (PInt z) => [Z.to_N z] | _ => [] end ++ match salt with Some s => s | None => [] end.

Example C54_delete_example : leaf_at (t_fields sample) [2; 0] [[114]; [120]]%N (bt BInteger) /\ clear_path (t_fields sample) [2; 0] /\ flat_index_at (t_fields sample) [2; 0] = Some 2.
Proof.
  split; [econstructor 2; [reflexivity|]; constructor; reflexivity|]. split; [|reflexivity].
  assert (P : forall a b : N, a <> b -> ~ prefix [a] [b]) by (intros a b H [c E]; injection E as E _; auto).
  assert (D : forall a : N, a <> dot -> ~ In dot [a]) by (intros a H [E|[] ]; auto).
  econstructor 2; [reflexivity| |].
  - intros [|[|j] ] n t Hj E; [| |lia]; cbn in E; injection E as <- <-; (split; [apply D; discriminate|split; apply P; discriminate]).
  - econstructor; [reflexivity|]. intros j n t Hj. lia.
Qed.
Example C54_engine_example : exists s', engine plain_digest [{| tr_events := [[101]]; tr_steps := [Hash [99] [104] (Some [7]); Delete [99]; Replace [97] (DCount 9)] |}]%N sample = Some (Done s') /\
  keys s' = [[97]; [114; 46; 120]; [104]]%N /\ t_offset s' = Some 10 /\ at_ (view s') 1 0 = Some (DCount 9) /\ at_ (view s') 1 1 = Some (DInt (-6)) /\
  at_ (view s') 1 2 = Some (DString [105; 7])%N.
Proof. eexists. repeat (apply conj; [vm_compute; reflexivity|]). vm_compute. reflexivity. Qed.
Example C54_kept_example : after_steps plain_digest [Hash [99] [104] None; Delete [99]; Replace [97] (DCount 9)]%N sample 2 = Some 1.
Proof. vm_compute. reflexivity. Qed.
Example C54_other_example : engine plain_digest [{| tr_events := [[102]]; tr_steps := [Delete [99]] |}]%N sample = Some (Done sample).
Proof. reflexivity. Qed.

(** Replacing a column with a value of another type violates an assertion. *)
Theorem C54_replace_type_refuted : exists s f x, sane s /\ In f (keys s) /\ basic_type x <> None /\ forall digest, apply_step digest (Replace f x) s = None.
Proof. exists sample, [97]%N, (DString [120]%N). split; [apply sample_sane|]. split; [now left|]. split; [discriminate|]. reflexivity. Qed.
(** Or the value is taken for one of the type of the column. *)
Theorem C54_replace_read_refuted : exists s f x, sane s /\ In f (keys s) /\ forall digest, exists s', apply_step digest (Replace f x) s = Some s' /\
  x = DDuration 7 /\ at_ (view s') 0 2 = Some (DInt 7).
Proof. exists sample, [114; 46; 120]%N, (DDuration 7). split; [apply sample_sane|]. split; [right; right; now left|]. intros digest. eexists. repeat split; vm_compute; reflexivity. Qed.
(** Deleting a record violates an assertion. *)
Theorem C54_delete_record_refuted : exists s f, sane s /\ In f (map fst (t_fields s)) /\ forall digest, apply_step digest (Delete f) s = None.
Proof. exists sample, [114]%N. split; [apply sample_sane|]. split; [right; right; now left|]. reflexivity. Qed.
(** A column whose name extends the name of an earlier one is not deleted. *)
Definition prefix_sample : tslice :=
  {| t_meta := {| m_name := [101]%N; m_attrs := [] |}; t_fields := [([97], bt BCount); ([97; 98], bt BString)]%N;
     t_batch := [([97], APrim KUint64 [Some (PUint 1)]); ([97; 98], APrim KString [Some (PBytes [104])])]%N; t_rows := 1; t_offset := Some 0 |}.
Theorem C54_prefix_refuted : exists s f, sane s /\ In f (keys s) /\ forall digest, exists s', apply_step digest (Delete f) s = Some s' /\ keys s' = keys s /\
  at_ (view s') 0 1 = Some (DString [104]%N).
Proof.
  exists prefix_sample, [97; 98]%N. split; [split; [reflexivity|split; [reflexivity|repeat constructor] ]|]. split; [right; now left|]. intros digest.
  eexists. split; [vm_compute; reflexivity|]. split; reflexivity.
Qed.
(** A transform without steps loses the offset of the slice. *)
Theorem C54_offset_refuted : exists ts s, sane s /\ t_offset s = Some 10 /\ forall digest, exists s', engine digest ts s = Some (Done s') /\ t_offset s' = None.
Proof.
  exists [{| tr_events := [[101]%N]; tr_steps := [] |}], sample. split; [apply sample_sane|]. split; [reflexivity|]. intros digest. eexists. split; vm_compute; reflexivity.
Qed.
(** A transform that names an event twice is applied twice. *)
Theorem C54_twice_refuted : exists t s, sane s /\ tr_steps t = [Hash [99] [104] None]%N /\ forall digest, exists s', engine digest [t] s = Some (Done s') /\
  length (keys s') = 2 + length (keys s).
Proof.
  exists {| tr_events := [[101]; [101]]%N; tr_steps := [Hash [99] [104] None]%N |}, sample. split; [apply sample_sane|]. split; [reflexivity|]. intros digest.
  eexists. split; [vm_compute; reflexivity|reflexivity].
Qed.

Definition assumptions_transform := (C54_other, C54_engine, C54_order, C54_delete, C54_hash, C54_replace, C54_unknown, C54_kept,
  C54_replace_type_refuted, C54_replace_read_refuted, C54_delete_record_refuted, C54_prefix_refuted, C54_offset_refuted, C54_twice_refuted).
Print Assumptions assumptions_transform.
