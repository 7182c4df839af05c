(** C75: the type registry knows the layouts of the events, and loads concepts and models from all
    files or not at all. *)
From Coq Require Import List NArith Bool Arith Lia Permutation.
From Verif Require Import OperatorModel AddressModel DataModel DataProofs TypeModel TypeProofs ExpressionModel TaxonomyModel TaxonomyProofs PropsTaxonomy TypeRegistryModel TypeRegistryProofs.
Import ListNotations.
Open Scope nat_scope.

(** * Known layouts *)

(** For every history with starts, stops, crashes and files that cannot be read or written: the
    registry knows under every name the layouts it should remember, each once, those seen most
    recently first. [remembered] keeps plain lists of layouts: a slice adds one, an orderly stop
    makes the list survive, a crash takes back what came since. *)
Theorem C75_history : forall es r, w_registry (after es) = Some r ->
  exists h, snd (remembered es) = Some h /\ forall n, recency (bucket n (r_data r)) (named n h).
Proof.
  intros es r H. destruct (matches_after es) as [_ M]. rewrite H in M. destruct (snd (remembered es)) as [h|]; [|contradiction].
  exists h. split; [reflexivity|]. intros n. apply agrees_bucket. assumption.
Qed.

(** What happens between a start and a stop. *)
Definition inner (e : event) : bool := match e with Slice _ | Put _ | Load _ => true | _ => false end.
Definition layouts (es : list event) : list ty := flat_map (fun e => match e with Slice t => [t] | _ => [] end) es.
Definition session (s : list ty * list event) : list event := Start (fst s) true :: snd s ++ [Stop true].
Lemma remember_inner : forall es d h, forallb inner es = true -> fold_left remember es (d, Some h) = (d, Some (h ++ layouts es)).
Proof.
  induction es as [|e es IH]; intros d h H; [cbn; rewrite app_nil_r; reflexivity|]. apply andb_prop in H as [H1 H2]. cbn [fold_left].
  destruct e; try discriminate; destruct d; cbn [remember]; rewrite IH by assumption; cbn [layouts flat_map]; rewrite ?app_assoc; try reflexivity; rewrite <- app_assoc; reflexivity.
Qed.
Lemma remember_sessions : forall ss d, Forall (fun s => forallb inner (snd s) = true) ss ->
  exists d', fold_left remember (flat_map session ss) (d, None) = (d', None) /\
    match d' with Some h => h | None => [] end = match d with Some h => h | None => [] end ++ flat_map (fun s => layouts (snd s)) ss.
Proof.
  induction ss as [|[sc es] ss IH]; intros d F; [exists d; split; [reflexivity|cbn; rewrite app_nil_r; reflexivity]|]. inversion F as [|? ? F1 F2]; subst. cbn [snd] in F1.
  set (h := match d with Some h => h | None => [] end).
  destruct (IH (Some (h ++ layouts es)) F2) as (d' & E & X). exists d'. cbn [flat_map]. rewrite fold_left_app. unfold session at 2. cbn [fst snd fold_left]. split.
  - rewrite fold_left_app. assert (remember (d, None) (Start sc true) = (d, Some h)) as -> by (unfold h; destruct d; reflexivity).
    rewrite remember_inner by assumption. assert (fold_left remember [Stop true] (d, Some (h ++ layouts es)) = (Some (h ++ layouts es), None)) as -> by (destruct d; reflexivity). exact E.
  - rewrite X, <- app_assoc. reflexivity.
Qed.
(** If the node was always stopped in an orderly way and its file could be written and read, the
    registry knows all layouts of all slices that it has ever seen. *)
Theorem C75_known : forall ss schema es, Forall (fun s => forallb inner (snd s) = true) ss -> forallb inner es = true ->
  exists r, w_registry (after (flat_map session ss ++ Start schema true :: es)) = Some r /\
    forall n, recency (bucket n (r_data r)) (named n (flat_map (fun s => layouts (snd s)) ss ++ layouts es)).
Proof.
  intros ss schema es F H. set (all := flat_map session ss ++ Start schema true :: es).
  assert (snd (remembered all) = Some (flat_map (fun s => layouts (snd s)) ss ++ layouts es)) as E.
  { unfold all, remembered. rewrite fold_left_app. destruct (remember_sessions ss None F) as (d' & -> & X). cbn [fold_left].
    assert (remember (d', None) (Start schema true) = (d', Some (match d' with Some h => h | None => [] end))) as -> by (destruct d'; reflexivity).
    rewrite remember_inner by assumption. cbn [snd]. rewrite X. reflexivity. }
  destruct (matches_after all) as [_ M]. rewrite E in M. destruct (w_registry (after all)) as [r|]; [|contradiction]. exists r. split; [reflexivity|].
  intros n. apply agrees_bucket. assumption.
Qed.
(** This determines the list: most recent first, each once. *)
Theorem C75_unique : forall h l l', recency l h -> recency l' h -> l = l'.
Proof.
  intros h l. revert h. induction l as [|x l IH]; intros h l' (D1 & I1 & O1) (D2 & I2 & O2).
  - destruct l' as [|y l']; [reflexivity|]. destruct (proj2 (I1 y)). apply I2. left. reflexivity.
  - assert (forall a b, later h a b -> later h b a -> False) as Anti.
    { intros a b (a1 & a2 & E1 & N1) (b1 & b2 & E2 & N2).
      assert (forall (p q p' q' : list ty), p ++ q = p' ++ q' -> (exists s, q = s ++ q') \/ (exists s, q' = s ++ q)) as Split.
      { clear. induction p as [|c p IHp]; intros q p' q' E; [left; exists p'; exact E|]. destruct p' as [|c' p']; [right; exists (c :: p); symmetry; exact E|].
        inversion E. eapply IHp. eassumption. }
      rewrite E1 in E2. destruct (Split _ _ _ _ E2) as [(s & E)|(s & E)].
      - apply N1. rewrite E. apply in_app_iff. right. left. reflexivity.
      - apply N2. rewrite E. apply in_app_iff. right. left. reflexivity. }
    destruct l' as [|y l']; [destruct (proj2 (I2 x)); apply I1; left; reflexivity|]. inversion D1; inversion D2; inversion O1; inversion O2; subst.
    assert (x = y) as <-.
    { assert (In x (y :: l')) as [->|Hx] by (apply I2, I1; left; reflexivity); [reflexivity|].
      assert (In y (x :: l)) as [->|Hy] by (apply I1, I2; left; reflexivity); [reflexivity|].
      rewrite Forall_forall in *. exfalso. eapply Anti; eauto. }
    f_equal. assert (forall u, In u l <-> In u l') as I3.
    { intros u. split; intros Hu.
      - assert (In u (x :: l')) as [->|?] by (apply I2, I1; right; assumption); [contradiction|assumption].
      - assert (In u (x :: l)) as [->|?] by (apply I1, I2; right; assumption); [contradiction|assumption]. }
    (* The order within the rest does not depend on the history of the first. *)
    assert (forall m m', NoDup m -> NoDup m' -> (forall u, In u m <-> In u m') -> ForallOrdPairs (later h) m -> ForallOrdPairs (later h) m' -> m = m') as G.
    { clear - Anti. induction m as [|a m IHm]; intros m' D1 D2 I O1 O2.
      - destruct m' as [|b m']; [reflexivity|]. destruct (proj2 (I b)). left. reflexivity.
      - destruct m' as [|b m']; [destruct (proj1 (I a)); left; reflexivity|]. inversion D1; inversion D2; inversion O1; inversion O2; subst.
        assert (a = b) as <-.
        { assert (In a (b :: m')) as [->|Ha] by (apply I; left; reflexivity); [reflexivity|]. assert (In b (a :: m)) as [->|Hb] by (apply I; left; reflexivity); [reflexivity|].
          rewrite Forall_forall in *. exfalso. eapply Anti; eauto. }
        f_equal. apply IHm; try assumption. intros u. split; intros Hu.
        + assert (In u (a :: m')) as [->|?] by (apply I; right; assumption); [contradiction|assumption].
        + assert (In u (a :: m)) as [->|?] by (apply I; right; assumption); [contradiction|assumption]. }
    apply G; assumption.
Qed.

(** A layout that was not seen before under its name is reported as a change of the layout seen
    last, as a compatible one exactly if it has all that this layout has. *)
Theorem C75_notices : forall es r h t, w_registry (after es) = Some r -> snd (remembered es) = Some h ->
  (In t h -> snd (step (after es) (Slice t)) = []) /\
  (named (ty_name t) h = [] -> snd (step (after es) (Slice t)) = []) /\
  (forall u h', named (ty_name t) h = h' ++ [u] -> ~ In t h ->
    snd (step (after es) (Slice t)) = [Notice (if is_subset u t then Changed (ty_name t) else Incompatible (ty_name t))]).
Proof.
  intros es r h t R S. destruct (matches_after es) as [_ M]. rewrite R, S in M. pose proof (agrees_bucket _ _ (ty_name t) M) as B.
  unfold step, running. rewrite R. cbn [snd]. unfold insert. cbn [snd]. set (xs := bucket (ty_name t) (r_data r)) in *.
  assert (In t xs <-> In t h) as I.
  { destruct B as (_ & I & _). rewrite I. unfold named. rewrite filter_In. split; [tauto|]. intros H. split; [assumption|]. apply bytes_eqb_refl'. }
  unfold insert_bucket, add. split; [|split].
  - intros H. apply I in H. destruct (lookup t xs) eqn:L; [reflexivity|]. apply lookup_none in L. contradiction.
  - intros H. destruct (lookup t xs) eqn:L; [reflexivity|]. cbn [snd]. destruct xs as [|x xs]; [reflexivity|].
    destruct B as (_ & I' & _). rewrite H in I'. destruct (proj1 (I' x)). left. reflexivity.
  - intros u h' E H. destruct (lookup t xs) as [i|] eqn:L.
    + destruct (lookup_some t xs i (proj1 B) L) as [X _]. apply nth_error_In in X. apply I in X. contradiction.
    + cbn [snd]. rewrite E in B. destruct xs as [|x xs].
      * destruct B as (_ & I' & _). destruct (proj2 (I' u)). apply in_app_iff. right. left. reflexivity.
      * apply recency_head in B. subst x. cbn [length Nat.eqb app]. destruct (is_subset u t); reflexivity.
Qed.

(** * Queries *)

(** The predicates of which one has to hold. *)
Definition alternatives (e : expr) : list predicate :=
  match e with
  | EPred q => [q]
  | EOr es => flat_map (fun e => match e with EPred q => [q] | _ => [] end) es
  | _ => []
  end.
Lemma substitute_alternatives : forall ts seen p n op d make, candidates ts seen n op d <> [] ->
  alternatives (substitute ts seen p n op d make) = map (make op d) (candidates ts seen n op d).
Proof.
  intros ts seen p n op d make. unfold substitute, candidates. destruct (find_key n (t_concepts ts)) as [c|]; [|congruence].
  destruct (filter (keeps seen op d) (target_fields (t_concepts ts) c)) as [|x [|y l] ]; intros H; [congruence|reflexivity|].
  cbn [map alternatives flat_map app]. do 2 f_equal. clear H. induction l as [|z l IH]; [reflexivity|]. cbn. f_equal. assumption.
Qed.
(** A query about a concept asks for all fields of the concept that a remembered layout has with a
    type that fits, as long as the name of the layout does not begin with the name of another
    remembered layout and a dot. *)
Theorem C75_asked : forall es r h fuel p n d c l f m fs ft, w_registry (after es) = Some r -> snd (remembered es) = Some h ->
  t_models (r_taxonomies r) = [] -> field_and_value p = Some (n, d) -> d <> DRecord [] ->
  find_key n (t_concepts (r_taxonomies r)) = Some c -> In (l ++ dot :: f) (target_fields (t_concepts (r_taxonomies r)) c) ->
  In (TRecord m fs) h -> m_name m = l -> find_field f (flatten_fields fs) = Some ft -> compatible ft (p_op p) d = true ->
  (forall l' rest u, l = l' ++ dot :: rest -> In u h -> ty_name u <> l') ->
  exists e, resolve_query r fuel (EPred p) = Resolved e /\ In (about p (l ++ dot :: f)) (alternatives e).
Proof.
  intros es r h fuel p n d c l f m fs ft R S M F D C T L E X Y Z. destruct (matches_after es) as [_ A]. rewrite R, S in A.
  unfold resolve_query. cbn [resolve]. rewrite (resolve_pred_eq _ _ _ _ _ _ M F).
  exists (substitute (r_taxonomies r) (Some (r_data r)) p n (p_op p) d (fun _ _ f => about p f)). split; [destruct d as [| | | | | | | | | | | | | |[|? ?] ]; congruence|].
  assert (In (l ++ dot :: f) (candidates (r_taxonomies r) (Some (r_data r)) n (p_op p) d)) as I.
  { unfold candidates. rewrite C. apply filter_In. split; [assumption|]. cbn [keeps]. apply C40_contains_complete.
    - specialize (A l). assert (In (TRecord m fs) (named l h)) as I.
      { unfold named. apply filter_In. split; [assumption|]. apply bytes_eqb_iff. exact E. }
      destruct (find_key l (r_data r)) as [ts|] eqn:K; [|rewrite A in I; destruct I]. destruct A as (_ & _ & A & _). exists ts, m, fs, ft. split; [exact K|].
      split; [apply A; assumption|auto].
    - intros l' rest El. specialize (A l'). destruct (find_key l' (r_data r)) as [ts|]; [|reflexivity]. destruct A as [A _]. exfalso.
      destruct (named l' h) as [|u us] eqn:En; [congruence|]. assert (In u (named l' h)) as Iu by (rewrite En; left; reflexivity). unfold named in Iu.
      apply filter_In in Iu as [Iu Eu]. apply bytes_eqb_iff in Eu. exact (Z l' rest u El Iu Eu). }
  rewrite substitute_alternatives by (intros E0; rewrite E0 in I; destruct I). apply in_map_iff. exists (l ++ dot :: f). auto.
Qed.
(** Nothing else is asked for: only fields of the concept that a remembered layout has, or the
    query stays as it is. *)
Theorem C75_only : forall es r h fuel p n d e q, w_registry (after es) = Some r -> snd (remembered es) = Some h ->
  t_models (r_taxonomies r) = [] -> field_and_value p = Some (n, d) -> d <> DRecord [] ->
  resolve_query r fuel (EPred p) = Resolved e -> In q (alternatives e) ->
  e = EPred p \/ exists c l f m fs ft, find_key n (t_concepts (r_taxonomies r)) = Some c /\ In (l ++ dot :: f) (target_fields (t_concepts (r_taxonomies r)) c) /\
    In (TRecord m fs) h /\ m_name m = l /\ find_field f (flatten_fields fs) = Some ft /\ compatible ft (p_op p) d = true /\ q = about p (l ++ dot :: f).
Proof.
  intros es r h fuel p n d e q R S M F D H Q. destruct (matches_after es) as [_ A]. rewrite R, S in A.
  unfold resolve_query in H. cbn [resolve] in H. rewrite (resolve_pred_eq _ _ _ _ _ _ M F) in H.
  assert (e = substitute (r_taxonomies r) (Some (r_data r)) p n (p_op p) d (fun _ _ f => about p f)) as -> by (destruct d as [| | | | | | | | | | | | | |[|? ?] ]; congruence).
  destruct (candidates (r_taxonomies r) (Some (r_data r)) n (p_op p) d) as [|x0 l0] eqn:K; [left; apply substitute_none; assumption|].
  rewrite substitute_alternatives in Q by (rewrite K; discriminate). apply in_map_iff in Q as (x & <- & Q). right. unfold candidates in Q.
  destruct (find_key n (t_concepts (r_taxonomies r))) as [c|] eqn:C; [|destruct Q]. apply filter_In in Q as [Q1 Q2]. cbn [keeps] in Q2.
  apply C40_contains_sound in Q2 as (l & f & -> & ts & m & fs & ft & G1 & G2 & G3 & G4). specialize (A l). rewrite G1 in A. destruct A as (_ & _ & A & _).
  apply A in G2. unfold named in G2. apply filter_In in G2 as [G2 G5]. apply bytes_eqb_iff in G5. exists c, l, f, m, fs, ft. auto 10.
Qed.

(** * Loading concepts and models *)

(** Loading succeeds exactly if all that is said to be a concept or a model is one, and no two
    models have the same name. If it does not succeed nothing changes. *)
Theorem C75_load : forall es r files, w_registry (after es) = Some r ->
  let w := after es in let w' := fst (step w (Load (Some files))) in
  ((forall file d, In file files -> In d (items file) -> valid d) /\ NoDup (flat_map model_names (flat_map items files)) ->
    snd (step w (Load (Some files))) = [Answer true]) /\
  (~ ((forall file d, In file files -> In d (items file) -> valid d) /\ NoDup (flat_map model_names (flat_map items files))) ->
    snd (step w (Load (Some files))) = [Answer false] /\ w' = w).
Proof.
  intros es r files R w w'. subst w'. unfold step, running. fold w in R. rewrite R. rewrite load_files_eq.
  pose proof (concepts_succeed (flat_map items files) []) as C. pose proof (models_succeed (flat_map items files) [] (NoDup_nil _)) as M. cbn [map app] in M.
  assert ((forall file d, In file files -> In d (items file) -> valid d) <->
    (forall d xs v, In d (flat_map items files) -> d = DRecord xs -> find_key k_concept xs = Some v -> exists n fs ns, definition d n fs ns) /\
    (forall d xs v, In d (flat_map items files) -> d = DRecord xs -> find_key k_model xs = Some v -> exists n def, model_definition d n def)) as V.
  { split.
    - intros H. split; intros d xs v Hd Ed Ev; apply in_flat_map in Hd as (file & Hf & Hd); destruct (H file d Hf Hd xs v Ed) as [H1 H2]; auto.
    - intros [H1 H2] file d Hf Hd xs v Ed. assert (In d (flat_map items files)) as I by (apply in_flat_map; eauto). split; intros; eauto. }
  rewrite V. clear V. split.
  - intros [ [V1 V2] D]. apply C in V1 as (cs & ->). destruct (proj2 M (conj V2 D)) as (ms & ->). reflexivity.
  - intros N. destruct (extract_items (flat_map items files) []) as [cs|] eqn:E1, (extract_model_items (flat_map items files) []) as [ms|] eqn:E2.
    + exfalso. apply N. destruct (proj1 M (ex_intro _ _ eq_refl)) as [V2 D]. split; [split; [|assumption]|assumption]. apply C. eauto.
    + split; [reflexivity|]. cbn [fst]. destruct w as [k [r'|] ]; cbn in *; congruence.
    + split; [reflexivity|]. cbn [fst]. destruct w as [k [r'|] ]; cbn in *; congruence.
    + split; [reflexivity|]. cbn [fst]. destruct w as [k [r'|] ]; cbn in *; congruence.
Qed.
(** After that a concept has the fields that any file gives it, and a model is what the one file
    that defines it says. *)
Theorem C75_loaded : forall es r r' files, w_registry (after es) = Some r -> snd (step (after es) (Load (Some files))) = [Answer true] ->
  w_registry (fst (step (after es) (Load (Some files)))) = Some r' ->
  (forall n f, has_field (t_concepts (get_taxonomies r')) n f <-> exists file d fs ns, In file files /\ In d (items file) /\ definition d n fs ns /\ In f fs) /\
  (forall n def, find_key n (t_models (get_taxonomies r')) = Some def <-> exists file d, In file files /\ In d (items file) /\ model_definition d n def) /\
  r_data r' = r_data r.
Proof.
  intros es r r' files R A W. unfold step, running in *. rewrite R in *. rewrite load_files_eq in *.
  destruct (extract_items (flat_map items files) []) as [cs|] eqn:E1; [|discriminate]. destruct (extract_model_items (flat_map items files) []) as [ms|] eqn:E2; [|discriminate].
  cbn [fst w_registry] in W. inversion W; subst r'. cbn [get_taxonomies r_taxonomies r_data t_concepts t_models]. split; [|split; [|reflexivity] ].
  - intros n f. destruct (extract_items_spec _ _ _ E1) as (H & _). rewrite H. split.
    + intros [(c & X & _)|(d & fs & ns & Hd & Hx)]; [discriminate|]. apply in_flat_map in Hd as (file & Hf & Hd). exists file, d, fs, ns. tauto.
    + intros (file & d & fs & ns & Hf & Hd & Hx). right. exists d, fs, ns. split; [apply in_flat_map; eauto|tauto].
  - intros n def. rewrite (models_spec _ _ _ E2). split.
    + intros [X|(d & Hd & Hx)]; [discriminate|]. apply in_flat_map in Hd as (file & Hf & Hd). eauto.
    + intros (file & d & Hf & Hd & Hx). right. exists d. split; [apply in_flat_map; eauto|assumption].
Qed.
(** Whether loading succeeds, the fields of the concepts and the models do not depend on the order
    in which the files are visited. *)
Theorem C75_any_order : forall files files' t, Permutation files files' -> load_files files [] [] = Some t ->
  exists t', load_files files' [] [] = Some t' /\ (forall n f, has_field (t_concepts t) n f <-> has_field (t_concepts t') n f) /\
    forall n, find_key n (t_models t) = find_key n (t_models t').
Proof.
  intros files files' t P H. rewrite load_files_eq in *. assert (Permutation (flat_map items files) (flat_map items files')) as Q by (apply Permutation_flat_map; assumption).
  destruct (extract_items (flat_map items files) []) as [cs|] eqn:E1; [|discriminate]. destruct (extract_model_items (flat_map items files) []) as [ms|] eqn:E2; [|discriminate].
  inversion H; subst t. clear H. cbn [t_concepts t_models].
  destruct (proj2 (concepts_succeed (flat_map items files') [])) as (cs' & E1').
  { intros d xs v Hd. apply (proj1 (concepts_succeed (flat_map items files) []) (ex_intro _ _ E1)). eapply Permutation_in; [apply Permutation_sym; exact Q|assumption]. }
  destruct (proj1 (models_succeed (flat_map items files) [] (NoDup_nil _)) (ex_intro _ _ E2)) as [V D].
  destruct (proj2 (models_succeed (flat_map items files') [] (NoDup_nil _))) as (ms' & E2').
  { split.
    - intros d xs v Hd. apply V. eapply Permutation_in; [apply Permutation_sym; exact Q|assumption].
    - cbn [map app] in *. eapply Permutation_NoDup; [|exact D]. apply Permutation_flat_map. assumption. }
  rewrite E1', E2'. eexists. split; [reflexivity|]. cbn [t_concepts t_models]. split.
  - intros n f. destruct (extract_items_spec _ _ _ E1) as (H & _). destruct (extract_items_spec _ _ _ E1') as (H' & _). rewrite H, H'.
    split; (intros [X|(d & fs & ns & Hd & X)]; [auto|]); right; exists d, fs, ns; (split; [|assumption]); eapply Permutation_in; try exact Hd; [assumption|apply Permutation_sym; assumption].
  - intros n. assert (forall def, find_key n ms = Some def <-> find_key n ms' = Some def) as G.
    { intros def. rewrite (models_spec _ _ _ E2), (models_spec _ _ _ E2'). split; (intros [X|(d & Hd & X)]; [auto|]); right; exists d; (split; [|assumption]);
        eapply Permutation_in; try exact Hd; [assumption|apply Permutation_sym; assumption]. }
    destruct (find_key n ms) as [x|]; [symmetry; apply G; reflexivity|]. destruct (find_key n ms') as [y|]; [|reflexivity]. symmetry. symmetry. apply G. reflexivity.
Qed.
(** Layouts do not change the taxonomies, taxonomies do not change the layouts, and what was put is
    what is got. *)
Theorem C75_apart : forall es r t ts, w_registry (after es) = Some r ->
  (exists r', w_registry (after (es ++ [Slice t])) = Some r' /\ get_taxonomies r' = get_taxonomies r /\ get r' = get r) /\
  (exists r', w_registry (after (es ++ [Put ts])) = Some r' /\ get_taxonomies r' = ts /\ r_data r' = r_data r /\ get r' = get r).
Proof.
  intros es r t ts R. assert (forall es' w e, run w (es' ++ [e]) = fst (step (run w es') e)) as A.
  { induction es' as [|e' es' IH]; intros w e; [reflexivity|]. cbn [app run]. apply IH. }
  unfold after. rewrite !A. fold (after es). unfold step, running. rewrite R. split; eexists; (split; [reflexivity|]); repeat split.
Qed.

(** * What does not hold *)

(** A layout with a name and count fields. *)
Definition lay (n : list N) (fs : list (list N)) : ty := TRecord {| m_name := n; m_attrs := [] |} (map (fun f => (f, TBasic no_meta BCount)) fs).
Definition str (x : N) : data := DString [x].
(** A concept with fields and references, as in a file. *)
Definition con (n : N) (fs ns : list (list N)) : data :=
  DRecord [(k_concept, DRecord [(k_name, str n); (k_fields, DList (map DString fs)); (k_concepts, DList (map DString ns))])].
(** The concept 1 has the field f of the layout l. *)
Definition lf : list N := [108; dot; 102]%N.
Definition one : data := DList [con 1 [lf] []].
Definition ask (n : list N) : expr := EPred {| p_lhs := OField n; p_op := op_eq; p_rhs := OVal (DCount 1) |}.
Definition answer (es : list event) : option outcome := match w_registry (after es) with Some r => Some (resolve_query r 0 (ask [1%N])) | None => None end.

(** The registry saves its layouts only when it is stopped in an orderly way. After a crash a query
    that was about a field asks for a field with the name of the concept. *)
Theorem C75_crash_refuted : exists es, answer (Start [] true :: es) = Some (Resolved (ask lf)) /\
  answer (Start [] true :: es ++ [Stop true; Start [] true; Load (Some [one])]) = Some (Resolved (ask lf)) /\
  answer (Start [] true :: es ++ [Crash; Start [] true; Load (Some [one])]) = Some (Resolved (ask [1%N])).
Proof. exists [Load (Some [one]); Slice (lay [108%N] [ [102%N] ])]. repeat split; vm_compute; reflexivity. Qed.
(** The same if the file cannot be written. *)
Theorem C75_unwritten_refuted : exists es, answer (Start [] true :: es) = Some (Resolved (ask lf)) /\
  answer (Start [] true :: es ++ [Stop false; Start [] true; Load (Some [one])]) = Some (Resolved (ask [1%N])).
Proof. exists [Load (Some [one]); Slice (lay [108%N] [ [102%N] ])]. repeat split; vm_compute; reflexivity. Qed.
(** What a concept refers to does depend on the order of the files, and with it the answer to a
    query: a reference to what is also a field by then is dropped. *)
Theorem C75_order_refuted : exists files files' t, Permutation files files' /\
  answer [Start [] true; Slice t; Load (Some files)] = Some (Resolved (ask lf)) /\
  answer [Start [] true; Slice t; Load (Some files')] = Some (Resolved (ask [1%N])).
Proof.
  exists [DList [con 1 [] [ [2%N] ]; con 2 [lf] [] ]; DList [con 1 [ [2%N] ] [] ] ], [DList [con 1 [ [2%N] ] [] ]; DList [con 1 [] [ [2%N] ]; con 2 [lf] [] ] ],
    (lay [108%N] [ [102%N] ]).
  split; [apply perm_swap|]. split; vm_compute; reflexivity.
Qed.
(** A change back to a layout that was seen before is not reported, also if it is not compatible
    with the current one. *)
Theorem C75_return_refuted : exists es t u h, snd (remembered es) = Some (h ++ [u]) /\ ty_name t = ty_name u /\ is_subset u t = false /\
  snd (step (after es) (Slice t)) = [].
Proof.
  exists [Start [] true; Slice (lay [1%N] [ [2%N] ]); Slice (lay [1%N] [ [3%N] ])], (lay [1%N] [ [2%N] ]), (lay [1%N] [ [3%N] ]), [lay [1%N] [ [2%N] ] ].
  repeat split; vm_compute; reflexivity.
Qed.
(** The request for all known types is answered with the types of the schema, each once. *)
Theorem C75_get : forall r, NoDup (get r) /\ forall t, In t (get r) <-> In t (r_schema r).
Proof.
  intros r. unfold get, types. assert (forall ts acc, NoDup acc -> NoDup (fold_left (fun acc t => fst (fst (add t acc))) ts acc) /\
    forall t, In t (fold_left (fun acc t => fst (fst (add t acc))) ts acc) <-> In t acc \/ In t ts) as G.
  { induction ts as [|x ts IH]; intros acc D; cbn [fold_left In]; [split; [assumption|tauto]|]. unfold add at 2 4. destruct (lookup x acc) as [i|] eqn:L; cbn [fst].
    - destruct (IH acc D) as [H1 H2]. split; [assumption|]. intros t. rewrite H2. destruct (lookup_some x acc i D L) as [Hn _]. apply nth_error_In in Hn.
      split; [tauto|]. intros [X|[<-|X] ]; auto.
    - apply lookup_none in L. destruct (IH (acc ++ [x])) as [H1 H2].
      { apply (Permutation_NoDup (l := x :: acc)); [apply Permutation_cons_append|]. constructor; assumption. }
      split; [assumption|]. intros t. rewrite H2, in_app_iff. cbn [In]. tauto. }
  destruct (G (r_schema r) [] (NoDup_nil _)) as [H1 H2]. split; [assumption|]. intros t. rewrite H2. cbn [In]. tauto.
Qed.
(** So a layout whose slices are in the database need not be among them. *)
Theorem C75_get_refuted : exists es r t, w_registry (after es) = Some r /\ In t (bucket (ty_name t) (r_data r)) /\ ~ In t (get r).
Proof.
  eexists [Start [] true; Slice (lay [1%N] [ [2%N] ])], _, (lay [1%N] [ [2%N] ]). split; [vm_compute; reflexivity|]. split; [left; reflexivity|]. intros [].
Qed.

(** * Examples *)

(** Two sessions, with a layout that changes and changes back. *)
Example C75_known_example :
  let a := lay [1%N] [ [2%N] ] in let b := lay [1%N] [ [2%N]; [3%N] ] in
  exists r, w_registry (after (flat_map session [([], [Slice a; Slice b; Load (Some [one])])] ++ Start [] true :: [Slice a])) = Some r /\
    bucket [1%N] (r_data r) = [a; b].
Proof. eexists. split; vm_compute; reflexivity. Qed.
Example C75_notices_example :
  let a := lay [1%N] [ [2%N] ] in let b := lay [1%N] [ [2%N]; [3%N] ] in let c := lay [1%N] [ [3%N] ] in
  snd (step (after [Start [] true; Slice a]) (Slice b)) = [Notice (Changed [1%N])] /\
  snd (step (after [Start [] true; Slice a; Slice b]) (Slice c)) = [Notice (Incompatible [1%N])] /\
  named [1%N] [a; b] = [a] ++ [b] /\ ~ In c [a; b] /\ is_subset b c = false.
Proof. repeat split; try (vm_compute; reflexivity). intros [H|[H|[] ] ]; discriminate. Qed.
(** The hypotheses of [C75_asked] for one concept and one layout. *)
Example C75_asked_example : exists r h c m fs ft, w_registry (after [Start [] true; Load (Some [one]); Slice (lay [108%N] [ [102%N] ])]) = Some r /\
  snd (remembered [Start [] true; Load (Some [one]); Slice (lay [108%N] [ [102%N] ])]) = Some h /\ t_models (r_taxonomies r) = [] /\
  find_key [1%N] (t_concepts (r_taxonomies r)) = Some c /\ In ([108%N] ++ dot :: [102%N]) (target_fields (t_concepts (r_taxonomies r)) c) /\
  In (TRecord m fs) h /\ m_name m = [108%N] /\ find_field [102%N] (flatten_fields fs) = Some ft /\ compatible ft op_eq (DCount 1) = true.
Proof.
  do 2 eexists. exists {| c_fields := [lf]; c_concepts := [] |}, {| m_name := [108%N]; m_attrs := [] |}, [([102%N], TBasic no_meta BCount)], (TBasic no_meta BCount).
  split; [vm_compute; reflexivity|]. split; [vm_compute; reflexivity|]. vm_compute. auto 12.
Qed.
(** A model that two files define makes loading fail. *)
Definition mdl (n : N) (def : list (list N)) : data := DRecord [(k_model, DRecord [(k_name, str n); (k_definition, DList (map DString def))])].
Example C75_load_example :
  snd (step (after [Start [] true]) (Load (Some [DList [mdl 1 [lf] ]; one]))) = [Answer true] /\
  snd (step (after [Start [] true]) (Load (Some [DList [mdl 1 [lf] ]; one; DList [mdl 1 [lf] ] ]))) = [Answer false] /\
  load_files [DList [mdl 1 [lf] ]; one] [] [] = Some {| t_concepts := [([1%N], {| c_fields := [lf]; c_concepts := [] |})]; t_models := [([1%N], [lf])] |}.
Proof. repeat split; vm_compute; reflexivity. Qed.

Definition assumptions_type_registry := (C75_history, C75_known, C75_unique, C75_notices, C75_asked, C75_only, C75_load, C75_loaded, C75_any_order, C75_apart, C75_get,
  C75_crash_refuted, C75_unwritten_refuted, C75_order_refuted, C75_return_refuted, C75_get_refuted).
Print Assumptions assumptions_type_registry.
