(** Lemmas on pivoting, for C74. *)
From Coq Require Import List NArith Bool Arith Lia String Ascii.
From Verif Require Import AddressModel AddressProofs DataModel EscapeModel LiteralModel TypeModel ExpressionModel PivoterModel.
Import ListNotations.
Open Scope N_scope.
Local Notation length := List.length.
Local Notation concat := List.concat.

(** ** Specification *)

(** A field of records by its path; the text of a path behind the name of the layout. *)
Inductive field_of : list tfield -> list text -> Prop :=
| here : forall f fs, In f fs -> field_of fs [tname f]
| inside : forall n gs fs p, In (TNode n gs) fs -> field_of gs p -> field_of fs (n :: p).
Definition dotted (trace : text) (p : list text) : text := fold_left (fun t n => t ++ 46 :: n) p trace.
(** The number of columns. *)
Fixpoint width (f : tfield) : nat := match f with TLeaf _ => 1%nat | TNode _ fs => list_sum (map width fs) end.
Definition columns (fs : list tfield) : nat := list_sum (map width fs).
(** Which field connects events of a layout to the target. *)
Definition is_zeek (n : text) : Prop := exists r, n = chars "zeek" ++ r.
Definition edge_is (target : text) (l : layout) (k : text) : Prop :=
  (is_zeek target /\ is_zeek (l_name l) /\ k = chars "uid") \/ (~ (is_zeek target /\ is_zeek (l_name l)) /\ k = chars "community_id").
(** The first field that the name stands for is a column of the event itself. *)
Definition leads (k : text) (l : layout) (a b : list tfield) : Prop :=
  l_fields l = a ++ TLeaf k :: b /\ forall p, field_of a p -> forall r, dotted (l_name l) p <> r ++ 46 :: k.
Definition clear (k : text) (l : layout) : Prop := (forall f, In f (l_fields l) -> tname f <> k) \/ exists a b, leads k l a b.
(** The identifiers in a slice. *)
Definition holds (k : text) (l : layout) (rows : list (list data)) (x : text) : Prop :=
  exists a b row, leads k l a b /\ In row rows /\ nth_error row (columns a) = Some (DString x).

(** ** Names *)

Lemma starts_spec : forall p s, starts_with s p = true <-> exists r, s = p ++ r.
Proof.
  induction p as [|c p IH]; intros s; cbn [starts_with]; [split; [exists s; reflexivity|reflexivity]|]. destruct s as [|d s]; [split; [discriminate|intros (r & E); discriminate]|].
  rewrite andb_true_iff, N.eqb_eq, IH. split.
  - intros (-> & r & ->). exists r. reflexivity.
  - intros (r & E). injection E as -> ->. split; [reflexivity|]. exists r. reflexivity.
Qed.
Lemma ends_spec : forall s e, ends_with s e = true <-> exists r, s = r ++ e.
Proof.
  intros s e. unfold ends_with. rewrite starts_spec. split; intros (r & E).
  - exists (rev r). rewrite <- (rev_involutive s), E, rev_app_distr, rev_involutive. reflexivity.
  - exists (rev r). rewrite E, rev_app_distr. reflexivity.
Qed.
Lemma edge_spec : forall target l, edge_is target l (edge_name target l).
Proof.
  intros target l. unfold edge_is, edge_name, is_zeek. destruct (starts_with target zeek && starts_with (l_name l) zeek) eqn:E.
  - apply andb_true_iff in E. destruct E as (A & B). apply starts_spec in A. apply starts_spec in B. left. auto.
  - right. split; [|reflexivity]. intros (A & B). apply starts_spec in A. apply starts_spec in B. unfold zeek in E. rewrite A, B in E. discriminate.
Qed.
Lemma edge_fun : forall target l k k', edge_is target l k -> edge_is target l k' -> k = k'.
Proof. intros target l k k' [(A & B & ->)|(A & ->)] [(C & D & ->)|(C & ->)]; try reflexivity; exfalso; auto. Qed.

Fixpoint names_path (f : tfield) (tr : text) {struct f} : forall n leaf, In (n, leaf) (names tr f) -> exists p, field_of [f] p /\ n = dotted tr p.
Proof.
  destruct f as [m|m fs]; cbn [names]; intros n leaf I.
  - destruct I as [E|[] ]. injection E as <- _. exists [m]. split; [apply (here (TLeaf m)); now left|reflexivity].
  - destruct I as [E|I]; [injection E as <- _; exists [m]; split; [apply (here (TNode m fs)); now left|reflexivity]|].
    assert (X : exists p, field_of fs p /\ n = dotted (tr ++ 46 :: m) p).
    { revert I. generalize (tr ++ 46 :: m). intros tr'. induction fs as [|g fs IH]; cbn [flat_map]; intros I; [contradiction|]. apply in_app_or in I. destruct I as [I|I].
      - destruct (names_path g tr' n leaf I) as (p & P & ->). exists p. split; [|reflexivity]. inversion P as [f0 fs0 I0|n0 gs fs0 p0 I0 P0]; subst.
        + apply here. destruct I0 as [->|[] ]. now left.
        + apply (inside n0 gs); [|exact P0]. destruct I0 as [->|[] ]. now left.
      - destruct (IH I) as (p & P & ->). exists p. split; [|reflexivity]. inversion P as [f0 fs0 I0|n0 gs fs0 p0 I0 P0]; subst; [apply here; now right|apply (inside n0 gs); [now right|exact P0] ]. }
    destruct X as (p & P & ->). exists (m :: p). split; [|reflexivity]. apply (inside m fs); [now left|exact P].
Qed.
Lemma names_paths : forall fs tr n leaf, In (n, leaf) (flat_map (names tr) fs) -> exists p, field_of fs p /\ n = dotted tr p.
Proof.
  intros fs tr n leaf I. apply in_flat_map in I. destruct I as (f & F & I). destruct (names_path f tr n leaf I) as (p & P & E). exists p. split; [|exact E].
  inversion P as [f0 fs0 I0|n0 gs fs0 p0 I0 P0]; subst; [apply here|apply (inside n0 gs); [|exact P0] ]; destruct I0 as [->|[] ]; exact F.
Qed.
Fixpoint names_width (f : tfield) (tr : text) {struct f} : length (filter snd (names tr f)) = width f.
Proof.
  destruct f as [m|m fs]; cbn [names width filter snd]; [reflexivity|]. generalize (tr ++ 46 :: m). intros tr'. induction fs as [|g fs IH]; [reflexivity|]. cbn [flat_map map]. rewrite filter_app, app_length.
  rewrite (names_width g tr'), IH. reflexivity.
Qed.
Lemma names_columns : forall fs tr, length (filter snd (flat_map (names tr) fs)) = columns fs.
Proof. intros fs tr. unfold columns. induction fs as [|g fs IH]; [reflexivity|]. cbn [flat_map map]. rewrite filter_app, app_length, names_width, IH. reflexivity. Qed.
Lemma pick_first : forall k es n rest i, Forall (fun e => bytes_eqb k (fst e) || ends_with (fst e) (46 :: k) = false) es -> ends_with n (46 :: k) = true ->
  pick k (es ++ (n, true) :: rest) i = Some (Some (i + length (filter snd es))%nat).
Proof.
  intros k es n rest. induction es as [|[m leaf] es IH]; intros i F E; cbn [app pick].
  - rewrite E, orb_true_r. cbn. now rewrite Nat.add_0_r.
  - pose proof (Forall_inv F) as X. cbn [fst] in X. rewrite X, (IH _ (Forall_inv_tail F) E). destruct leaf; cbn [filter snd length]; do 2 f_equal; lia.
Qed.
Lemma dotted_dot : forall p tr, p <> [] -> In 46 (dotted tr p).
Proof.
  intros p tr N. destruct p as [|n p]; [contradiction|]. clear N. unfold dotted. cbn [fold_left]. assert (G : In 46 (tr ++ 46 :: n)) by (apply in_or_app; right; now left). revert G. generalize (tr ++ 46 :: n).
  induction p as [|m p IH]; intros t G; [exact G|]. cbn [fold_left]. apply IH. apply in_or_app. now left.
Qed.
Lemma column_leads : forall k l a b, ~ In 46 k -> leads k l a b -> column_of k l = Some (Some (columns a)).
Proof.
  intros k l a b D (E & N). unfold column_of. rewrite E, flat_map_app. cbn [flat_map names app]. rewrite pick_first.
  - now rewrite names_columns.
  - apply Forall_forall. intros [n leaf] I. cbn [fst]. apply names_paths in I. destruct I as (p & P & ->). apply orb_false_iff. split.
    + destruct (bytes_eqb k (dotted (l_name l) p)) eqn:X; [|reflexivity]. apply bytes_eqb_spec in X. exfalso. apply D. rewrite X. apply dotted_dot. destruct P; discriminate.
    + destruct (ends_with _ _) eqn:X; [|reflexivity]. apply ends_spec in X. destruct X as (r & X). exfalso. exact (N p P r X).
  - apply ends_spec. now exists (l_name l).
Qed.
Lemma common_spec : forall target l k, edge_is target l k -> (exists f, In f (l_fields l) /\ tname f = k) /\ common target l = Some k \/ (forall f, In f (l_fields l) -> tname f <> k) /\ common target l = None.
Proof.
  intros target l k E. rewrite (edge_fun _ _ _ _ E (edge_spec target l)). unfold common. destruct (existsb _ _) eqn:X.
  - left. split; [|reflexivity]. apply existsb_exists in X. destruct X as (f & F & X). apply bytes_eqb_spec in X. exists f. auto.
  - right. split; [|reflexivity]. intros f F Q. assert (Y : existsb (fun f => bytes_eqb (tname f) (edge_name target l)) (l_fields l) = true); [|congruence].
    apply existsb_exists. exists f. split; [exact F|]. now apply bytes_eqb_spec.
Qed.
Lemma edge_point : forall target l k, edge_is target l k -> ~ In 46 k.
Proof. intros target l k [(_ & _ & ->)|(_ & ->)] I; cbn in I; intuition discriminate. Qed.

(** ** Identifiers *)

Lemma mem_spec : forall x l, existsb (bytes_eqb x) l = true <-> In x l.
Proof.
  intros x l. rewrite existsb_exists. split.
  - intros (y & I & E). apply bytes_eqb_spec in E. now subst.
  - intros I. exists x. split; [exact I|apply bytes_eqb_refl].
Qed.
Lemma collect_spec : forall vs req req' xs, collect req vs = (req', xs) -> NoDup xs /\ (forall x, In x xs <-> In (DString x) vs /\ ~ In x req) /\ (forall x, In x req' <-> In x req \/ In x xs).
Proof.
  induction vs as [|v vs IH]; intros req req' xs H; cbn [collect] in H; [injection H as <- <-; repeat split; try constructor; cbn; tauto|].
  assert (G : collect req vs = (req', xs) -> (forall x, v <> DString x) \/ (exists y, v = DString y /\ In y req) -> NoDup xs /\ (forall x, In x xs <-> In (DString x) (v :: vs) /\ ~ In x req) /\ (forall x, In x req' <-> In x req \/ In x xs)).
  { intros H' V. destruct (IH _ _ _ H') as (A & B & C). split; [exact A|]. split; [|exact C]. intros x. rewrite B. cbn [In]. split; [tauto|]. intros ([X|X] & Y); [|tauto]. exfalso. destruct V as [V|(y & V & V')]; [exact (V x X)|].
    rewrite V in X. injection X as ->. contradiction. }
  destruct v; try (apply (G H); left; intros; discriminate). destruct (existsb (bytes_eqb s) req) eqn:M.
  - apply (G H). right. exists s. split; [reflexivity|]. now apply mem_spec.
  - destruct (collect (s :: req) vs) as [r1 x1] eqn:E. injection H as <- <-. destruct (IH _ _ _ E) as (A & B & C). assert (NM : ~ In s req) by (intros X; apply mem_spec in X; congruence).
    split; [|split].
    + constructor; [|exact A]. intros I. apply B in I. destruct I as (_ & I). apply I. now left.
    + intros x. cbn [In]. rewrite B. cbn [In]. split.
      * intros [->|(X & Y)]; [auto|tauto].
      * intros ([X|X] & Y); [injection X as ->; now left|]. destruct (list_eq_dec N.eq_dec s x) as [->|NE]; [now left|right]. tauto.
    + intros x. rewrite C. cbn [In]. tauto.
Qed.

(** ** All schedules *)

Definition ids (w : world) : list text := concat (map snd (asked w)).
Definition good (target : text) (T : text -> text -> Prop) (w : world) : Prop :=
  crashed w = false /\ (forall l f, In (l, f) (cached w) -> f = common target l) /\ (forall x, In x (requested w) <-> In x (ids w)) /\ NoDup (ids w) /\
  (forall x, In x (ids w) <-> exists k, T k x) /\ Forall (fun q => snd q <> [] /\ forall x, In x (snd q) -> T (fst q) x) (asked w).
Definition counted (w : world) : Prop := running w = (pending w + alive w)%nat /\ (gone w = true -> final w = true /\ running w = 0%nat).
Definition of_op (target : text) (o : op) (k x : text) : Prop := exists l rows, o = Slice l rows /\ edge_is target l k /\ holds k l rows x.
Definition clear_op (target : text) (o : op) : Prop := forall l rows, o = Slice l rows -> forall k, edge_is target l k -> clear k l.

Lemma step_counted : forall target o w w', counted w -> step target o w = Some w' -> counted w'.
Proof.
  intros target o w w' (R & G) H. unfold step in H. destruct (crashed w); [discriminate|].
  assert (Q : forall v, running v = (pending v + alive v)%nat -> (gone v = true -> final v = true /\ running v = 0%nat) -> counted (quit_if_done v)).
  { intros v V1 V2. unfold quit_if_done. destruct (final v && (running v =? 0)%nat) eqn:E; [|now split]. apply andb_true_iff in E. destruct E as (E1 & E2). apply Nat.eqb_eq in E2. split; [exact V1|]. now cbn. }
  destruct o as [l rows| |fine|].
  - destruct (gone w) eqn:Gw; [injection H as <-; split; [exact R|rewrite Gw; exact G]|]. destruct (common_field target l w) as [f w1] eqn:C.
    assert (W : running w1 = running w /\ pending w1 = pending w /\ alive w1 = alive w /\ gone w1 = gone w).
    { unfold common_field in C. destruct (find _ _) as [p|]; injection C as _ <-; auto. }
    destruct W as (W1 & W2 & W3 & W4). destruct f as [k|]; [|injection H as <-; split; [congruence|rewrite W4, Gw; discriminate] ].
    destruct (column_of k l) as [ [c|]|]; [destruct (collect _ _) as [req xs]; destruct xs|..]; injection H as <-; (split; [cbn; lia|cbn; try discriminate]). rewrite W4, Gw. discriminate.
  - destruct (gone w) eqn:Gw; injection H as <-; [split; [exact R|rewrite Gw; exact G]|]. apply Q; [exact R|discriminate].
  - destruct (pending w) as [|n] eqn:P; [discriminate|]. injection H as <-. split; cbn; [destruct fine; lia|]. intros X. destruct (G X) as (X1 & X2). rewrite X2 in R. lia.
  - destruct (alive w) as [|n] eqn:P; [discriminate|]. injection H as <-. apply Q; cbn; [lia|]. intros X. destruct (G X) as (X1 & X2). rewrite X2 in R. lia.
Qed.
Lemma step_good : forall target o w w' T, good target T w -> clear_op target o -> (gone w = false \/ forall l rows, o <> Slice l rows) -> step target o w = Some w' ->
  good target (fun k x => T k x \/ of_op target o k x) w'.
Proof.
  intros target o w w' T (A & B & C & D & E & F) CL GW H. unfold step in H. rewrite A in H.
  assert (N : (forall l rows, o <> Slice l rows) -> forall v, crashed v = false -> cached v = cached w -> requested v = requested w -> asked v = asked w -> good target (fun k x => T k x \/ of_op target o k x) v).
  { intros NS v V1 V2 V3 V4. assert (X : forall k x, T k x \/ of_op target o k x <-> T k x) by (intros k x; split; [intros [Y|(l & rows & Y & _)]; [exact Y|now apply NS in Y]|now left]).
    unfold good, ids. rewrite V2, V3, V4. split; [exact V1|]. split; [exact B|]. split; [exact C|]. split; [exact D|]. split.
    - intros x. unfold ids in E. rewrite E. split; intros (k & K); exists k; now apply X.
    - eapply Forall_impl; [|exact F]. intros q (Q1 & Q2). split; [exact Q1|]. intros x I. left. now apply Q2. }
  assert (QC : forall v, crashed (quit_if_done v) = crashed v /\ cached (quit_if_done v) = cached v /\ requested (quit_if_done v) = requested v /\ asked (quit_if_done v) = asked v) by (intros v; unfold quit_if_done; destruct (_ && _); auto).
  destruct o as [l rows| |fine|].
  2: { destruct (gone w); injection H as <-; [apply N; [discriminate|auto..] |]. match goal with |- good _ _ (quit_if_done ?v) => destruct (QC v) as (Q1 & Q2 & Q3 & Q4) end. apply N; [discriminate|now rewrite Q1|now rewrite Q2|now rewrite Q3|now rewrite Q4]. }
  2: { destruct (pending w); [discriminate|]. injection H as <-. apply N; [discriminate|auto..]. }
  2: { destruct (alive w); [discriminate|]. injection H as <-. match goal with |- good _ _ (quit_if_done ?v) => destruct (QC v) as (Q1 & Q2 & Q3 & Q4) end. apply N; [discriminate|now rewrite Q1|now rewrite Q2|now rewrite Q3|now rewrite Q4]. }
  destruct GW as [GW|GW]; [|now destruct (GW l rows)]. rewrite GW in H. destruct (common_field target l w) as [f w1] eqn:CF.
  assert (W : f = common target l /\ (forall l0 f0, In (l0, f0) (cached w1) -> f0 = common target l0) /\ requested w1 = requested w /\ asked w1 = asked w /\ crashed w1 = false).
  { unfold common_field in CF. destruct (find _ _) as [ [l0 f0]|] eqn:FD.
    - injection CF as <- <-. apply find_some in FD. cbn [fst snd] in FD |- *. destruct FD as (FD & X). destruct (layout_dec l0 l) as [->|]; [|discriminate]. split; [now apply B|]. auto.
    - injection CF as <- <-. cbn [cached requested asked crashed]. split; [reflexivity|]. split; [|auto]. intros l0 f0 [X|X]; [injection X as <- <-; reflexivity|now apply B]. }
  destruct W as (-> & W1 & W2 & W3 & W4). pose proof (edge_spec target l) as ED. set (k := edge_name target l) in *. pose proof (CL l rows eq_refl k ED) as CK.
  (* nothing is new if there is no string that was not asked for *)
  assert (SAME : (forall x, holds k l rows x -> In x (requested w)) -> good target (fun k x => T k x \/ of_op target (Slice l rows) k x) w1).
  { intros Hold. unfold good, ids. rewrite W2, W3. split; [exact W4|]. split; [exact W1|]. split; [exact C|]. split; [exact D|]. split.
    - intros x. unfold ids in E. rewrite E. split; [intros (k0 & K); exists k0; now left|]. intros (k0 & [K|(l0 & rows0 & X & K1 & K2)]); [exists k0; exact K|]. injection X as <- <-.
      rewrite (edge_fun _ _ _ _ K1 ED) in K2. apply E. apply C. now apply Hold.
    - eapply Forall_impl; [|exact F]. intros q (Q1 & Q2). split; [exact Q1|]. intros x I. left. now apply Q2. }
  destruct (common_spec target l k ED) as [((f & F1 & F2) & CO)|(F1 & CO)]; rewrite CO in H.
  - destruct CK as [CK|(a & b & CK)]; [exfalso; exact (CK f F1 F2)|]. rewrite (column_leads k l a b (edge_point _ _ _ ED) CK) in H.
    assert (HO : forall x, holds k l rows x <-> In (DString x) (map (fun r => nth (columns a) r DNone) rows)).
    { intros x. rewrite in_map_iff. split.
      - intros (a' & b' & row & CK' & I & X). exists row. split; [|exact I]. assert (Y : columns a' = columns a). { pose proof (column_leads k l a' b' (edge_point _ _ _ ED) CK') as Y. rewrite (column_leads k l a b (edge_point _ _ _ ED) CK) in Y. congruence. }
        rewrite <- Y. now apply nth_error_nth.
      - intros (row & X & I). exists a, b, row. split; [exact CK|]. split; [exact I|]. destruct (nth_error row (columns a)) as [v|] eqn:NE; [rewrite (nth_error_nth _ _ DNone NE) in X; now rewrite X|].
        apply nth_error_None in NE. rewrite nth_overflow in X by exact NE. discriminate. }
    destruct (collect (requested w1) (map (fun r => nth (columns a) r DNone) rows)) as [req xs] eqn:CC. destruct (collect_spec _ _ _ _ CC) as (S1 & S2 & S3). rewrite W2 in S2, S3. destruct xs as [|x0 xs].
    + injection H as <-. apply SAME. intros x X. apply HO in X. destruct (in_dec (list_eq_dec N.eq_dec) x (requested w)) as [Y|Y]; [exact Y|]. exfalso. apply (proj2 (S2 x)). auto.
    + injection H as <-. set (ys := x0 :: xs) in *.
      assert (ID : concat (map snd (asked w1 ++ [(k, ys)])) = ids w ++ ys) by (unfold ids; rewrite W3, map_app, concat_app; cbn [map snd concat]; now rewrite app_nil_r).
      unfold good, ids. cbn [crashed cached requested asked]. rewrite ID. split; [reflexivity|]. split; [exact W1|]. split; [intros x; rewrite S3, in_app_iff, C; tauto|]. split; [|split].
      * clear - D S1 S2 C. assert (DJ : forall x, In x (ids w) -> ~ In x ys) by (intros x I J; apply S2 in J; destruct J as (_ & J); apply J; now apply C).
        clear C S2. revert DJ. induction (ids w) as [|y l0 IH]; intros DJ; [exact S1|]. cbn [app]. inversion D as [|? ? D1 D2]; subst. constructor; [|apply IH; [exact D2|intros x I; apply DJ; now right] ].
        intros I. apply in_app_or in I. destruct I as [I|I]; [contradiction|]. apply (DJ y); [now left|exact I].
      * intros x. rewrite in_app_iff, S2, E. split.
        -- intros [(k0 & K)|(X & _)]; [exists k0; now left|]. exists k. right. exists l, rows. split; [reflexivity|]. split; [exact ED|]. now apply HO.
        -- intros (k0 & [K|(l0 & rows0 & X & K1 & K2)]); [left; exists k0; exact K|]. injection X as <- <-. rewrite (edge_fun _ _ _ _ K1 ED) in K2. apply HO in K2.
           destruct (in_dec (list_eq_dec N.eq_dec) x (requested w)) as [Y|Y]; [left; apply E; now apply C|right; auto].
      * rewrite W3. apply Forall_app. split; [eapply Forall_impl; [|exact F]; intros q (Q1 & Q2); split; [exact Q1|]; intros x I; left; now apply Q2|]. constructor; [|constructor]. cbn [fst snd]. split; [discriminate|].
        intros x I. right. exists l, rows. split; [reflexivity|]. split; [exact ED|]. apply HO. now apply S2.
  - injection H as <-. apply SAME. intros x (a & b & row & (L & _) & _). exfalso. apply (F1 (TLeaf k)); [|reflexivity]. rewrite L. apply in_or_app. right. now left.
Qed.
Lemma good_ext : forall target T T' w, (forall k x, T k x <-> T' k x) -> good target T w -> good target T' w.
Proof.
  intros target T T' w X (A & B & C & D & E & F). split; [exact A|]. split; [exact B|]. split; [exact C|]. split; [exact D|]. split.
  - intros x. rewrite E. split; intros (k & K); exists k; now apply X.
  - eapply Forall_impl; [|exact F]. intros q (Q1 & Q2). split; [exact Q1|]. intros x I. apply X. now apply Q2.
Qed.
Lemma step_final : forall target o w w', o <> Final -> step target o w = Some w' -> final w = false -> final w' = false.
Proof.
  intros target o w w' N H F. unfold step in H. destruct (crashed w); [discriminate|]. destruct o as [l rows| |fine|]; [|contradiction| |].
  - destruct (gone w); [congruence|]. destruct (common_field target l w) as [f w1] eqn:C. assert (W : final w1 = final w) by (unfold common_field in C; destruct (find _ _); injection C as _ <-; reflexivity).
    destruct f; [|congruence]. destruct (column_of _ _) as [ [c|]|]; [destruct (collect _ _) as [req xs]; destruct xs|..]; injection H as <-; cbn; congruence.
  - destruct (pending w); [discriminate|]. injection H as <-. exact F.
  - destruct (alive w); [discriminate|]. injection H as <-. unfold quit_if_done. cbn. rewrite F. cbn. reflexivity.
Qed.
Lemma steps_good : forall target os w w' T, good target T w -> counted w -> Forall (clear_op target) os ->
  (final w = false /\ exists a b, os = a ++ b /\ Forall (fun o => o <> Final) a /\ Forall (fun o => forall l rows, o <> Slice l rows) b) \/ Forall (fun o => forall l rows, o <> Slice l rows) os ->
  steps target os w = Some w' -> good target (fun k x => T k x \/ exists o, In o os /\ of_op target o k x) w'.
Proof.
  intros target os. induction os as [|o os IH]; intros w w' T G K CL OR H; cbn [steps] in H.
  - injection H as <-. eapply good_ext; [|exact G]. intros k x. split; [now left|]. intros [X|(o & [] & _)]. exact X.
  - destruct (step target o w) as [w1|] eqn:S; [|discriminate].
    assert (GW : gone w = false \/ forall l rows, o <> Slice l rows).
    { destruct OR as [(F & _)|OR]; [left; destruct (gone w) eqn:X; [destruct K as (_ & K); destruct (K X); congruence|reflexivity]|right; exact (Forall_inv OR)]. }
    pose proof (step_good target o w w1 T G (Forall_inv CL) GW S) as G1. pose proof (step_counted target o w w1 K S) as K1.
    assert (OR1 : (final w1 = false /\ exists a b, os = a ++ b /\ Forall (fun o => o <> Final) a /\ Forall (fun o => forall l rows, o <> Slice l rows) b) \/ Forall (fun o => forall l rows, o <> Slice l rows) os).
    { destruct OR as [(F & a & b & X & A & B)|OR]; [|right; exact (Forall_inv_tail OR)]. destruct a as [|a0 a]; cbn [app] in X.
      - right. rewrite <- X in B. exact (Forall_inv_tail B).
      - injection X as <- ->. left. split; [exact (step_final target o w w1 (Forall_inv A) S F)|]. exists a, b. split; [reflexivity|]. split; [exact (Forall_inv_tail A)|exact B]. }
    pose proof (IH w1 w' _ G1 K1 (Forall_inv_tail CL) OR1 H) as G2. eapply good_ext; [|exact G2]. intros k x. split.
    + intros [ [X|X]|(o' & I & X)]; [now left|right; exists o; split; [now left|exact X]|right; exists o'; split; [now right|exact X] ].
    + intros [X|(o' & [<-|I] & X)]; [now left; left|left; now right|right; exists o'; auto].
Qed.
Lemma steps_counted : forall target os w w', counted w -> steps target os w = Some w' -> counted w'.
Proof.
  intros target os. induction os as [|o os IH]; intros w w' K H; cbn [steps] in H; [now injection H as <-|]. destruct (step target o w) as [w1|] eqn:S; [|discriminate]. apply (IH w1 w'); [|exact H]. exact (step_counted _ _ _ _ K S).
Qed.
(** Without failures the actor quits when it has nothing left to wait for. *)
Definition prompt (w : world) : Prop := final w = true -> running w = 0%nat -> gone w = true.
Lemma step_prompt : forall target o w w', counted w -> prompt w -> o <> Answer false -> step target o w = Some w' -> prompt w'.
Proof.
  intros target o w w' (R & G) P N H. unfold step in H. destruct (crashed w); [discriminate|].
  assert (Q : forall v, prompt (quit_if_done v)).
  { intros v F Z. unfold quit_if_done in *. destruct (final v && (running v =? 0)%nat) eqn:E; [reflexivity|]. rewrite F, Z in E. discriminate. }
  destruct o as [l rows| |fine|].
  - destruct (gone w) eqn:Gw; [injection H as <-; intros _ _; exact Gw|]. destruct (common_field target l w) as [f w1] eqn:C.
    assert (W : running w1 = running w /\ final w1 = final w /\ gone w1 = gone w) by (unfold common_field in C; destruct (find _ _); injection C as _ <-; auto).
    destruct W as (W1 & W2 & W3). assert (P1 : prompt w1) by (unfold prompt in *; rewrite W1, W2, W3, Gw in *; exact P).
    destruct f as [k|]; [|now injection H as <-]. destruct (column_of k l) as [ [c|]|]; [destruct (collect _ _) as [req xs]; destruct xs|..]; injection H as <-; try exact P1.
    + intros _ Z. discriminate Z.
    + intros F Z. cbn in F, Z. rewrite W2 in F. rewrite W1 in Z. pose proof (P F Z). congruence.
    + intros F Z. cbn in F, Z. rewrite W2 in F. rewrite W1 in Z. pose proof (P F Z). congruence.
  - destruct (gone w) eqn:Gw; injection H as <-; [intros _ _; exact Gw|apply Q].
  - destruct (pending w) as [|n] eqn:X; [discriminate|]. injection H as <-. destruct fine; [|now contradiction N]. intros F Z. cbn in F, Z |- *. lia.
  - destruct (alive w) as [|n] eqn:X; [discriminate|]. injection H as <-. apply Q.
Qed.
Lemma steps_prompt : forall target os w w', counted w -> prompt w -> Forall (fun o => o <> Answer false) os -> steps target os w = Some w' -> prompt w'.
Proof.
  intros target os. induction os as [|o os IH]; intros w w' K P F H; cbn [steps] in H; [now injection H as <-|]. destruct (step target o w) as [w1|] eqn:S; [|discriminate].
  apply (IH w1 w'); [exact (step_counted _ _ _ _ K S)|exact (step_prompt _ _ _ _ K P (Forall_inv F) S)|exact (Forall_inv_tail F)|exact H].
Qed.
