(** Lemmas about the type registry. *)
From Coq Require Import List NArith Bool Arith Lia Permutation.
From Verif Require Import OperatorModel AddressModel DataModel DataProofs TypeModel TypeProofs ExpressionModel TaxonomyModel TaxonomyProofs TypeRegistryModel.
Import ListNotations.
Open Scope nat_scope.

(** * The order of layouts *)

(** [t] was seen after [u] was seen for the last time. *)
Definition later (h : list ty) (t u : ty) : Prop := exists h1 h2, h = h1 ++ t :: h2 /\ ~ In u (t :: h2).
(** [l] has the layouts of a history once each, those seen most recently first. *)
Definition recency (l h : list ty) : Prop := NoDup l /\ (forall t, In t l <-> In t h) /\ ForallOrdPairs (later h) l.
(** The layouts with a name. *)
Definition named (n : list N) (h : list ty) : list ty := filter (fun t => bytes_eqb (ty_name t) n) h.
(** The layouts known are those of a history. *)
Definition agrees (k : known) (h : list ty) : Prop :=
  forall n, match find_key n k with None => named n h = [] | Some xs => named n h <> [] /\ recency xs (named n h) end.

Definition without (t : ty) (xs : list ty) : list ty := filter (fun x => negb (ty_eqb x t)) xs.
Lemma without_in : forall t u xs, In u (without t xs) <-> In u xs /\ u <> t.
Proof.
  intros t u xs. unfold without. rewrite filter_In, negb_true_iff. split; intros [H1 H2]; (split; [assumption|]).
  - intros ->. assert (ty_eqb t t = true) by (apply ty_eqb_eq; reflexivity). congruence.
  - destruct (ty_eqb u t) eqn:E; [|reflexivity]. apply ty_eqb_eq in E. contradiction.
Qed.
Lemma without_id : forall t xs, ~ In t xs -> without t xs = xs.
Proof.
  intros t. induction xs as [|x xs IH]; intros H; [reflexivity|]. unfold without in *. cbn [filter]. destruct (ty_eqb x t) eqn:E.
  - apply ty_eqb_eq in E. subst. destruct H. left. reflexivity.
  - cbn [negb]. f_equal. apply IH. intros H'. apply H. right. assumption.
Qed.
Lemma lookup_none : forall t xs, lookup t xs = None <-> ~ In t xs.
Proof.
  intros t. induction xs as [|x xs IH]; cbn [lookup In]; [tauto|]. destruct (ty_eqb x t) eqn:E.
  - apply ty_eqb_eq in E. subst. split; [discriminate|]. intros H. destruct H. left. reflexivity.
  - destruct (lookup t xs) as [i|] eqn:L.
    + split; [discriminate|]. intros H. assert (~ In t xs) as H' by tauto. apply IH in H'. discriminate.
    + split; [|reflexivity]. intros _ [->|H]; [|apply IH in H; [assumption|reflexivity]].
      assert (ty_eqb t t = true) by (apply ty_eqb_eq; reflexivity). congruence.
Qed.
Lemma lookup_some : forall t xs i, NoDup xs -> lookup t xs = Some i -> nth_error xs i = Some t /\ firstn i xs ++ skipn (S i) xs = without t xs.
Proof.
  intros t. induction xs as [|x xs IH]; intros i D H; cbn [lookup] in H; [discriminate|]. inversion D as [|? ? D1 D2]; subst.
  destruct (ty_eqb x t) eqn:E.
  - inversion H; subst i. apply ty_eqb_eq in E. subst x. split; [reflexivity|]. cbn [firstn skipn app]. unfold without. cbn [filter].
    assert (ty_eqb t t = true) as -> by (apply ty_eqb_eq; reflexivity). cbn [negb]. symmetry. apply without_id. assumption.
  - destruct (lookup t xs) as [j|] eqn:L; [|discriminate]. inversion H; subst i. destruct (IH j D2 eq_refl) as [H1 H2]. split; [exact H1|].
    unfold without in *. cbn [filter]. rewrite E. cbn [negb]. rewrite <- H2. reflexivity.
Qed.
Lemma insert_bucket_eq : forall t xs, NoDup xs -> fst (insert_bucket t xs) = t :: without t xs.
Proof.
  intros t xs D. unfold insert_bucket, add. destruct (lookup t xs) as [i|] eqn:L.
  - cbn [fst]. destruct (lookup_some t xs i D L) as [H1 H2]. unfold rotate. rewrite H1, H2. reflexivity.
  - cbn [fst]. apply lookup_none in L. unfold rotate. rewrite nth_error_app2 by lia. rewrite Nat.sub_diag. cbn [nth_error]. f_equal.
    rewrite firstn_app, firstn_all, Nat.sub_diag. cbn [firstn]. rewrite app_nil_r. rewrite skipn_all2 by (rewrite app_length; cbn; lia).
    rewrite app_nil_r. symmetry. apply without_id. assumption.
Qed.
Lemma recency_snoc : forall t l h, recency l h -> recency (t :: without t l) (h ++ [t]).
Proof.
  intros t l h (D & I & O). split; [|split].
  - constructor; [rewrite without_in; tauto|]. apply NoDup_filter. assumption.
  - intros u. cbn [In]. rewrite without_in, I, in_app_iff. cbn [In]. destruct (ty_eqb u t) eqn:E.
    + apply ty_eqb_eq in E. subst. tauto.
    + assert (u <> t) by (intros ->; assert (ty_eqb t t = true) by (apply ty_eqb_eq; reflexivity); congruence). intuition congruence.
  - constructor.
    + apply Forall_forall. intros u Hu. apply without_in in Hu as [_ Hu]. exists h, []. split; [reflexivity|]. cbn. intuition congruence.
    + assert (forall l', ForallOrdPairs (later h) l' -> ForallOrdPairs (later (h ++ [t])) (without t l')) as G; [|apply G; assumption].
      clear. induction l' as [|x l' IH]; intros H; [constructor|]. inversion H as [|? ? H1 H2]; subst. unfold without in *. cbn [filter].
      destruct (negb (ty_eqb x t)) eqn:E; [|apply IH; assumption]. constructor; [|apply IH; assumption].
      apply Forall_forall. intros u Hu. apply (without_in t u l') in Hu as [Hu Hn]. rewrite Forall_forall in H1. destruct (H1 u Hu) as (h1 & h2 & -> & Hl).
      exists h1, (h2 ++ [t]). split; [rewrite <- app_assoc; reflexivity|]. cbn [In] in *. rewrite in_app_iff. cbn [In]. intuition congruence.
Qed.
Lemma recency_nil : recency [] [].
Proof. split; [constructor|]. split; [tauto|constructor]. Qed.
Lemma recency_head : forall t l h u, recency (t :: l) (h ++ [u]) -> t = u.
Proof.
  intros t l h u (D & I & O). assert (In u (t :: l)) as [H|H] by (apply I; apply in_app_iff; right; left; reflexivity); [assumption|].
  inversion O as [|? ? H1 H2]; subst. rewrite Forall_forall in H1. destruct (H1 u H) as (h1 & h2 & E & Hn). exfalso. apply Hn.
  destruct (exists_last (l := t :: h2)) as (a & b & Eb); [discriminate|]. rewrite Eb in *. rewrite app_assoc in E.
  apply app_inj_tail in E as [_ <-]. apply in_app_iff. right. left. reflexivity.
Qed.

Lemma named_app : forall n h t, named n (h ++ [t]) = if bytes_eqb (ty_name t) n then named n h ++ [t] else named n h.
Proof. intros. unfold named. rewrite filter_app. cbn [filter]. destruct (bytes_eqb (ty_name t) n); [reflexivity|apply app_nil_r]. Qed.
Lemma agrees_nil : agrees [] [].
Proof. intros n. reflexivity. Qed.
Lemma agrees_bucket : forall k h n, agrees k h -> recency (bucket n k) (named n h).
Proof. intros k h n H. specialize (H n). unfold bucket. destruct (find_key n k); [apply H|]. rewrite H. apply recency_nil. Qed.
Lemma agrees_insert : forall k h t, agrees k h -> agrees (fst (insert t k)) (h ++ [t]).
Proof.
  intros k h t H n. unfold insert. cbn [fst]. rewrite find_update, named_app. destruct (bytes_eqb (ty_name t) n) eqn:E; [|apply H].
  apply bytes_eqb_iff in E. subst n. pose proof (agrees_bucket k h (ty_name t) H) as B. unfold bucket in B.
  split; [intros X; apply app_eq_nil in X as [_ X]; discriminate|]. rewrite insert_bucket_eq by apply B. apply recency_snoc. assumption.
Qed.

(** * Histories *)

(** What the layouts on disk and those of the running registry should be: plain histories. *)
Definition memory : Type := option (list ty) * option (list ty).
Definition remember (s : memory) (e : event) : memory :=
  match e, s with
  | Start _ readable, (Some h, None) => if readable then (Some h, Some h) else (Some h, None)
  | Start _ _, (None, None) => (None, Some [])
  | Slice t, (d, Some h) => (d, Some (h ++ [t]))
  | Stop true, (_, Some h) => (Some h, None)
  | Stop false, (d, _) => (d, None)
  | Crash, (d, _) => (d, None)
  | _, _ => s
  end.
Definition remembered (es : list event) : memory := fold_left remember es (None, None).

Definition matches (s : memory) (w : world) : Prop :=
  match fst s, w_disk w with None, None => True | Some h, Some k => agrees k h | _, _ => False end /\
  match snd s, w_registry w with None, None => True | Some h, Some r => agrees (r_data r) h | _, _ => False end.
Lemma matches_step : forall s w e, matches s w -> matches (remember s e) (fst (step w e)).
Proof.
  intros [d h] [k r] e [H1 H2]. cbn [fst snd w_disk w_registry] in *.
  destruct e as [schema readable|t|t|fs|written|]; unfold step, running; cbn [w_disk w_registry].
  - destruct h as [h|], r as [r|]; try contradiction.
    + destruct d; split; assumption.
    + destruct d as [d|], k as [k|]; try contradiction; [destruct readable|]; split; cbn; auto using agrees_nil.
  - destruct h as [h|], r as [r|]; try contradiction; [|destruct d; split; assumption]. destruct d; (split; cbn; [assumption|]); apply agrees_insert; assumption.
  - destruct h as [h|], r as [r|]; try contradiction; destruct d; split; assumption.
  - destruct h as [h|], r as [r|]; try contradiction; [|destruct d; split; assumption].
    assert (remember (d, Some h) (Load fs) = (d, Some h)) as -> by (destruct d; reflexivity).
    destruct fs as [fs|]; [destruct (load_files fs [] [])|]; split; assumption.
  - destruct h as [h|], r as [r|]; try contradiction.
    + destruct written; destruct d; split; cbn; auto.
    + destruct written; destruct d; split; cbn; auto.
  - destruct h as [h|], r as [r|]; try contradiction; destruct d; split; cbn; auto.
Qed.
Lemma matches_run : forall es s w, matches s w -> matches (fold_left remember es s) (run w es).
Proof. induction es as [|e es IH]; intros s w H; [assumption|]. cbn [fold_left run]. apply IH. apply matches_step. assumption. Qed.
Lemma matches_after : forall es, matches (remembered es) (after es).
Proof. intros. apply matches_run. split; exact I. Qed.

(** * Loading *)

Lemma extract_items_app : forall xs ys out, extract_items (xs ++ ys) out = match extract_items xs out with Some o => extract_items ys o | None => None end.
Proof.
  induction xs as [|x xs IH]; intros ys out; [reflexivity|]. cbn [app extract_items]. destruct x; try apply IH.
  destruct (find_key k_concept xs0); [|apply IH]. destruct (convert_concept d out); [apply IH|reflexivity].
Qed.
Lemma extract_models_app : forall xs ys out, extract_model_items (xs ++ ys) out = match extract_model_items xs out with Some o => extract_model_items ys o | None => None end.
Proof.
  induction xs as [|x xs IH]; intros ys out; [reflexivity|]. cbn [app extract_model_items]. destruct x; try apply IH.
  destruct (find_key k_model xs0); [|apply IH]. destruct (convert_model d out); [apply IH|reflexivity].
Qed.
Lemma load_files_eq : forall files cs ms, load_files files cs ms =
  match extract_items (flat_map items files) cs, extract_model_items (flat_map items files) ms with
  | Some c, Some m => Some {| t_concepts := c; t_models := m |}
  | _, _ => None
  end.
Proof.
  induction files as [|f files IH]; intros cs ms; [reflexivity|]. cbn [flat_map load_files]. rewrite extract_items_app, extract_models_app.
  destruct (extract_items (items f) cs) as [c|]; [|reflexivity]. destruct (extract_model_items (items f) ms) as [m|]; [apply IH|].
  destruct (extract_items (flat_map items files) c); reflexivity.
Qed.

(** An element of a file defines a model. *)
Definition model_definition (d : data) (n : list N) (def : list (list N)) : Prop :=
  exists xs ys, d = DRecord xs /\ find_key k_model xs = Some (DRecord ys) /\ find_key k_name ys = Some (DString n) /\ strings_at k_definition ys = Some def.
(** What is said to be a concept or a model is one. *)
Definition valid (d : data) : Prop := forall xs v, d = DRecord xs ->
  (find_key k_concept xs = Some v -> exists n fs ns, definition d n fs ns) /\
  (find_key k_model xs = Some v -> exists n def, model_definition d n def).
(** The names of the models that an element defines. *)
Definition model_names (d : data) : list (list N) :=
  match d with
  | DRecord xs => match find_key k_model xs with
                  | Some (DRecord ys) => match find_key k_name ys with Some (DString n) => [n] | _ => [] end
                  | _ => []
                  end
  | _ => []
  end.

Lemma concepts_succeed : forall ds out, (exists m, extract_items ds out = Some m) <->
  forall d xs v, In d ds -> d = DRecord xs -> find_key k_concept xs = Some v -> exists n fs ns, definition d n fs ns.
Proof.
  induction ds as [|d ds IH]; intros out.
  - split; [intros _ ? ? ? []|]. intros _. exists out. reflexivity.
  - assert ((forall xs, d <> DRecord xs) \/ exists xs, d = DRecord xs) as [N|(xs & ->)] by (destruct d; try (left; intros; discriminate); right; eexists; reflexivity).
    + assert (extract_items (d :: ds) out = extract_items ds out) as -> by (destruct d; try reflexivity; edestruct N; reflexivity). rewrite IH.
      split; intros H d' xs v Hd; [destruct Hd as [<-|Hd]; [intros E; destruct (N _ E)|apply H; assumption]|apply H; right; assumption].
    + cbn [extract_items]. destruct (find_key k_concept xs) as [d|] eqn:F.
      * destruct (convert_concept d out) as [o|] eqn:C.
        -- rewrite IH. split; intros H d' xs' v Hd Ed Ev.
           ++ destruct Hd as [<-|Hd]; [|eapply H; eassumption]. inversion Ed; subst xs'. unfold convert_concept in C.
              destruct d as [| | | | | | | | | | | | | |ys]; try discriminate. destruct (find_key k_name ys) as [[]|] eqn:Fn; try discriminate.
              destruct (strings_at k_fields ys) as [fs|] eqn:Ff; [|discriminate]. destruct (strings_at k_concepts ys) as [ns|] eqn:Fc; [|discriminate].
              exists s, fs, ns, xs, ys. auto.
           ++ eapply H; [right; eassumption|eassumption|eassumption].
        -- split; [intros (m & H); discriminate|]. intros H. destruct (H _ xs d (or_introl eq_refl) eq_refl F) as (n & fs & ns & xs' & ys & E & F' & Fn & Ff & Fc).
           inversion E; subst xs'. rewrite F in F'. inversion F'; subst d. unfold convert_concept in C. rewrite Fn, Ff, Fc in C. discriminate.
      * rewrite IH. split; intros H d' xs' v Hd Ed Ev; [|eapply H; [right; eassumption|eassumption|eassumption]].
        destruct Hd as [<-|Hd]; [inversion Ed; subst; congruence|]. eapply H; eassumption.
Qed.
Lemma find_key_app : forall {A} k (m : list (list N * A)) m', find_key k (m ++ m') = match find_key k m with Some a => Some a | None => find_key k m' end.
Proof. induction m as [|[k' a] m IH]; intros m'; [reflexivity|]. cbn [app find_key]. destruct (bytes_eqb k' k); [reflexivity|apply IH]. Qed.
Lemma find_key_none : forall {A} k (m : list (list N * A)), find_key k m = None <-> ~ In k (map fst m).
Proof.
  induction m as [|[k' a] m IH]; cbn; [tauto|]. destruct (bytes_eqb k' k) eqn:E.
  - apply bytes_eqb_iff in E. subst. split; [discriminate|]. intros H. destruct H. left. reflexivity.
  - rewrite IH. assert (k' <> k) by (intros ->; rewrite bytes_eqb_refl' in E; discriminate). tauto.
Qed.
Lemma models_succeed : forall ds out, NoDup (map fst out) -> (exists m, extract_model_items ds out = Some m) <->
  (forall d xs v, In d ds -> d = DRecord xs -> find_key k_model xs = Some v -> exists n def, model_definition d n def) /\
  NoDup (map fst out ++ flat_map model_names ds).
Proof.
  induction ds as [|d ds IH]; intros out D.
  - split; [intros _; split; [intros ? ? ? []|cbn [flat_map]; rewrite app_nil_r; assumption]|]. intros _. exists out. reflexivity.
  - assert ((forall xs, d <> DRecord xs) \/ exists xs, d = DRecord xs) as [N|(xs & ->)] by (destruct d; try (left; intros; discriminate); right; eexists; reflexivity).
    + assert (extract_model_items (d :: ds) out = extract_model_items ds out) as -> by (destruct d; try reflexivity; edestruct N; reflexivity). rewrite IH by assumption.
      assert (flat_map model_names (d :: ds) = flat_map model_names ds) as -> by (destruct d; try reflexivity; edestruct N; reflexivity).
      split; intros [H X]; (split; [|assumption]); intros d' xs v Hd; [destruct Hd as [<-|Hd]; [intros E; destruct (N _ E)|apply H; assumption]|apply H; right; assumption].
    + cbn [extract_model_items flat_map model_names]. destruct (find_key k_model xs) as [d|] eqn:F.
      * destruct (convert_model d out) as [o|] eqn:C.
        -- unfold convert_model in C. destruct d as [| | | | | | | | | | | | | |ys]; try discriminate. destruct (find_key k_name ys) as [[]|] eqn:Fn; try discriminate.
           destruct (find_key s out) eqn:Fo; [discriminate|]. destruct (strings_at k_definition ys) as [def|] eqn:Fd; [|discriminate]. inversion C; subst o. clear C.
           apply find_key_none in Fo. assert (NoDup (map fst (out ++ [(s, def)]))) as D'.
           { rewrite map_app. cbn [map fst]. apply (Permutation_NoDup (l := s :: map fst out)); [apply Permutation_cons_append|]. constructor; assumption. }
           rewrite IH by assumption. rewrite map_app. cbn [map fst]. rewrite <- app_assoc. split; intros [H X]; (split; [|exact X]); intros d' xs' v Hd Ed Ev.
           ++ destruct Hd as [<-|Hd]; [|eapply H; eassumption]. exists s, def, xs, ys. auto.
           ++ eapply H; [right; eassumption|eassumption|eassumption].
        -- split; [intros (m & H); discriminate|]. intros [H X]. destruct (H _ xs d (or_introl eq_refl) eq_refl F) as (n & def & xs' & ys & E & F' & Fn & Fd).
           inversion E; subst xs'. rewrite F in F'. inversion F'; subst d. unfold convert_model in C. rewrite Fn, Fd in C.
           destruct (find_key n out) eqn:Fo; [|discriminate]. rewrite Fn in X. apply find_key_in in Fo. exfalso. cbn [app] in X. apply NoDup_remove_2 in X.
           apply X. apply in_app_iff. left. assumption.
      * cbn [app]. rewrite IH by assumption. split; intros [H X]; (split; [|assumption]); intros d' xs' v Hd Ed Ev; [|eapply H; [right; eassumption|eassumption|eassumption]].
        destruct Hd as [<-|Hd]; [inversion Ed; subst; congruence|]. eapply H; eassumption.
Qed.
Lemma models_spec : forall ds out m, extract_model_items ds out = Some m ->
  forall n def, find_key n m = Some def <-> find_key n out = Some def \/ exists d, In d ds /\ model_definition d n def.
Proof.
  induction ds as [|d ds IH]; intros out m H n def.
  - inversion H; subst. split; [auto|]. intros [X|(d & [] & _)]. assumption.
  - assert ((forall xs, d <> DRecord xs) \/ exists xs, d = DRecord xs) as [N|(xs & ->)] by (destruct d; try (left; intros; discriminate); right; eexists; reflexivity).
    + assert (extract_model_items (d :: ds) out = extract_model_items ds out) as E by (destruct d; try reflexivity; edestruct N; reflexivity). rewrite E in H.
      rewrite (IH _ _ H). split; (intros [X|(d' & Hd & X)]; [auto|]).
      * right. exists d'. split; [right; assumption|assumption].
      * destruct Hd as [<-|Hd]; [destruct X as (xs & ys & -> & _); destruct (N xs eq_refl)|]. right. exists d'. auto.
    + cbn [extract_model_items] in H. destruct (find_key k_model xs) as [d|] eqn:F.
      * destruct (convert_model d out) as [o|] eqn:C; [|discriminate].
        unfold convert_model in C. destruct d as [| | | | | | | | | | | | | |ys]; try discriminate. destruct (find_key k_name ys) as [[]|] eqn:Fn; try discriminate.
        destruct (find_key s out) eqn:Fo; [discriminate|]. destruct (strings_at k_definition ys) as [def'|] eqn:Fd; [|discriminate]. inversion C; subst o. clear C.
        rewrite (IH _ _ H). rewrite find_key_app. cbn [find_key]. split.
        -- intros [X|(d' & Hd & X)]; [|right; exists d'; split; [right; assumption|assumption]]. destruct (find_key n out); [auto|].
           destruct (bytes_eqb s n) eqn:E; [|discriminate]. apply bytes_eqb_iff in E. inversion X; subst. right. eexists. split; [left; reflexivity|]. exists xs, ys. auto.
        -- intros [X|(d' & [<-|Hd] & X)].
           ++ left. rewrite X. reflexivity.
           ++ left. destruct X as (xs' & ys' & E & F' & Fn' & Fd'). inversion E; subst xs'. rewrite F in F'. inversion F'; subst ys'. rewrite Fn in Fn'. inversion Fn'; subst s.
              rewrite Fo, bytes_eqb_refl'. congruence.
           ++ right. exists d'. auto.
      * rewrite (IH _ _ H). split; (intros [X|(d' & Hd & X)]; [auto|]).
        -- right. exists d'. split; [right; assumption|assumption].
        -- destruct Hd as [<-|Hd]; [|right; exists d'; auto]. destruct X as (xs' & ys & E & F' & _). inversion E; subst. congruence.
Qed.
