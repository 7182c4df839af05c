(** Proofs that a schema that is written as text is read back. *)
From Coq Require Import String Ascii List ZArith NArith Bool Arith Lia Permutation.
From Coq Require Import ZifyBool ZifyNat ZifyN.
From Coq Require Import Init.Datatypes.
From Verif Require Import OperatorModel EscapeModel AddressModel AddressProofs DataModel TypeModel TypeProofs ExpressionModel LiteralModel LiteralProofs SyntaxModel TypeTextProofs SchemaModel SchemaProofs.
Import ListNotations.
Open Scope N_scope.

(** * Schemas that can be written *)

(** What stands behind the equals sign of a definition. *)
Definition body (t : ty) : ty := match t with TAlias _ v => v | _ => with_name t [] end.
(** The outermost types in a type that have names. *)
Fixpoint parts (t : ty) : list ty :=
  match ty_name t with
  | [] => match t with
          | TList _ v => parts v
          | TMap _ k v => parts k ++ parts v
          | TRecord _ fs => flat_map (fun f => parts (snd f)) fs
          | _ => []
          end
  | _ => [t]
  end.
Lemma parts_eq : forall t, parts t = match ty_name t with
  | [] => match t with TList _ v => parts v | TMap _ k v => parts k ++ parts v | TRecord _ fs => flat_map (fun f => parts (snd f)) fs | _ => [] end
  | _ => [t] end.
Proof. now destruct t. Qed.
(** An alias is made from a named type and adds no attributes. What a definition is made of can be
    read, and the named types in it belong to the schema. *)
Definition writable_type (s : list ty) (t : ty) : Prop :=
  word (ty_name t) /\ match t with TAlias m v => m_attrs m = [] /\ ty_name v <> [] | _ => True end /\ readable (body t) /\ (forall p, In p (parts (body t)) -> In p s).
Definition writable (s : list ty) : Prop := NoDup (map ty_name s) /\ Forall (writable_type s) s.

(** * Sizes *)

Fixpoint tsize (t : ty) : nat :=
  match t with
  | TList _ v | TAlias _ v => S (tsize v)
  | TMap _ k v => S (tsize k + tsize v)
  | TRecord _ fs => S (fold_right (fun f n => tsize (snd f) + n)%nat O fs)
  | _ => 1%nat
  end.
Lemma parts_size : forall t p, In p (parts t) -> (tsize p <= tsize t)%nat /\ (ty_name t = [] -> (tsize p < tsize t)%nat).
Proof.
  induction t as [|m|m b|m es|m v IHv|m kt vt IHk IHv|m fs IH|m v IHv] using ty_rect'; intros p H; rewrite parts_eq in H; unfold ty_name in *; cbn [ty_meta] in *.
  all: try (destruct H; fail).
  all: match type of H with In _ (match ?y with [] => _ | _ => _ end) => destruct y as [|c x] eqn:NM end; try (destruct H; fail); try (destruct H as [<-|[] ]; split; [lia|discriminate]).
  - apply IHv in H. cbn [tsize]. lia.
  - apply in_app_or in H. cbn [tsize]. destruct H as [H|H]; [apply IHk in H|apply IHv in H]; lia.
  - cbn [tsize]. apply in_flat_map in H. destruct H as (f & Hf & H). pose proof (proj1 (Forall_forall _ _) IH f Hf p H) as [L _].
    assert (F : (tsize (snd f) <= fold_right (fun f n => tsize (snd f) + n) O fs)%nat).
    { clear - Hf. induction fs as [|g fs IH]; [destruct Hf|]. cbn [fold_right]. destruct Hf as [->|Hf]; [lia|]. apply IH in Hf. lia. }
    lia.
Qed.
Lemma with_name_size : forall t x, tsize (with_name t x) = tsize t.
Proof. now destruct t. Qed.

(** * Resolving the definitions *)

Definition define_type (t : ty) : text * ty := (ty_name t, define (ty_name t) (reference (body t))).

Lemma with_no_attrs : forall t, with_attrs t [] = t.
Proof. destruct t as [|[]|[]|[]|[]|[]|[]|[] ]; reflexivity. Qed.
Lemma plain_record : forall m, attrs_ok (m_attrs m) -> has_attribute m algebra_key = false.
Proof.
  intros m [H _]. unfold has_attribute. induction H as [|x xs Hx H IH]; [reflexivity|]. cbn [existsb]. rewrite IH, orb_false_r. apply eqb_neq. intros E. destruct Hx as [ [_ W] _]. rewrite E in W. discriminate W.
Qed.
Lemma ref_expands : forall l g d t, readable t -> (forall p, In p (parts t) -> ty_name p <> d /\ denotes l g (ty_name p) p) -> expands l g d (reference t) t.
Proof.
  intros l g d. induction t as [|m|m b|m es|m v IHv|m kt vt IHk IHv|m fs IH|m v IHv] using ty_rect'; intros R H; rewrite reference_eq; rewrite readable_eq in R.
  all: match goal with |- expands _ _ _ (match ?y with [] => _ | _ => _ end) _ => destruct y as [|c x] eqn:NM end.
  all: try (match goal with |- expands _ _ _ (named_none _) ?u => destruct (H u) as [H1 H2]; [rewrite parts_eq, NM; now left|]; rewrite NM in *; rewrite <- (with_no_attrs u) at 1;
    apply (expands_ref l g d {| m_name := c :: x; m_attrs := [] |}); [discriminate|exact H1|exact H2] end).
  all: try (destruct R; fail).
  all: cbn [ref_kind readable_kind] in *.
  - constructor.
  - constructor.
  - destruct R as [_ R]. apply expands_list. apply IHv; [exact R|]. intros p Hp. apply H. rewrite parts_eq, NM. exact Hp.
  - destruct R as (_ & R1 & R2). apply expands_map; [apply IHk|apply IHv]; try assumption; intros p Hp; apply H; rewrite parts_eq, NM; apply in_or_app; auto.
  - destruct R as (A & _ & _ & R). apply fields_fold in R. apply expands_record with (fs' := fs); [|unfold finish_record; now rewrite plain_record].
    assert (H' : forall p, In p (flat_map (fun f => parts (snd f)) fs) -> ty_name p <> d /\ denotes l g (ty_name p) p) by (intros p Hp; apply H; rewrite parts_eq, NM; exact Hp).
    clear H NM A. induction IH as [|f fs Hf IH IH2]; [constructor|]. inversion R; subst. cbn [map]. destruct f as [x t]. cbn [fst snd] in *. constructor.
    + apply Hf; [assumption|]. intros p Hp. apply H'. cbn [flat_map snd]. apply in_or_app. now left.
    + apply IH2; [assumption|]. intros p Hp. apply H'. cbn [flat_map snd]. apply in_or_app. now right.
Qed.

(** A type is what its definition means. *)
Lemma body_size : forall t p, word (ty_name t) -> match t with TAlias m v => m_attrs m = [] /\ ty_name v <> [] | _ => True end -> In p (parts (body t)) -> (tsize p < tsize t)%nat.
Proof.
  intros t p W A H. destruct t; cbn [body] in H; apply parts_size in H; destruct H as [H1 H2]; try (rewrite with_name_size in *; apply H2; reflexivity). cbn [tsize]. lia.
Qed.
Lemma with_name_twice : forall t x, with_name (with_name t []) x = with_name t x.
Proof. now destruct t. Qed.
Lemma with_name_same : forall t, with_name t (ty_name t) = t.
Proof. destruct t as [|[]|[]|[]|[]|[]|[]|[] ]; reflexivity. Qed.
(** Naming a definition names what it expands to. *)
Lemma expands_named : forall l g d t u x, ty_name t = [] -> match t with TNone _ => False | TRecord m _ => has_attribute m algebra_key = false | _ => True end -> expands l g d t u -> expands l g d (with_name t x) (with_name u x).
Proof.
  intros l g d t u x N K H. destruct H; try (now destruct K); cbn [with_name] in *; try (constructor; assumption).
  unfold finish_record in H0. rewrite K in H0. injection H0 as <-. cbn [with_name]. apply expands_record with (fs' := fs'); [exact H|]. unfold finish_record.
  change (has_attribute {| m_name := x; m_attrs := m_attrs m |} algebra_key) with (has_attribute m algebra_key). now rewrite K.
Qed.
Lemma reference_kind : forall t, readable t -> ty_name t = [] -> ty_name (reference t) = [] /\ match reference t with TNone _ => False | TRecord m _ => has_attribute m algebra_key = false | _ => True end.
Proof.
  intros t R N. rewrite reference_eq, N. rewrite readable_eq, N in R. destruct t; cbn [readable_kind ref_kind] in *; try contradiction; split; auto. apply plain_record. apply R.
Qed.
Lemma type_expands : forall l g t, word (ty_name t) -> match t with TAlias m v => m_attrs m = [] /\ ty_name v <> [] | _ => True end -> readable (body t) ->
  (forall p, In p (parts (body t)) -> ty_name p <> ty_name t /\ denotes l g (ty_name p) p) -> expands l g (ty_name t) (snd (define_type t)) t.
Proof.
  intros l g t W A R H. unfold define_type. cbn [snd]. assert (X : expands l g (ty_name t) (reference (body t)) (body t)) by (now apply ref_expands).
  destruct t; cbn [body] in *.
  8:{ destruct A as [A1 A2]. rewrite reference_eq in *. destruct (ty_name t) as [|c x] eqn:NV; [contradiction|]. unfold define. change (ty_name (named_none (c :: x))) with (c :: x). cbv iota.
      destruct m as [n a]. cbn [m_attrs] in A1. subst a. apply expands_alias. exact X. }
  all: destruct (reference_kind _ R eq_refl) as [E1 E2]; unfold define; rewrite E1;
    match goal with |- expands _ _ _ (with_name ?r ?x) ?u => pose proof (expands_named _ _ _ _ _ x E1 E2 X) as Y; rewrite with_name_twice in Y; rewrite (with_name_same u) in Y; exact Y end.
Qed.

Section Back.
  Variable s : list ty.
  Hypothesis W : writable s.
  Variable l : symbols.
  Hypothesis L : Permutation l (map define_type s).
  Variable g : text -> ty -> Prop.

  Lemma same_name : forall t u, In t s -> In u s -> ty_name t = ty_name u -> t = u.
  Proof.
    intros t u Ht Hu E. destruct W as [ND _]. pose proof (find_in s t ND Ht) as F1. pose proof (find_in s u ND Hu) as F2. congruence.
  Qed.
  Lemma means_itself : forall n t, (tsize t <= n)%nat -> In t s -> denotes l g (ty_name t) t.
  Proof.
    induction n as [|n IH]; intros t Hn Ht; [destruct t; cbn [tsize] in Hn; lia|].
    destruct W as [_ WF]. destruct (proj1 (Forall_forall _ _) WF t Ht) as (W1 & W2 & W3 & W4).
    apply denotes_local with (snd (define_type t)).
    - apply Permutation_in with (map define_type s); [now symmetry|]. apply in_map_iff. now exists t.
    - apply type_expands; auto. intros p Hp. pose proof (body_size t p W1 W2 Hp) as SZ. specialize (W4 p Hp). split; [|apply IH; [lia|exact W4] ].
      intros E. rewrite (same_name p t W4 Ht E) in SZ. lia.
  Qed.
  Lemma define_table : table l.
  Proof.
    unfold table. apply Permutation_NoDup with (map fst (map define_type s)); [apply Permutation_map; now symmetry|]. rewrite map_map. cbn [define_type fst]. apply W.
  Qed.
  Lemma defined : Forall definition l.
  Proof.
    apply Forall_forall. intros x Hx. apply (Permutation_in _ L) in Hx. apply in_map_iff in Hx. destruct Hx as (t & <- & Ht).
    destruct W as [_ WF]. destruct (proj1 (Forall_forall _ _) WF t Ht) as (W1 & W2 & W3 & W4). destruct W1 as [NE W1]. split; [exact NE|]. unfold define_type. cbn [fst snd]. unfold define.
    destruct (ty_name (reference (body t))) eqn:E; [|now split].
    assert (B : ty_name (body t) = []). { rewrite reference_eq in E. destruct (ty_name (body t)); [reflexivity|discriminate]. }
    destruct (reference_kind _ W3 B) as [_ K]. destruct (reference (body t)) eqn:RE; try contradiction; split; try exact Logic.I; try reflexivity.
    exfalso. rewrite reference_eq, B in RE. rewrite readable_eq, B in W3. destruct (body t); cbn in RE, W3; try discriminate; contradiction.
    rewrite reference_eq, B in RE. rewrite readable_eq, B in W3. destruct (body t); cbn in RE, W3; try discriminate; contradiction.
  Qed.
End Back.

Lemma resolves_back : forall s l, writable s -> Permutation l (map define_type s) -> exists st, resolve [] l = Done st /\ Permutation (r_schema st) s.
Proof.
  intros s l W L. pose proof (define_table s W l L) as T. pose proof (defined s W l L) as D.
  assert (K : forall k, In k (map fst l) <-> In k (map ty_name s)).
  { intros k. assert (P : Permutation (map fst l) (map ty_name s)). { rewrite (Permutation_map fst L), map_map. cbn [define_type fst]. reflexivity. }
    split; apply Permutation_in; [exact P|now symmetry]. }
  destruct (resolve_complete l [] T (NoDup_nil _) D) as (st & R & G & E).
  { intros k Hk. apply K in Hk. apply in_map_iff in Hk. destruct Hk as (t & <- & Ht). exists t. exact (means_itself s W l L _ (tsize t) t (le_n _) Ht). }
  exists st. split; [exact R|]. destruct (done_all l [] T (NoDup_nil _) st G E) as (D1 & D2 & D3 & D4).
  assert (IN : forall u, In u (r_schema st) <-> In u s).
  { intros u. rewrite D4, <- in_rev. split; intros H.
    - apply in_map_iff in H. destruct H as ([k v] & <- & H). cbn [snd]. pose proof H as H'. apply D1 in H'. destruct H' as [Hk Hd]. apply K in Hk. apply in_map_iff in Hk. destruct Hk as (t & <- & Ht).
      rewrite (proj1 (meaning_unique l [] T (NoDup_nil _)) _ _ Hd _ (means_itself s W l L _ (tsize t) t (le_n _) Ht)). exact Ht.
    - change u with (snd (ty_name u, u)). apply in_map. apply D1. split; [apply K; now apply in_map|]. exact (means_itself s W l L _ (tsize u) u (le_n _) H). }
  apply NoDup_Permutation; [|apply (NoDup_map_inv ty_name); apply W|exact IN].
  apply (NoDup_map_inv ty_name). rewrite D3. apply NoDup_rev. apply (g_rtable _ _ _ _ G).
Qed.

(** * Reading the definitions *)

Definition readable_def (n : nat) (t : ty) : Prop :=
  word (ty_name t) /\ match t with TAlias m _ => m_attrs m = [] | _ => True end /\ readable (body t) /\ (2 * depth (body t) + 2 <= n)%nat.
Lemma kind_body : forall t, match t with TAlias m _ => m_attrs m = [] | TNull => False | _ => True end -> show_kind show_type t = show_type (body t).
Proof.
  intros t H. rewrite (show_type_eq (body t)). destruct t; try contradiction; cbn [body]; try reflexivity. cbn [show_kind]. rewrite H. cbn [show_attrs]. rewrite app_nil_r. now rewrite show_type_eq.
Qed.
Definition line_end (s : text) : Prop := s = [] \/ exists r, s = chr "t" :: r.
Lemma decl_reads : forall n t s, readable_def n t -> line_end s -> decl_p n (show_def t ++ s) = Ok (define_type t) (10 :: s).
Proof.
  intros n t s (NW & A & R & Hn) E. unfold show_def, decl_p. change (chars "type ") with (chars "type" ++ [32]). rewrite <- !app_assoc. rewrite (then_ok _ _ _ _ _ (lit_ok _ _)). cbn [app].
  rewrite (then_ok _ _ _ _ _ (proj2 (word_skp _ _ NW))). change (chars " = ") with [32; 61; 32]. cbn [app].
  rewrite (bind_ok _ _ _ _ _ (word_ok _ (32 :: 61 :: 32 :: _) NW eq_refl)).
  rewrite (then_ok _ _ _ _ _ (skp_blank (61 :: _) eq_refl eq_refl)). rewrite (then_ok _ _ _ _ _ (ch_ok (chr "=") _)).
  assert (K : show_kind show_type t = show_type (body t)). { apply kind_body. destruct t; auto. }
  assert (EN : ending (body t) (10 :: s)) by (right; right; reflexivity).
  rewrite K. rewrite (then_ok _ _ _ _ _ (proj2 (show_skp (body t) _ R))).
  rewrite (act_ok _ _ _ _ _ (type_reads (body t) n R Hn (10 :: s) (quiet_line 10 s eq_refl E) EN)). reflexivity.
Qed.
Lemma show_line : forall ts, line_end (show_schema ts).
Proof. intros [|t ts]; [now left|]. right. eexists. unfold show_schema. cbn [flat_map]. unfold show_def. reflexivity. Qed.
Lemma def_long : forall t (s : text), (length (10%N :: s) < length (show_def t ++ s))%nat.
Proof. intros t s. unfold show_def. repeat rewrite app_length. cbn [length]. change (length (chars "type ")) with 5%nat. lia. Qed.
Lemma decls_read : forall n ts, Forall (readable_def n) ts -> forall c, c = [] \/ c = [10] -> (ts = [] -> c = [10]) ->
  steps (then_ skp (decl_p n)) (c ++ show_schema ts) (map define_type ts) [10].
Proof.
  intros n ts H. induction H as [|t ts Ht H IH]; intros c C E.
  - rewrite (E eq_refl). cbn [show_schema flat_map app map]. apply steps_nil. reflexivity.
  - unfold show_schema. cbn [flat_map map]. fold (show_schema ts). apply steps_cons with (s' := 10 :: show_schema ts).
    + assert (K : skp (c ++ show_def t ++ show_schema ts) = Ok tt (show_def t ++ show_schema ts)) by (destruct C as [->| ->]; cbn [app]; [now apply skp_stop|now apply skp_space]).
      rewrite (then_ok _ _ _ _ _ K). apply decl_reads; [exact Ht|apply show_line].
    + rewrite app_length. pose proof (def_long t (show_schema ts)). lia.
    + apply (IH [10]); auto.
Qed.
Lemma emplace_fresh : forall xs m, table (m ++ xs) -> emplace_all xs m = Some (m ++ xs).
Proof.
  induction xs as [|x xs IH]; intros m H; [now rewrite app_nil_r|]. cbn [emplace_all]. unfold emplace. assert (NI : ~ In (fst x) (map fst m)).
  { unfold table in H. rewrite map_app in H. cbn [map] in H. apply NoDup_remove_2 in H. intros X. apply H. apply in_or_app. now left. }
  apply assoc_none in NI. rewrite NI. rewrite IH; [now rewrite <- app_assoc|]. now rewrite <- app_assoc.
Qed.
Lemma symbols_read : forall n ts, ts <> [] -> Forall (readable_def n) ts -> NoDup (map ty_name ts) -> symbols_p n [] (show_schema ts) = Ok (map define_type ts) [].
Proof.
  intros n ts NE H ND. assert (S : steps (then_ skp (decl_p n)) (show_schema ts) (map define_type ts) [10]) by (apply (decls_read n ts H []); [now left|intros; contradiction]).
  assert (P : plus (then_ skp (decl_p n)) (show_schema ts) = Ok (map define_type ts) [10]).
  { destruct ts as [|t ts]; [contradiction|]. cbn [map] in *. inversion S as [|? ? s' ? ? S1 S2 S3]; subst. unfold plus. rewrite (bind_ok _ _ _ _ _ S1). now rewrite (act_ok _ _ _ _ _ (steps_kleene _ _ _ _ S3)). }
  unfold symbols_p. rewrite (bind_ok _ _ _ _ _ P). rewrite (then_ok _ _ _ _ _ (eq_refl : skp [10] = Ok tt [])). rewrite emplace_fresh; [reflexivity|]. unfold table. cbn [app]. rewrite map_map. exact ND.
Qed.
Lemma def_in : forall t ts, In t ts -> (length (show_def t) <= length (show_schema ts))%nat.
Proof.
  intros t ts. induction ts as [|u ts IH]; intros H; [destruct H|]. unfold show_schema. cbn [flat_map]. fold (show_schema ts). rewrite app_length. destruct H as [->|H]; [lia|]. apply IH in H. lia.
Qed.
Lemma writable_reads : forall ts n, writable ts -> (length (show_schema ts) <= n)%nat -> Forall (readable_def n) ts.
Proof.
  intros ts n [_ W] Hn. apply Forall_forall. intros t Ht. destruct (proj1 (Forall_forall _ _) W t Ht) as (W1 & W2 & W3 & W4).
  assert (A : match t with TAlias m _ => m_attrs m = [] | _ => True end) by (destruct t; auto; apply W2). split; [exact W1|]. split; [exact A|]. split; [exact W3|].
  pose proof (def_in t ts Ht) as L. pose proof (depth_length (body t) W3) as DL. rewrite <- kind_body in DL by (destruct t; auto).
  unfold show_def in L. repeat rewrite app_length in L. change (length (chars "type ")) with 5%nat in L. lia.
Qed.
Lemma schema_reads : forall s order n, writable s -> s <> [] -> (forall m, Permutation (order m) m) -> (length (show_schema s) <= n)%nat ->
  exists s', schema_p n order (show_schema s) = Ok s' [] /\ Permutation s' s.
Proof.
  intros s order n W NE O Hn. destruct (resolves_back s (order (map define_type s)) W (O _)) as (st & R & P). exists (r_schema st). split; [|exact P].
  unfold schema_p. rewrite (symbols_read n s NE (writable_reads s n W Hn) (proj1 W)). now rewrite R.
Qed.
