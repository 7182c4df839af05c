(** Proofs about the resolution of symbols and the text form of schemas. *)
From Coq Require Import String Ascii List ZArith NArith Bool Arith Lia Permutation Relations.
From Coq Require Import ZifyBool ZifyNat ZifyN.
From Coq Require Import Init.Datatypes.
From Verif Require Import OperatorModel EscapeModel AddressModel AddressProofs DataModel TypeModel TypeProofs ExpressionModel LiteralModel LiteralProofs SyntaxModel TypeTextProofs SchemaModel.
Import ListNotations.
Open Scope N_scope.

(** * What a definition means *)

(** The types a table of definitions and the known types give to a name. A definition may refer to
    the known type it replaces. *)
Section Meaning.
  Variable local : symbols.
  Variable global : text -> ty -> Prop.
  Inductive denotes : text -> ty -> Prop :=
  | denotes_local : forall k t u, In (k, t) local -> expands k t u -> denotes k u
  | denotes_global : forall k u, ~ In k (map fst local) -> global k u -> denotes k u
  with expands : text -> ty -> ty -> Prop :=
  | expands_ref : forall d m u, m_name m <> [] -> m_name m <> d -> denotes (m_name m) u -> expands d (TNone m) (with_attrs u (m_attrs m))
  | expands_self : forall d m u, m_name m <> [] -> m_name m = d -> global d u -> expands d (TNone m) (with_attrs u (m_attrs m))
  | expands_basic : forall d m b, expands d (TBasic m b) (TBasic m b)
  | expands_enum : forall d m fs, expands d (TEnum m fs) (TEnum m fs)
  | expands_alias : forall d m v v', expands d v v' -> expands d (TAlias m v) (TAlias m v')
  | expands_list : forall d m v v', expands d v v' -> expands d (TList m v) (TList m v')
  | expands_map : forall d m k k' v v', expands d k k' -> expands d v v' -> expands d (TMap m k v) (TMap m k' v')
  | expands_record : forall d m fs fs' t, expands_fields d fs fs' -> finish_record m fs' = Done t -> expands d (TRecord m fs) t
  with expands_fields : text -> list (text * ty) -> list (text * ty) -> Prop :=
  | fields_nil : forall d, expands_fields d [] []
  | fields_cons : forall d x t u fs fs', expands d t u -> expands_fields d fs fs' -> expands_fields d ((x, t) :: fs) ((x, u) :: fs').
End Meaning.
Scheme denotes_ind2 := Minimality for denotes Sort Prop
  with expands_ind2 := Minimality for expands Sort Prop
  with fields_ind2 := Minimality for expands_fields Sort Prop.
Combined Scheme meaning_ind from denotes_ind2, expands_ind2, fields_ind2.

(** A definition of a name, as it is read: it has the name, and it is not just a symbol. *)
Definition definition (x : text * ty) : Prop :=
  fst x <> [] /\ ty_name (snd x) = fst x /\ match snd x with TNull | TNone _ => False | _ => True end.
Definition table (l : symbols) : Prop := NoDup (map fst l).

(** * Tables *)

Lemma eqb_refl : forall x : text, bytes_eqb x x = true.
Proof. intros x. now apply bytes_eqb_spec. Qed.
Lemma eqb_neq : forall x y : text, x <> y -> bytes_eqb x y = false.
Proof. intros x y H. destruct (bytes_eqb x y) eqn:E; [|reflexivity]. apply bytes_eqb_spec in E. contradiction. Qed.
Lemma assoc_in : forall k m t, assoc k m = Some t -> In (k, t) m.
Proof.
  induction m as [|[k' t'] m IH]; intros t H; [discriminate|]. cbn [assoc] in H. destruct (bytes_eqb k' k) eqn:E; [|right; now apply IH].
  apply bytes_eqb_spec in E. injection H as ->. subst. now left.
Qed.
Lemma assoc_none : forall k m, assoc k m = None <-> ~ In k (map fst m).
Proof.
  induction m as [|[k' t'] m IH]; cbn [assoc map fst In]; [tauto|]. destruct (bytes_eqb k' k) eqn:E.
  - apply bytes_eqb_spec in E. split; [discriminate|]. intros H. exfalso. apply H. now left.
  - rewrite IH. split; intros H; [intros [->|X]; [rewrite eqb_refl in E; discriminate|now apply H]|intros X; apply H; now right].
Qed.
Lemma in_assoc : forall k m t, table m -> In (k, t) m -> assoc k m = Some t.
Proof.
  induction m as [|[k' t'] m IH]; intros t H I; [destruct I|]. inversion H as [|? ? H1 H2]; subst. cbn [assoc]. destruct I as [I|I].
  - injection I as -> ->. now rewrite eqb_refl.
  - rewrite eqb_neq; [now apply IH|]. intros ->. apply H1. change k with (fst (k, t)). now apply in_map.
Qed.
Lemma in_key : forall k t (m : symbols), In (k, t) m -> In k (map fst m).
Proof. intros k t m H. change k with (fst (k, t)). now apply in_map. Qed.
Lemma key_in : forall k (m : symbols), In k (map fst m) -> exists t, In (k, t) m.
Proof. intros k m H. apply in_map_iff in H. destruct H as ([k' t] & E & H). cbn [fst] in E. subst. now exists t. Qed.
Lemma table_unique : forall m k t u, table m -> In (k, t) m -> In (k, u) m -> t = u.
Proof. intros m k t u H A B. apply in_assoc in A; [|exact H]. apply in_assoc in B; [|exact H]. congruence. Qed.

Lemma erase_in : forall k m x, table m -> (In x (erase k m) <-> In x m /\ fst x <> k).
Proof.
  induction m as [|[k' t'] m IH]; intros x H; cbn [erase]; [cbn; tauto|]. inversion H as [|? ? H1 H2]; subst. destruct (bytes_eqb k' k) eqn:E.
  - apply bytes_eqb_spec in E. subst. split.
    + intros I. split; [now right|]. intros E. apply H1. rewrite <- E. now apply in_map.
    + intros [ [<-|I] NE]; [now contradiction NE|exact I].
  - cbn [In]. rewrite IH by exact H2. split.
    + intros [<-|[I NE] ]; [|auto]. split; [now left|]. cbn [fst]. intros ->. rewrite eqb_refl in E. discriminate.
    + intros [ [<-|I] NE]; auto.
Qed.
Lemma erase_keys : forall k m x, table m -> (In x (map fst (erase k m)) <-> In x (map fst m) /\ x <> k).
Proof.
  intros k m x H. split.
  - intros I. apply in_map_iff in I. destruct I as (y & <- & I). apply erase_in in I; [|exact H]. destruct I as [I NE]. split; [now apply in_map|exact NE].
  - intros [I NE]. apply in_map_iff in I. destruct I as (y & <- & I). apply in_map. apply erase_in; [exact H|]. now split.
Qed.
Lemma erase_table : forall k m, table m -> table (erase k m).
Proof.
  induction m as [|[k' t'] m IH]; intros H; cbn [erase]; [exact H|]. inversion H as [|? ? H1 H2]; subst. destruct (bytes_eqb k' k); [exact H2|].
  unfold table. cbn [map fst]. constructor; [|now apply IH]. intros I. apply erase_keys in I; [|exact H2]. now apply H1.
Qed.
Lemma erase_length : forall k m, (length (erase k m) <= length m)%nat.
Proof. induction m as [|[k' t'] m IH]; cbn [erase]; [lia|]. destruct (bytes_eqb k' k); cbn [length]; lia. Qed.
Lemma erase_shrinks : forall k m, In k (map fst m) -> S (length (erase k m)) = length m.
Proof.
  induction m as [|[k' t'] m IH]; intros H; [destruct H|]. cbn [erase]. destruct (bytes_eqb k' k) eqn:E; [reflexivity|]. cbn [length]. f_equal. apply IH.
  destruct H as [H|H]; [|exact H]. cbn [fst] in H. subst. rewrite eqb_refl in E. discriminate.
Qed.

(** * Names *)

Lemma with_attrs_name : forall t xs, ty_name (with_attrs t xs) = ty_name t.
Proof. now destruct t. Qed.
Lemma with_name_name : forall t x, t <> TNull -> ty_name (with_name t x) = x.
Proof. now destruct t. Qed.
Lemma record_name : forall m fs t, finish_record m fs = Done t -> ty_name t = m_name m /\ exists m' gs, t = TRecord m' gs.
Proof.
  intros m fs t H. unfold finish_record in H. destruct (has_attribute m algebra_key); [|injection H as <-; split; [reflexivity|eauto] ].
  destruct fs as [|[x base] [|op ops] ]; try discriminate. destruct base as [| | | | | |m0 fs0|]; try discriminate.
  destruct (algebra (TRecord m0 fs0) (op :: ops)) as [acc| |]; try discriminate. cbn [andthen] in H. destruct acc as [| | | | | |m1 fs1|]; try discriminate H.
  destruct fs1 as [|g gs]; [discriminate|]. destruct (existsb _ _); [discriminate|]. injection H as <-. split; [reflexivity|eauto].
Qed.
Lemma expands_names : forall l g d t u, expands l g d t u -> match t with TNull | TNone _ => True | _ => ty_name u = ty_name t end /\ (match t with TNull | TNone _ => False | _ => True end -> match u with TNull | TNone _ => False | _ => True end).
Proof.
  intros l g d t u H. destruct H; try now split. destruct (record_name _ _ _ H0) as (E & m' & gs & ->). split; [|now intros _]. exact E.
Qed.

(** * The resolver *)

Section Fields.
Variable lk : text -> resolver -> out (ty * resolver).
Fixpoint visit_fields (l : list (text * ty)) (st : resolver) : out (list (text * ty) * resolver) :=
  match l with
  | [] => Done ([], st)
  | f :: r => andthen (visit lk (snd f) st) (fun '(u, st1) => andthen (visit_fields r st1) (fun '(r', st2) => Done ((fst f, u) :: r', st2)))
  end.
End Fields.
Lemma visit_record : forall lk m fs st, visit lk (TRecord m fs) st = andthen (visit_fields lk fs st) (fun '(fs', st') => andthen (finish_record m fs') (fun t => Done (t, st'))).
Proof. reflexivity. Qed.

Lemma andthen_done : forall A B (x : out A) (f : A -> out B) b, andthen x f = Done b -> exists a, x = Done a /\ f a = Done b.
Proof. intros A B [a| |] f b H; try discriminate. now exists a. Qed.

(** Resolving a name never brings a definition back. *)
Definition shrinks (lk : text -> resolver -> out (ty * resolver)) : Prop := forall k st u st', lk k st = Done (u, st') -> (length (r_local st') <= length (r_local st))%nat.
Lemma visit_shrinks : forall lk, shrinks lk -> forall t st u st', visit lk t st = Done (u, st') -> (length (r_local st') <= length (r_local st))%nat.
Proof.
  intros lk HL. induction t as [|m|m b|m es|m v IHv|m kt vt IHk IHv|m fs IH|m v IHv] using ty_rect'; intros st u st' H.
  - discriminate.
  - cbn [visit] in H. destruct (m_name m); [discriminate|]. apply andthen_done in H. destruct H as ([v st1] & H1 & H2). injection H2 as _ <-. exact (HL _ _ _ _ H1).
  - injection H as _ <-. lia.
  - injection H as _ <-. lia.
  - cbn [visit] in H. apply andthen_done in H. destruct H as ([v' st1] & H1 & H2). injection H2 as _ <-. exact (IHv _ _ _ H1).
  - cbn [visit] in H. apply andthen_done in H. destruct H as ([v' st1] & H1 & H2). apply andthen_done in H2. destruct H2 as ([k' st2] & H2 & H3). injection H3 as _ <-.
    apply IHv in H1. apply IHk in H2. lia.
  - rewrite visit_record in H. apply andthen_done in H. destruct H as ([fs' st1] & H1 & H2). apply andthen_done in H2. destruct H2 as (r & _ & H3). injection H3 as _ <-.
    clear u. revert st fs' st1 H1. induction IH as [|f fs Hf IH IH2]; intros st fs' st1 H1; cbn [visit_fields] in H1; [injection H1 as _ <-; lia|].
    apply andthen_done in H1. destruct H1 as ([u st2] & H1 & H2). apply andthen_done in H2. destruct H2 as ([r' st3] & H2 & H3). injection H3 as _ <-. apply Hf in H1. apply IH2 in H2. lia.
  - cbn [visit] in H. apply andthen_done in H. destruct H as ([v' st1] & H1 & H2). injection H2 as _ <-. exact (IHv _ _ _ H1).
Qed.
Lemma one_shrinks : forall lk k t st u st', shrinks lk -> resolve_one lk k t st = Done (u, st') -> (length (r_local st') <= length (erase k (r_local st)))%nat.
Proof.
  intros lk k t st u st' HL H. unfold resolve_one in H. destruct (assoc k (r_resolved st)); [discriminate|]. apply andthen_done in H. destruct H as ([v st1] & H1 & H2).
  apply (visit_shrinks _ HL) in H1. destruct (assoc k (r_resolved st1)); [discriminate|]. destruct (schema_add v (r_schema st1)); [|discriminate]. injection H2 as _ <-. exact H1.
Qed.
Lemma lookup_shrinks : forall g n, shrinks (lookup g n).
Proof.
  intros g. induction n as [|n IH]; intros k st u st' H; cbn [lookup] in H; (destruct (assoc k (r_resolved st)); [injection H as _ <-; lia|]); (destruct (assoc k (r_local st)) as [t|]).
  - discriminate.
  - destruct (assoc k g); [|discriminate]. injection H as _ <-. lia.
  - apply one_shrinks in H; [|exact IH]. pose proof (erase_length k (r_local st)). lia.
  - destruct (assoc k g); [|discriminate]. injection H as _ <-. lia.
Qed.

Section Resolver.
  Variable local global : symbols.
  Hypothesis Hl : table local.
  Hypothesis Hg : table global.
  Hypothesis Hd : Forall definition local.
  Definition known (k : text) (u : ty) : Prop := In (k, u) global.

  (** What holds while the definitions of the names in [stack] are being visited. *)
  Record good (stack : list text) (st : resolver) : Prop := {
    g_local : forall x, In x (r_local st) -> In x local;
    g_table : table (r_local st);
    g_means : forall k u, In (k, u) (r_resolved st) -> In k (map fst local) /\ denotes local known k u /\ ty_name u = k;
    g_rtable : table (r_resolved st);
    g_all : forall k, In k (map fst local) -> In k stack \/ In k (map fst (r_local st)) \/ In k (map fst (r_resolved st));
    g_stack : forall k, In k stack -> ~ In k (map fst (r_local st)) /\ ~ In k (map fst (r_resolved st));
    g_apart : forall k, In k (map fst (r_local st)) -> ~ In k (map fst (r_resolved st));
    g_known : forall k, In k stack -> In k (map fst local);
    g_schema : r_schema st = rev (map snd (r_resolved st))
  }.

  Lemma find_fresh : forall (m : symbols) k, (forall k u, In (k, u) m -> ty_name u = k) -> ~ In k (map fst m) -> schema_find k (rev (map snd m)) = None.
  Proof.
    intros m k H NI. assert (G : forall l : list ty, (forall u, In u l -> ty_name u <> k) -> schema_find k l = None).
    { induction l as [|u l IH]; intros X; [reflexivity|]. cbn [schema_find]. rewrite eqb_neq by (apply X; now left). apply IH. intros v Hv. apply X. now right. }
    apply G. intros u Hu. apply in_rev in Hu. apply in_map_iff in Hu. destruct Hu as ([k' u'] & E & Hu). cbn [snd] in E. subst u'. intros E. apply NI. rewrite <- E, (H _ _ Hu). apply (in_key k' u). exact Hu.
  Qed.
  Lemma add_fresh : forall u s k, ty_name u = k -> k <> [] -> match u with TNull | TNone _ => False | _ => True end -> schema_find k s = None -> schema_add u s = Some (s ++ [u]).
  Proof.
    intros u s k E NE K F. unfold schema_add. rewrite E. destruct u; try contradiction; (destruct k; [contradiction|]); now rewrite F.
  Qed.

  (** Putting a definition aside while it is visited, and adding what it means. *)
  Lemma push_good : forall stack st k t, good stack st -> In (k, t) (r_local st) ->
    good (k :: stack) {| r_local := erase k (r_local st); r_resolved := r_resolved st; r_schema := r_schema st |}.
  Proof.
    intros stack st k t G H. destruct G. constructor; cbn [r_local r_resolved r_schema]; try assumption.
    - intros x Hx. apply erase_in in Hx; [|assumption]. now apply g_local0.
    - now apply erase_table.
    - intros x Hx. destruct (g_all0 x Hx) as [X|[X|X] ]; [left; now right| |right; now right]. destruct (list_eq_dec N.eq_dec x k) as [->|NE]; [left; now left|].
      right. left. apply erase_keys; [assumption|now split].
    - intros x [<-|Hx].
      + split; [intros X; apply erase_keys in X; [|assumption]; now destruct X|apply g_apart0, (in_key k t), H].
      + destruct (g_stack0 x Hx) as [X1 X2]. split; [|exact X2]. intros X. apply erase_keys in X; [|assumption]. now apply X1.
    - intros x Hx. apply erase_keys in Hx; [|assumption]. now apply g_apart0.
    - intros x [<-|Hx]; [exact (in_key _ _ _ (g_local0 _ H))|now apply g_known0].
  Qed.
  Lemma pop_good : forall stack st k u, ~ In k stack -> good (k :: stack) st -> In k (map fst local) -> denotes local known k u -> ty_name u = k ->
    good stack {| r_local := r_local st; r_resolved := (k, u) :: r_resolved st; r_schema := r_schema st ++ [u] |}.
  Proof.
    intros stack st k u NS G Hk D E. destruct G. constructor; cbn [r_local r_resolved r_schema]; try assumption.
    - intros k' u' [X|X]; [injection X as <- <-; auto|now apply g_means0].
    - unfold table. cbn [map fst]. constructor; [|assumption]. apply g_stack0. now left.
    - intros x Hx. cbn [map fst In]. destruct (g_all0 x Hx) as [ [->|X]|[X|X] ]; auto.
    - intros x Hx. cbn [map fst In]. destruct (g_stack0 x (or_intror Hx)) as [X1 X2]. split; [exact X1|]. intros [->|X]; contradiction.
    - intros x Hx. cbn [map fst In]. intros [->|X]; [|exact (g_apart0 x Hx X)]. exact (proj1 (g_stack0 x (or_introl eq_refl)) Hx).
    - intros x Hx. apply g_known0. now right.
    - cbn [map snd rev]. now rewrite g_schema0.
  Qed.


  Lemma meaning_unique :
    (forall k u, denotes local known k u -> forall u', denotes local known k u' -> u = u') /\
    (forall d t u, expands local known d t u -> forall u', expands local known d t u' -> u = u') /\
    (forall d fs fs', expands_fields local known d fs fs' -> forall gs, expands_fields local known d fs gs -> fs' = gs).
  Proof.
    apply meaning_ind.
    - intros k t u Hk X IH u' D. inversion D as [? t' ? Hk' X'|? ? NI ?]; subst; [|exfalso; apply NI; exact (in_key _ _ _ Hk)].
      rewrite (table_unique local k t t' Hl Hk Hk') in *. now apply IH.
    - intros k u NI Hk u' D. inversion D as [? t' ? Hk' X'|? ? NI' Hk']; subst; [exfalso; apply NI; exact (in_key _ _ _ Hk')|]. exact (table_unique global k u u' Hg Hk Hk').
    - intros d m u NE ND D IH u' X. inversion X; subst; [f_equal; now apply IH|congruence].
    - intros d m u NE ND Hu u' X. inversion X; subst; [congruence|]. f_equal. eapply table_unique; eassumption.
    - intros d m b u' X. now inversion X.
    - intros d m fs u' X. now inversion X.
    - intros d m v v' X IH u' Y. inversion Y; subst. f_equal. now apply IH.
    - intros d m v v' X IH u' Y. inversion Y; subst. f_equal. now apply IH.
    - intros d m k k' v v' X1 IH1 X2 IH2 u' Y. inversion Y; subst. f_equal; auto.
    - intros d m fs fs' t X IH F u' Y. inversion Y as [| | | | | | |? ? ? gs ? X' F']; subst. rewrite (IH _ X') in F. congruence.
    - intros d gs X. now inversion X.
    - intros d x t u fs fs' X IH Xs IHs gs Y. inversion Y; subst. f_equal; [f_equal|]; auto.
  Qed.

  (** ** When every name has a meaning *)

  Fixpoint refs (t : ty) : list text :=
    match t with
    | TNone m => [m_name m]
    | TList _ v | TAlias _ v => refs v
    | TMap _ k v => refs k ++ refs v
    | TRecord _ fs => flat_map (fun f => refs (snd f)) fs
    | _ => []
    end.
  Definition needs (x y : text) : Prop := exists t, In (x, t) local /\ In y (refs t) /\ y <> x.
  Definition reach : text -> text -> Prop := clos_trans _ needs.

  Lemma meaning_acc :
    (forall k u, denotes local known k u -> Acc (fun y x => needs x y) k) /\
    (forall d t u, expands local known d t u -> forall y, In y (refs t) -> y <> d -> Acc (fun y x => needs x y) y) /\
    (forall d fs fs', expands_fields local known d fs fs' -> forall y, In y (flat_map (fun f => refs (snd f)) fs) -> y <> d -> Acc (fun y x => needs x y) y).
  Proof.
    apply meaning_ind; intros.
    - constructor. intros y (t' & Ht & Hy & NE). rewrite (table_unique local k t t' Hl H Ht) in *. now apply H1.
    - constructor. intros y (t' & Ht & _). exfalso. apply H. exact (in_key _ _ _ Ht).
    - cbn [refs In] in *. destruct H3 as [<-|[] ]. assumption.
    - cbn [refs In] in *. destruct H2 as [<-|[] ]. congruence.
    - destruct H.
    - destruct H.
    - now apply H0.
    - now apply H0.
    - cbn [refs] in *. apply in_app_or in H3. destruct H3; [now apply H0|now apply H2].
    - now apply H0.
    - destruct H.
    - cbn [flat_map snd] in *. apply in_app_or in H3. destruct H3; [now apply H0|now apply H2].
  Qed.
  Lemma acc_irreflexive : forall x, Acc (fun y x => needs x y) x -> ~ reach x x.
  Proof.
    intros x H. assert (G : forall y, reach x y -> y <> x).
    { induction H as [x _ IH]. intros y R ->. (* the first step of the cycle *)
      assert (F : forall a b, reach a b -> exists c, needs a c /\ (c = b \/ reach c b)).
      { clear. intros a b R. induction R as [a b R|a c b R1 IH1 R2 IH2]; [exists b; auto|]. destruct IH1 as (d & Nd & [->|Rd]); [exists c; auto|]. exists d. split; [exact Nd|]. right. exact (t_trans _ _ _ _ _ Rd R2). }
      destruct (F _ _ R) as (c & Nc & [->|Rc]); [exact (IH x Nc x R eq_refl)|]. apply (IH c Nc c); [|reflexivity]. eapply t_trans; [exact Rc|]. now apply t_step. }
    intros R. now apply (G x R).
  Qed.

  Lemma complete :
    (forall k u, denotes local known k u -> forall n st stack, good stack st -> (forall s, In s stack -> reach s k) -> (length (r_local st) <= n)%nat ->
       exists st', lookup global n k st = Done (u, st') /\ good stack st' /\ (length (r_local st') <= length (r_local st))%nat) /\
    (forall d t u, expands local known d t u -> forall n st stack, good stack st -> In d stack -> In d (map fst local) -> (forall s y, In s stack -> In y (refs t) -> y <> d -> reach s y) -> (length (r_local st) <= n)%nat ->
       exists st', visit (lookup global n) t st = Done (u, st') /\ good stack st' /\ (length (r_local st') <= length (r_local st))%nat) /\
    (forall d fs fs', expands_fields local known d fs fs' -> forall n st stack, good stack st -> In d stack -> In d (map fst local) -> (forall s y, In s stack -> In y (flat_map (fun f => refs (snd f)) fs) -> y <> d -> reach s y) -> (length (r_local st) <= n)%nat ->
       exists st', visit_fields (lookup global n) fs st = Done (fs', st') /\ good stack st' /\ (length (r_local st') <= length (r_local st))%nat).
  Proof.
    apply meaning_ind.
    - intros k t u Hk X IH n st stack G R Hn.
      assert (D : denotes local known k u) by (econstructor; eassumption).
      assert (NS : ~ In k stack). { intros S. apply (acc_irreflexive k); [exact (proj1 meaning_acc k u D)|exact (R k S)]. }
      pose proof (in_key _ _ _ Hk) as Kk.
      destruct (g_all _ _ G k Kk) as [S|[L|S] ]; [contradiction| |].
      + (* not yet resolved *)
        destruct (key_in _ _ L) as [t' L']. pose proof (g_local _ _ G _ L') as L2. rewrite (table_unique local k t' t Hl L2 Hk) in *.
        pose proof (g_apart _ _ G k L) as NR. pose proof (proj2 (assoc_none k (r_resolved st)) NR) as E.
        assert (LL : assoc k (r_local st) = Some t) by (apply in_assoc; [apply (g_table _ _ G)|exact L']).
        pose proof (erase_shrinks k (r_local st) L) as SH. destruct n as [|n]; [exfalso; clear - SH Hn; lia|].
        destruct (IH n {| r_local := erase k (r_local st); r_resolved := r_resolved st; r_schema := r_schema st |} (k :: stack)) as (st1 & V & G1 & Le).
        { now apply push_good with t. }
        { now left. }
        { exact Kk. }
        { intros s y [<-|Hs] Hy NE; [apply t_step; exists t; auto|]. eapply t_trans; [exact (R s Hs)|]. apply t_step. exists t. auto. }
        { cbn [r_local]. lia. }
        pose proof (expands_names _ _ _ _ _ X) as (EN & EK). destruct (proj1 (Forall_forall _ _) Hd _ Hk) as (D1 & D2 & D3). cbn [fst snd] in *.
        assert (NU : ty_name u = k) by (destruct t; try contradiction; congruence). specialize (EK D3).
        assert (NR1 : ~ In k (map fst (r_resolved st1))) by (apply (g_stack _ _ G1); now left).
        exists {| r_local := r_local st1; r_resolved := (k, u) :: r_resolved st1; r_schema := r_schema st1 ++ [u] |}. split; [|split].
        * cbn [lookup]. rewrite E, LL. unfold resolve_one. rewrite E. rewrite V. cbn [andthen]. rewrite (proj2 (assoc_none k (r_resolved st1)) NR1).
          rewrite (add_fresh u _ k NU D1 EK); [reflexivity|]. rewrite (g_schema _ _ G1). apply find_fresh; [|exact NR1]. intros k' u' Hx. now apply (g_means _ _ G1).
        * now apply pop_good.
        * cbn [r_local] in *. lia.
      + destruct (key_in _ _ S) as [u' S']. destruct (g_means _ _ G _ _ S') as (_ & D' & _).
        exists st. split; [|split; [exact G|lia] ]. assert (SS : assoc k (r_resolved st) = Some u') by (apply in_assoc; [apply (g_rtable _ _ G)|exact S']).
        pose proof (proj1 meaning_unique _ _ D _ D') as <-. destruct n; cbn [lookup]; now rewrite SS.
    - intros k u NI Hk n st stack G R Hn. exists st. split; [|split; [exact G|lia] ].
      assert (E1 : assoc k (r_resolved st) = None). { apply assoc_none. intros X. destruct (key_in _ _ X) as [u' X']. apply NI. now apply (g_means _ _ G _ _ X'). }
      assert (E2 : assoc k (r_local st) = None). { apply assoc_none. intros X. destruct (key_in _ _ X) as [u' X']. apply NI. exact (in_key _ _ _ (g_local _ _ G _ X')). }
      pose proof (in_assoc _ _ _ Hg Hk) as E3. destruct n; cbn [lookup]; now rewrite E1, E2, E3.
    - intros d m u NE ND D IH n st stack G Sd Kd R Hn. destruct (IH n st stack G) as (st' & L & G' & Le); [|exact Hn|].
      { intros s Hs. apply R; [exact Hs|now left|exact ND]. }
      exists st'. split; [|now split]. cbn [visit]. destruct (m_name m); [contradiction|]. now rewrite L.
    - intros d m u NE <- Hu n st stack G Sd Kd R Hn. exists st. split; [|split; [exact G|lia] ].
      destruct (g_stack _ _ G _ Sd) as [N1 N2]. pose proof (proj2 (assoc_none _ _) N1) as E1. pose proof (proj2 (assoc_none _ _) N2) as E2. pose proof (in_assoc _ _ _ Hg Hu) as E3.
      assert (L : lookup global n (m_name m) st = Done (u, st)) by (destruct n; cbn [lookup]; now rewrite E2, E1, E3).
      cbn [visit]. destruct (m_name m); [contradiction|]. now rewrite L.
    - intros d m b n st stack G _ _ _ _. exists st. split; [reflexivity|]. split; [exact G|lia].
    - intros d m fs n st stack G _ _ _ _. exists st. split; [reflexivity|]. split; [exact G|lia].
    - intros d m v v' X IH n st stack G Sd Kd R Hn. destruct (IH n st stack G Sd Kd R Hn) as (st' & V & G' & Le). exists st'. split; [|now split]. cbn [visit]. now rewrite V.
    - intros d m v v' X IH n st stack G Sd Kd R Hn. destruct (IH n st stack G Sd Kd R Hn) as (st' & V & G' & Le). exists st'. split; [|now split]. cbn [visit]. now rewrite V.
    - intros d m k k' v v' X1 IH1 X2 IH2 n st stack G Sd Kd R Hn.
      destruct (IH2 n st stack G Sd Kd) as (st1 & V1 & G1 & Le1); [|exact Hn|].
      { intros s y Hs Hy. apply R; [exact Hs|]. cbn [refs]. apply in_or_app. now right. }
      destruct (IH1 n st1 stack G1 Sd Kd) as (st2 & V2 & G2 & Le2); [|lia|].
      { intros s y Hs Hy. apply R; [exact Hs|]. cbn [refs]. apply in_or_app. now left. }
      exists st2. split; [|split; [exact G2|lia] ]. cbn [visit]. rewrite V1. cbn [andthen]. now rewrite V2.
    - intros d m fs fs' t X IH F n st stack G Sd Kd R Hn. destruct (IH n st stack G Sd Kd R Hn) as (st' & V & G' & Le). exists st'. split; [|now split].
      rewrite visit_record, V. cbn [andthen]. now rewrite F.
    - intros d n st stack G _ _ _ _. exists st. split; [reflexivity|]. split; [exact G|lia].
    - intros d x t u fs fs' X IH Xs IHs n st stack G Sd Kd R Hn.
      destruct (IH n st stack G Sd Kd) as (st1 & V1 & G1 & Le1); [|exact Hn|].
      { intros s y Hs Hy. apply R; [exact Hs|]. cbn [flat_map snd]. apply in_or_app. now left. }
      destruct (IHs n st1 stack G1 Sd Kd) as (st2 & V2 & G2 & Le2); [|lia|].
      { intros s y Hs Hy. apply R; [exact Hs|]. cbn [flat_map snd]. apply in_or_app. now right. }
      exists st2. split; [|split; [exact G2|lia] ]. cbn [visit_fields snd fst]. rewrite V1. cbn [andthen]. now rewrite V2.
  Qed.

  Lemma start_good : good [] {| r_local := local; r_resolved := []; r_schema := [] |}.
  Proof. constructor; cbn [r_local r_resolved r_schema map rev]; auto; try contradiction; try constructor. Qed.
  (** A step of the loop is a lookup of the first name. *)
  Lemma loop_lookup : forall n k t st, (exists r, r_local st = (k, t) :: r) -> assoc k (r_resolved st) = None -> lookup global (S n) k st = resolve_one (lookup global n) k t st.
  Proof. intros n k t st (r & E) H. cbn [lookup]. rewrite H, E. cbn [assoc]. now rewrite eqb_refl. Qed.
  Lemma loop_complete : (forall k, In k (map fst local) -> exists u, denotes local known k u) ->
    forall n st, good [] st -> (length (r_local st) <= n)%nat -> exists st', resolve_loop global n st = Done st' /\ good [] st' /\ r_local st' = [].
  Proof.
    intros A. induction n as [|n IH]; intros st G Hn.
    - destruct (r_local st) eqn:E; [|cbn in Hn; lia]. exists st. unfold resolve_loop. now rewrite E.
    - cbn [resolve_loop]. destruct (r_local st) as [|[k t] r] eqn:E; [exists st; auto|].
      assert (Hk : In (k, t) (r_local st)) by (rewrite E; now left). pose proof (g_local _ _ G _ Hk) as Hk'.
      destruct (A k (in_key _ _ _ Hk')) as [u D].
      destruct (proj1 complete k u D (S n) st [] G) as (st' & L & G' & Le); [intros s []|rewrite E; exact Hn|].
      assert (NR : assoc k (r_resolved st) = None) by (apply assoc_none, (g_apart _ _ G), (in_key k t), Hk).
      rewrite (loop_lookup n k t) in L by eauto. rewrite L. cbn [andthen]. apply IH; [exact G'|].
      apply one_shrinks in L; [|apply lookup_shrinks]. pose proof (erase_shrinks k (r_local st) (in_key _ _ _ Hk)) as SH. rewrite E in *. cbn [length] in *. lia.
  Qed.

  (** The loop ends with the meanings of all names. *)
  Lemma done_all : forall st, good [] st -> r_local st = [] ->
    (forall k u, In (k, u) (r_resolved st) <-> In k (map fst local) /\ denotes local known k u) /\
    Permutation (map fst (r_resolved st)) (map fst local) /\ map ty_name (r_schema st) = rev (map fst (r_resolved st)) /\ r_schema st = rev (map snd (r_resolved st)).
  Proof.
    intros st G E. assert (K : forall k, In k (map fst (r_resolved st)) <-> In k (map fst local)).
    { intros k. split; intros H; [destruct (key_in _ _ H) as [u Hu]; now apply (g_means _ _ G _ _ Hu)|]. destruct (g_all _ _ G k H) as [ []|[X|X] ]; [rewrite E in X; destruct X|exact X]. }
    split; [|split; [|split] ].
    - intros k u. split; intros H; [destruct (g_means _ _ G _ _ H) as (A & B & _); now split|]. destruct H as [A B]. apply K in A. destruct (key_in _ _ A) as [u' H].
      destruct (g_means _ _ G _ _ H) as (_ & B' & _). now rewrite (proj1 meaning_unique _ _ B _ B').
    - apply NoDup_Permutation; [apply (g_rtable _ _ G)|exact Hl|exact K].
    - rewrite (g_schema _ _ G), map_rev. f_equal. rewrite map_map. apply map_ext_in. intros [k u] H. now apply (g_means _ _ G _ _ H).
    - apply (g_schema _ _ G).
  Qed.

  (** ** When no definition has the name of a known type *)

  Hypothesis apart : forall k, In k (map fst local) -> ~ In k (map fst global).

  Definition sound_lookup (lk : text -> resolver -> out (ty * resolver)) : Prop :=
    forall k stack st u st', good stack st -> lk k st = Done (u, st') -> denotes local known k u /\ good stack st' /\ ~ In k stack.
  Lemma visit_sound : forall lk, sound_lookup lk -> forall t stack d st u st', good stack st -> In d stack -> visit lk t st = Done (u, st') -> expands local known d t u /\ good stack st'.
  Proof.
    intros lk HL. induction t as [|m|m b|m es|m v IHv|m kt vt IHk IHv|m fs IH|m v IHv] using ty_rect'; intros stack d st u st' G Sd H.
    - discriminate.
    - cbn [visit] in H. destruct (m_name m) eqn:NM; [discriminate|]. rewrite <- NM in *. apply andthen_done in H. destruct H as ([v st1] & H1 & H2). injection H2 as <- <-.
      destruct (HL _ _ _ _ _ G H1) as (D & G' & NS). split; [|exact G']. apply expands_ref; [congruence| |exact D]. intros E. rewrite E in NS. contradiction.
    - injection H as <- <-. split; [constructor|exact G].
    - injection H as <- <-. split; [constructor|exact G].
    - cbn [visit] in H. apply andthen_done in H. destruct H as ([v' st1] & H1 & H2). injection H2 as <- <-. destruct (IHv _ _ _ _ _ G Sd H1). split; [now constructor|assumption].
    - cbn [visit] in H. apply andthen_done in H. destruct H as ([v' st1] & H1 & H2). apply andthen_done in H2. destruct H2 as ([k' st2] & H2 & H3). injection H3 as <- <-.
      destruct (IHv _ _ _ _ _ G Sd H1) as [X1 G1]. destruct (IHk _ _ _ _ _ G1 Sd H2) as [X2 G2]. split; [now constructor|assumption].
    - rewrite visit_record in H. apply andthen_done in H. destruct H as ([fs' st1] & H1 & H2). apply andthen_done in H2. destruct H2 as (r & F & H3). injection H3 as <- <-.
      assert (X : expands_fields local known d fs fs' /\ good stack st1); [|destruct X; split; [econstructor; eassumption|assumption] ].
      clear F r. revert st fs' st1 G H1. induction IH as [|f fs Hf IH IH2]; intros st fs' st1 G H1; cbn [visit_fields] in H1; [injection H1 as <- <-; split; [constructor|exact G]|].
      apply andthen_done in H1. destruct H1 as ([v st2] & H1 & H2). apply andthen_done in H2. destruct H2 as ([r' st3] & H2 & H3). injection H3 as <- <-.
      destruct (Hf _ _ _ _ _ G Sd H1) as [X1 G1]. destruct (IH2 _ _ _ G1 H2) as [X2 G2]. split; [|exact G2]. destruct f. now constructor.
    - cbn [visit] in H. apply andthen_done in H. destruct H as ([v' st1] & H1 & H2). injection H2 as <- <-. destruct (IHv _ _ _ _ _ G Sd H1). split; [now constructor|assumption].
  Qed.
  Lemma one_sound : forall lk k t stack st u st', sound_lookup lk -> good stack st -> ~ In k stack -> In (k, t) (r_local st) -> resolve_one lk k t st = Done (u, st') -> denotes local known k u /\ good stack st'.
  Proof.
    intros lk k t stack st u st' HL G NS Hk H. unfold resolve_one in H. destruct (assoc k (r_resolved st)); [discriminate|]. apply andthen_done in H. destruct H as ([v st1] & H1 & H2).
    destruct (visit_sound lk HL t (k :: stack) k _ _ _ (push_good _ _ _ _ G Hk) (or_introl eq_refl) H1) as [X G1].
    destruct (assoc k (r_resolved st1)); [discriminate|]. destruct (schema_add v (r_schema st1)) as [s|] eqn:A; [|discriminate]. injection H2 as <- <-.
    pose proof (g_local _ _ G _ Hk) as Hk'. destruct (proj1 (Forall_forall _ _) Hd _ Hk') as (D1 & D2 & D3). cbn [fst snd] in *.
    pose proof (expands_names _ _ _ _ _ X) as (EN & EK). assert (NU : ty_name v = k) by (destruct t; try contradiction; congruence).
    assert (D : denotes local known k v) by (econstructor; eassumption). split; [exact D|].
    assert (S : s = r_schema st1 ++ [v]). { unfold schema_add in A. destruct v; try discriminate; destruct (ty_name _); try discriminate; destruct (schema_find _ _); try discriminate; now injection A as <-. }
    subst s. apply pop_good; auto. exact (in_key _ _ _ Hk').
  Qed.
  Lemma lookup_sound : forall n, sound_lookup (lookup global n).
  Proof.
    induction n as [|n IH]; intros k stack st u st' G H; cbn [lookup] in H.
    all: destruct (assoc k (r_resolved st)) as [v|] eqn:E1; [injection H as <- <-; apply assoc_in in E1; split; [now apply (g_means _ _ G _ _ E1)|split; [exact G|] ]; intros S; apply (proj2 (g_stack _ _ G _ S)); exact (in_key _ _ _ E1)|].
    all: destruct (assoc k (r_local st)) as [t|] eqn:E2.
    - discriminate.
    - destruct (assoc k global) as [v|] eqn:E3; [|discriminate]. injection H as <- <-. apply assoc_in in E3.
      assert (NL : ~ In k (map fst local)) by (intros X; exact (apart _ X (in_key _ _ _ E3))). split; [now apply denotes_global|]. split; [exact G|]. intros S. apply NL. now apply (g_known _ _ G).
    - apply assoc_in in E2. assert (NS : ~ In k stack) by (intros S; apply (proj1 (g_stack _ _ G _ S)); exact (in_key _ _ _ E2)).
      destruct (one_sound _ _ _ _ _ _ _ IH G NS E2 H). auto.
    - destruct (assoc k global) as [v|] eqn:E3; [|discriminate]. injection H as <- <-. apply assoc_in in E3.
      assert (NL : ~ In k (map fst local)) by (intros X; exact (apart _ X (in_key _ _ _ E3))). split; [now apply denotes_global|]. split; [exact G|]. intros S. apply NL. now apply (g_known _ _ G).
  Qed.
  Lemma loop_sound : forall n st st', good [] st -> resolve_loop global n st = Done st' -> good [] st' /\ r_local st' = [].
  Proof.
    induction n as [|n IH]; intros st st' G H; cbn [resolve_loop] in H; destruct (r_local st) as [|[k t] r] eqn:E; try discriminate; try (injection H as <-; now split).
    apply andthen_done in H. destruct H as ([u st1] & H1 & H2). assert (Hk : In (k, t) (r_local st)) by (rewrite E; now left).
    destruct (one_sound _ _ _ _ _ _ _ (lookup_sound n) G (fun x => x) Hk H1) as [_ G1]. exact (IH _ _ G1 H2).
  Qed.
End Resolver.

(** * Definitions without type expressions *)

(** The definitions refer to names, and there are no type expressions in them. *)
Fixpoint simple (t : ty) : Prop :=
  match t with
  | TNull => False
  | TNone m => m_name m <> []
  | TBasic _ _ | TEnum _ _ => True
  | TAlias _ v | TList _ v => simple v
  | TMap _ k v => simple k /\ simple v
  | TRecord m fs => has_attribute m algebra_key = false /\ fold_right (fun f P => simple (snd f) /\ P) True fs
  end.
Definition simple_state (b : nat) (st : resolver) : Prop := Forall (fun x => simple (snd x)) (r_local st) /\ (length (r_local st) <= b)%nat.
Definition never {A} (b : nat) (r : out (A * resolver)) : Prop := match r with Done (_, st) => simple_state b st | Fail => True | Abort => False end.
Lemma never_then : forall A B b (x : out (A * resolver)) (f : A * resolver -> out (B * resolver)), never b x -> (forall a st, simple_state b st -> never b (f (a, st))) -> never b (andthen x f).
Proof. intros A B b [ [a st]| |] f H F; [now apply F|exact H|exact H]. Qed.
Lemma visit_never : forall lk b, (forall k st, simple_state b st -> never b (lk k st)) -> forall t st, simple t -> simple_state b st -> never b (visit lk t st).
Proof.
  intros lk b HL. induction t as [|m|m ba|m es|m v IHv|m kt vt IHk IHv|m fs IH|m v IHv] using ty_rect'; intros st H S.
  - destruct H.
  - cbn [visit simple] in *. destruct (m_name m); [contradiction|]. apply never_then; [now apply HL|]. intros a st' S'. exact S'.
  - exact S.
  - exact S.
  - cbn [visit]. apply never_then; [now apply IHv|]. intros a st' S'. exact S'.
  - cbn [visit simple] in *. destruct H. apply never_then; [now apply IHv|]. intros a st' S'. apply never_then; [now apply IHk|]. intros a' st2 S2. exact S2.
  - rewrite visit_record. cbn [simple] in H. destruct H as [H1 H2]. apply never_then; [|intros a st' S'; unfold finish_record; rewrite H1; exact S'].
    clear H1. revert st S H2. induction IH as [|f fs Hf IH IH2]; intros st S H2; cbn [visit_fields]; [exact S|]. cbn [fold_right] in H2. destruct H2 as [H1 H2].
    apply never_then; [now apply Hf|]. intros a st' S'. apply never_then; [now apply IH2|]. intros a' st2 S2. exact S2.
  - cbn [visit]. apply never_then; [now apply IHv|]. intros a st' S'. exact S'.
Qed.
Lemma erase_sub : forall k m x, In x (erase k m) -> In x m.
Proof. induction m as [|[k' t'] m IH]; intros x H; [destruct H|]. cbn [erase] in H. destruct (bytes_eqb k' k); [now right|]. destruct H; [now left|right; now apply IH]. Qed.
Lemma one_never : forall lk b k t st, (forall k st, simple_state b st -> never b (lk k st)) -> In (k, t) (r_local st) -> simple_state (S b) st -> never b (resolve_one lk k t st).
Proof.
  intros lk b k t st HL Hk [S1 S2]. unfold resolve_one. destruct (assoc k (r_resolved st)); [exact Logic.I|]. apply never_then.
  - apply visit_never; [exact HL| |].
    + exact (proj1 (Forall_forall _ _) S1 _ Hk).
    + split; cbn [r_local]; [|pose proof (erase_shrinks k (r_local st) (in_key _ _ _ Hk)); lia]. apply Forall_forall. intros x Hx. apply (proj1 (Forall_forall _ _) S1). exact (erase_sub _ _ _ Hx).
  - intros u st1 S'. destruct (assoc k (r_resolved st1)); [exact Logic.I|]. destruct (schema_add u (r_schema st1)); [exact S'|exact Logic.I].
Qed.
Lemma never_more : forall A b (x : out (A * resolver)), never b x -> never (S b) x.
Proof. intros A b [ [a st]| |] H; try exact H. destruct H. split; [assumption|lia]. Qed.
Lemma lookup_never : forall g n k st, simple_state n st -> never n (lookup g n k st).
Proof.
  intros g. induction n as [|n IH]; intros k st S; cbn [lookup]; (destruct (assoc k (r_resolved st)); [exact S|]); (destruct (assoc k (r_local st)) as [t|] eqn:E; [|destruct (assoc k g); [exact S|exact Logic.I] ]).
  - apply assoc_in in E. destruct S as [_ S]. destruct (r_local st); [destruct E|cbn in S; lia].
  - apply assoc_in in E. apply never_more. now apply one_never.
Qed.
Lemma loop_never : forall g n st, simple_state n st -> resolve_loop g n st <> Abort.
Proof.
  intros g. induction n as [|n IH]; intros st S; cbn [resolve_loop]; destruct (r_local st) as [|[k t] r] eqn:E; try discriminate.
  - destruct S as [_ S]. rewrite E in S. cbn in S. lia.
  - assert (X : never n (resolve_one (lookup g n) k t st)) by (apply one_never; [intros; now apply lookup_never|rewrite E; now left|exact S]).
    destruct (resolve_one (lookup g n) k t st) as [ [u st1]| |]; cbn [andthen never] in *; [now apply IH|discriminate|contradiction].
Qed.

(** * Directories *)

Lemma meaning_ext : forall l (g g' : text -> ty -> Prop), (forall k u, g k u -> g' k u) ->
  (forall k u, denotes l g k u -> denotes l g' k u) /\ (forall d t u, expands l g d t u -> expands l g' d t u) /\ (forall d fs fs', expands_fields l g d fs fs' -> expands_fields l g' d fs fs').
Proof.
  intros l g g' H. apply meaning_ind; intros; try (econstructor; eauto; fail).
Qed.
Lemma meaning_perm : forall l l' (g : text -> ty -> Prop), (forall x, In x l <-> In x l') ->
  (forall k u, denotes l g k u -> denotes l' g k u) /\ (forall d t u, expands l g d t u -> expands l' g d t u) /\ (forall d fs fs', expands_fields l g d fs fs' -> expands_fields l' g d fs fs').
Proof.
  intros l l' g H. apply meaning_ind; intros; try (econstructor; eauto; fail).
  - econstructor; [apply H; eassumption|assumption].
  - apply denotes_global; [|assumption]. intros X. apply H0. destruct (key_in _ _ X) as [t Ht]. apply H in Ht. exact (in_key _ _ _ Ht).
Qed.

(** The meaning of a name after the directories [dirs], of which the last comes first. *)
Fixpoint meaning (dirs : list symbols) : text -> ty -> Prop :=
  match dirs with [] => fun _ _ => False | d :: earlier => denotes d (meaning earlier) end.

Lemma find_some : forall s k u, schema_find k s = Some u -> In u s /\ ty_name u = k.
Proof.
  induction s as [|t s IH]; intros k u H; [discriminate|]. cbn [schema_find] in H. destruct (bytes_eqb (ty_name t) k) eqn:E.
  - injection H as ->. apply bytes_eqb_spec in E. split; [now left|exact E].
  - destruct (IH _ _ H). split; [now right|assumption].
Qed.
Lemma find_in : forall s u, NoDup (map ty_name s) -> In u s -> schema_find (ty_name u) s = Some u.
Proof.
  induction s as [|t s IH]; intros u H I; [destruct I|]. cbn [map] in H. inversion H as [|? ? H1 H2]; subst. cbn [schema_find]. destruct I as [->|I]; [now rewrite eqb_refl|].
  rewrite eqb_neq; [now apply IH|]. intros E. apply H1. rewrite E. now apply in_map.
Qed.
Lemma find_none : forall s k, schema_find k s = None <-> ~ In k (map ty_name s).
Proof.
  induction s as [|t s IH]; intros k; cbn [schema_find map In]; [tauto|]. destruct (bytes_eqb (ty_name t) k) eqn:E.
  - apply bytes_eqb_spec in E. split; [discriminate|]. intros H. exfalso. apply H. now left.
  - rewrite IH. split; intros H; [intros [X|X]; [rewrite X, eqb_refl in E; discriminate|contradiction]|intros X; apply H; now right].
Qed.
Lemma set_names : forall t s, map ty_name (schema_set (ty_name t) t s) = map ty_name s.
Proof.
  intros t. induction s as [|u s IH]; [reflexivity|]. cbn [schema_set]. destruct (bytes_eqb (ty_name u) (ty_name t)) eqn:E; cbn [map]; [|now rewrite IH]. apply bytes_eqb_spec in E. now rewrite E.
Qed.
Lemma set_find : forall t s k, In (ty_name t) (map ty_name s) -> schema_find k (schema_set (ty_name t) t s) = if bytes_eqb (ty_name t) k then Some t else schema_find k s.
Proof.
  intros t. induction s as [|u s IH]; intros k H; [destruct H|]. cbn [schema_set]. destruct (bytes_eqb (ty_name u) (ty_name t)) eqn:E; cbn [schema_find].
  - apply bytes_eqb_spec in E. rewrite E. destruct (bytes_eqb (ty_name t) k); reflexivity.
  - rewrite IH; [|destruct H as [H|H]; [rewrite H, eqb_refl in E; discriminate|exact H] ]. destruct (bytes_eqb (ty_name u) k) eqn:E1; [|reflexivity].
    apply bytes_eqb_spec in E1. rewrite eqb_neq; [reflexivity|]. intros E2. rewrite E1, E2, eqb_refl in E. discriminate.
Qed.
Lemma find_app : forall s1 s2 k, schema_find k (s1 ++ s2) = match schema_find k s1 with Some u => Some u | None => schema_find k s2 end.
Proof. induction s1 as [|t s1 IH]; intros s2 k; [reflexivity|]. cbn [app schema_find]. destruct (bytes_eqb (ty_name t) k); [reflexivity|apply IH]. Qed.
Definition solid (t : ty) : Prop := ty_name t <> [] /\ match t with TNull | TNone _ => False | _ => True end.
Lemma step_find : forall s t k, solid t -> schema_find k (combine_step s t) = if bytes_eqb (ty_name t) k then Some t else schema_find k s.
Proof.
  intros s t k [NE K]. unfold combine_step. destruct (schema_find (ty_name t) s) as [u|] eqn:E.
  - apply set_find. destruct (find_some _ _ _ E) as [I N]. rewrite <- N. now apply in_map.
  - rewrite (add_fresh t s (ty_name t) eq_refl NE K E). rewrite find_app. cbn [schema_find]. destruct (bytes_eqb (ty_name t) k) eqn:E1.
    + apply bytes_eqb_spec in E1. subst k. now rewrite E.
    + destruct (schema_find k s); reflexivity.
Qed.
Lemma combine_find : forall s2 s1 k, NoDup (map ty_name s2) -> Forall solid s2 -> schema_find k (schema_combine s1 s2) = match schema_find k s2 with Some u => Some u | None => schema_find k s1 end.
Proof.
  unfold schema_combine. induction s2 as [|t s2 IH]; intros s1 k H S; [reflexivity|]. cbn [map] in H. inversion H as [|? ? H1 H2]; subst. inversion S; subst. cbn [fold_left].
  rewrite IH, step_find by assumption. cbn [schema_find]. destruct (bytes_eqb (ty_name t) k) eqn:E; [|reflexivity]. apply bytes_eqb_spec in E. subst k.
  rewrite (proj2 (find_none s2 (ty_name t)) H1). reflexivity.
Qed.

Lemma merge_in : forall l g k u, table l -> table g -> (In (k, u) (merge_symbols l g) <-> In (k, u) l \/ ~ In k (map fst l) /\ In (k, u) g).
Proof.
  intros l g k u Hl Hg. unfold merge_symbols. rewrite in_app_iff, filter_In. cbn [fst]. destruct (assoc k l) eqn:E.
  - split; [intros [H|[_ H] ]; [now left|discriminate]|]. intros [H|[H _] ]; [now left|]. apply assoc_in in E. exfalso. apply H. exact (in_key _ _ _ E).
  - apply assoc_none in E. tauto.
Qed.
Lemma nodup_app : forall A (a b : list A), NoDup a -> NoDup b -> (forall x, In x a -> ~ In x b) -> NoDup (a ++ b).
Proof.
  intros A. induction a as [|x a IH]; intros b Ha Hb D; [exact Hb|]. inversion Ha; subst. cbn [app]. constructor.
  - intros I. apply in_app_or in I. destruct I; [contradiction|]. exact (D x (or_introl eq_refl) H).
  - apply IH; auto. intros y Hy. apply D. now right.
Qed.
Lemma nodup_filter : forall A B (f : A -> B) p (l : list A), NoDup (map f l) -> NoDup (map f (filter p l)).
Proof.
  intros A B f p. induction l as [|x l IH]; intros H; [exact H|]. cbn [map] in H. inversion H as [|? ? H1 H2]; subst. cbn [filter]. destruct (p x); [|now apply IH]. cbn [map]. constructor; [|now apply IH].
  intros I. apply H1. apply in_map_iff in I. destruct I as (y & E & I). apply filter_In in I. rewrite <- E. now apply in_map.
Qed.
Lemma merge_table : forall l g, table l -> table g -> table (merge_symbols l g).
Proof.
  intros l g Hl Hg. unfold merge_symbols, table. rewrite map_app. apply nodup_app; [exact Hl|now apply nodup_filter|].
  intros x Hx I. apply in_map_iff in I. destruct I as ([k u] & <- & I). apply filter_In in I. cbn [fst] in *. destruct I as [_ I]. destruct (assoc k l) eqn:E; [discriminate|]. now apply assoc_none in E.
Qed.

(** A directory all of whose definitions have a meaning. *)
Lemma resolve_complete : forall local global, table local -> table global -> Forall definition local -> (forall k, In k (map fst local) -> exists u, denotes local (known global) k u) ->
  exists st, resolve global local = Done st /\ good local global [] st /\ r_local st = [].
Proof.
  intros local global Hl Hg Hd A. apply (loop_complete local global Hl Hg Hd A (length local)); [|reflexivity]. now apply start_good.
Qed.
Lemma denotes_solid : forall l g k u, Forall definition l -> In k (map fst l) -> denotes l g k u -> solid u /\ ty_name u = k.
Proof.
  intros l g k u Hd Hk D. inversion D as [? t ? Ht X|? ? NI ?]; subst; [|contradiction]. destruct (proj1 (Forall_forall _ _) Hd _ Ht) as (D1 & D2 & D3). cbn [fst snd] in *.
  pose proof (expands_names _ _ _ _ _ X) as (EN & EK). assert (NU : ty_name u = k) by (destruct t; try contradiction; congruence). split; [|exact NU]. split; [congruence|now apply EK].
Qed.
Lemma dir_step : forall d earlier g ts, table d -> Forall definition d ->
  table g -> (forall k u, In (k, u) g <-> meaning earlier k u) -> (forall k u, schema_find k ts = Some u <-> In (k, u) g) ->
  (forall k, In k (map fst d) -> exists u, meaning (d :: earlier) k u) ->
  exists g' ts', load_dir g ts d = Done (g', ts') /\ table g' /\ (forall k u, In (k, u) g' <-> meaning (d :: earlier) k u) /\ (forall k u, schema_find k ts' = Some u <-> In (k, u) g').
Proof.
  intros d earlier g ts Hl Hd Hg Eg Et A.
  assert (E1 : forall k u, denotes d (known g) k u <-> meaning (d :: earlier) k u).
  { intros k u. cbn [meaning]. split; intros H; [refine (proj1 (meaning_ext _ _ _ _) k u H)|refine (proj1 (meaning_ext _ _ _ _) k u H)]; intros k' u' H'; now apply Eg. }
  destruct (resolve_complete d g Hl Hg Hd) as (st & R & G & L). { intros k Hk. destruct (A k Hk) as [u Hu]. exists u. now apply E1. }
  destruct (done_all d g Hl Hg st G L) as (D1 & D2 & D3 & D4).
  assert (TR : table (r_resolved st)) by (apply (g_rtable _ _ _ _ G)).
  assert (KR : forall k, In k (map fst (r_resolved st)) <-> In k (map fst d)) by (intros k; split; apply Permutation_in; [exact D2|now symmetry]).
  assert (M : forall k u, In (k, u) (merge_symbols (r_resolved st) g) <-> meaning (d :: earlier) k u).
  { intros k u. rewrite merge_in by assumption. rewrite <- E1. split.
    - intros [H|[N H] ]; [now apply D1|]. apply denotes_global; [|exact H]. intros X. apply N. now apply KR.
    - intros H. inversion H as [? t ? Ht X|? ? NI Hk]; subst; [left; apply D1; split; [exact (in_key _ _ _ Ht)|exact H]|]. right. split; [|exact Hk]. intros X. apply NI. now apply KR. }
  exists (merge_symbols (r_resolved st) g), (schema_combine ts (r_schema st)). split; [|split; [|split] ].
  - unfold load_dir. now rewrite R.
  - now apply merge_table.
  - exact M.
  - intros k u. assert (ND : NoDup (map ty_name (r_schema st))) by (rewrite D3; apply NoDup_rev; exact TR).
    assert (IN : forall v, In v (r_schema st) <-> In (ty_name v, v) (r_resolved st)).
    { intros v. rewrite D4, <- in_rev. split; intros H; [|change v with (snd (ty_name v, v)); now apply in_map]. apply in_map_iff in H. destruct H as ([k' v'] & E & H). cbn [snd] in E. subst v'. now rewrite (proj2 (proj2 (g_means _ _ _ _ G _ _ H))). }
    rewrite combine_find; [|exact ND|].
    + rewrite merge_in by assumption. destruct (schema_find k (r_schema st)) as [v|] eqn:F.
      * apply find_some in F. destruct F as [F1 F2]. apply IN in F1. rewrite F2 in F1. split; intros H; [injection H as <-; now left|]. destruct H as [H|[H _] ]; [f_equal; exact (table_unique _ _ _ _ TR F1 H)|].
        exfalso. apply H. exact (in_key _ _ _ F1).
      * apply find_none in F. assert (NK : ~ In k (map fst (r_resolved st))). { intros X. apply F. rewrite D3. now apply in_rev in X. }
        rewrite Et. split; intros H; [right; now split|]. destruct H as [H|[_ H] ]; [|exact H]. exfalso. apply NK. exact (in_key _ _ _ H).
    + apply Forall_forall. intros v Hv. apply IN in Hv. apply D1 in Hv. destruct Hv as [H1 H2]. now destruct (denotes_solid _ _ _ _ Hd H1 H2).
Qed.
Lemma dirs_load : forall dirs earlier g ts, Forall (fun d => table d /\ Forall definition d) dirs ->
  table g -> (forall k u, In (k, u) g <-> meaning earlier k u) -> (forall k u, schema_find k ts = Some u <-> In (k, u) g) ->
  (forall l1 d l2, dirs = l1 ++ d :: l2 -> forall k, In k (map fst d) -> exists u, meaning (d :: rev l1 ++ earlier) k u) ->
  exists out, load_dirs g ts dirs = Done out /\ forall k u, schema_find k out = Some u <-> meaning (rev dirs ++ earlier) k u.
Proof.
  induction dirs as [|d dirs IH]; intros earlier g ts H Hg Eg Et A.
  - exists ts. split; [reflexivity|]. intros k u. cbn [rev app]. now rewrite Et, Eg.
  - inversion H as [|? ? [Hl Hd] H2]; subst. destruct (dir_step d earlier g ts Hl Hd Hg Eg Et) as (g' & ts' & L & Hg' & Eg' & Et').
    { intros k Hk. exact (A [] d dirs eq_refl k Hk). }
    destruct (IH (d :: earlier) g' ts' H2 Hg' Eg' Et') as (out & L2 & R).
    { intros l1 d' l2 E k Hk. destruct (A (d :: l1) d' l2) with (k := k) as [u Hu]; [now rewrite E|exact Hk|]. exists u. cbn [rev] in Hu. rewrite <- app_assoc in Hu. exact Hu. }
    exists out. cbn [load_dirs]. rewrite L. cbn [andthen]. split; [exact L2|]. intros k u. rewrite R. cbn [rev]. now rewrite <- app_assoc.
Qed.
