(** Proofs about the operators that combine record types. *)
From Coq Require Import String Ascii List NArith Bool Arith Lia.
From Coq Require Import ZifyBool ZifyNat ZifyN.
From Coq Require Import Init.Datatypes.
From Verif Require Import EscapeModel LiteralModel SyntaxModel SchemaModel AddressModel AddressProofs TypeModel TypeProofs.
Import ListNotations.

(** * Records as trees *)

(** What stands at a path of field names. *)
Fixpoint at_path (t : ty) (p : list (list N)) : option ty :=
  match p with
  | [] => Some t
  | n :: p' => match t with
               | TRecord _ fs => match find_field n fs with Some u => at_path u p' | None => None end
               | _ => None
               end
  end.
Definition is_record (t : ty) : bool := match t with TRecord _ _ => true | _ => false end.
(** A field that is no record. *)
Definition leaf (t : ty) (p : list (list N)) (x : ty) : Prop := at_path t p = Some x /\ is_record x = false.
(** The records along the path have no field for it. *)
Definition open_at (t : ty) (p : list (list N)) : Prop :=
  exists q n r m fs, p = q ++ n :: r /\ at_path t q = Some (TRecord m fs) /\ ~ In n (map fst fs).
(** The fields of a record have different names, and so have those of the records in it. *)
Fixpoint distinct (t : ty) : Prop :=
  match t with TRecord _ fs => NoDup (map fst fs) /\ fold_right (fun f P => distinct (snd f) /\ P) True fs | _ => True end.

Lemma distinct_fields : forall m fs, distinct (TRecord m fs) <-> NoDup (map fst fs) /\ Forall (fun f => distinct (snd f)) fs.
Proof.
  intros m fs. cbn [distinct]. split; intros [H1 H2]; (split; [exact H1|]); clear H1; induction fs as [|f fs IH]; cbn [fold_right] in *; try (constructor; fail); try exact Logic.I.
  - destruct H2. constructor; auto.
  - inversion H2; subst. split; auto.
Qed.
Lemma eqb_same : forall x, bytes_eqb x x = true.
Proof. intros x. now apply bytes_eqb_spec. Qed.
Lemma eqb_other : forall x y, x <> y -> bytes_eqb x y = false.
Proof. intros x y H. destruct (bytes_eqb x y) eqn:E; [|reflexivity]. apply bytes_eqb_spec in E. contradiction. Qed.
Lemma find_none_iff : forall n fs, find_field n fs = None <-> ~ In n (map fst fs).
Proof.
  induction fs as [|[k t] fs IH]; cbn [find_field map fst In]; [tauto|]. destruct (bytes_eqb k n) eqn:E.
  - apply bytes_eqb_spec in E. split; [discriminate|]. intros H. exfalso. apply H. now left.
  - rewrite IH. split; intros H; [intros [->|X]; [rewrite eqb_same in E; discriminate|now apply H]|intros X; apply H; now right].
Qed.
Lemma find_field_in : forall n fs t, find_field n fs = Some t -> In (n, t) fs.
Proof.
  induction fs as [|[k u] fs IH]; intros t H; [discriminate|]. cbn [find_field] in H. destruct (bytes_eqb k n) eqn:E; [|right; now apply IH].
  apply bytes_eqb_spec in E. injection H as ->. subst. now left.
Qed.
Lemma in_find_field : forall n fs t, NoDup (map fst fs) -> In (n, t) fs -> find_field n fs = Some t.
Proof.
  induction fs as [|[k u] fs IH]; intros t H I; [destruct I|]. cbn [map fst] in H. inversion H as [|? ? H1 H2]; subst. cbn [find_field]. destruct I as [I|I].
  - injection I as -> ->. now rewrite eqb_same.
  - rewrite eqb_other; [now apply IH|]. intros ->. apply H1. change n with (fst (n, t)). now apply in_map.
Qed.
Lemma find_app : forall n fs gs, find_field n (fs ++ gs) = match find_field n fs with Some t => Some t | None => find_field n gs end.
Proof. induction fs as [|[k t] fs IH]; intros gs; [reflexivity|]. cbn [app find_field]. destruct (bytes_eqb k n); [reflexivity|apply IH]. Qed.
Lemma set_names : forall n t fs, map fst (set_field n t fs) = map fst fs.
Proof. induction fs as [|[k u] fs IH]; [reflexivity|]. cbn [set_field]. destruct (bytes_eqb k n); cbn [map fst]; [reflexivity|now rewrite IH]. Qed.
Lemma set_find : forall n t fs k, In n (map fst fs) -> find_field k (set_field n t fs) = if bytes_eqb n k then Some t else find_field k fs.
Proof.
  induction fs as [|[j u] fs IH]; intros k H; [destruct H|]. cbn [set_field]. destruct (bytes_eqb j n) eqn:E; cbn [find_field].
  - apply bytes_eqb_spec in E. subst j. destruct (bytes_eqb n k); reflexivity.
  - destruct H as [H|H]; [cbn [fst] in H; subst; rewrite eqb_same in E; discriminate|]. rewrite IH by exact H. destruct (bytes_eqb j k) eqn:E1; [|reflexivity].
    apply bytes_eqb_spec in E1. subst. rewrite eqb_other; [reflexivity|]. intros ->. rewrite eqb_same in E. discriminate.
Qed.

(** * One level of merging *)

Section Level.
  Variable rec : ty -> ty -> option ty.
  Variable clash : ty -> ty -> option ty.
  (** What becomes of a field that both records have. *)
  Definition both (u t : ty) : option ty :=
    if ty_eqb u t then Some u else match u, t with TRecord _ _, TRecord _ _ => rec t u | _, _ => clash u t end.

  Lemma level_some : forall gs left added out, NoDup (map fst gs) -> (forall n, In n (map fst gs) -> ~ In n (map fst added)) -> (forall n, In n (map fst left) -> ~ In n (map fst added)) ->
    merge_loop rec clash gs left added = Some out ->
    forall n, match find_field n left, find_field n gs with
              | Some u, Some t => exists v, both u t = Some v /\ find_field n out = Some v
              | Some u, None => find_field n out = Some u
              | None, Some t => find_field n out = Some t
              | None, None => find_field n out = find_field n added
              end.
  Proof.
    induction gs as [|[k t] gs IH]; intros left added out ND D1 D2 H n.
    - injection H as <-. cbn [find_field]. rewrite find_app. destruct (find_field n left); reflexivity.
    - cbn [map fst] in ND. inversion ND as [|? ? N1 N2]; subst. cbn [merge_loop] in H. pose proof (proj2 (find_none_iff k gs) N1) as NG. destruct (find_field k left) as [u|] eqn:FL.
      + assert (KL : In k (map fst left)). { apply find_field_in in FL. change k with (fst (k, u)). now apply in_map. }
        assert (G : forall v left', both u t = Some v -> map fst left' = map fst left -> (forall j, find_field j left' = if bytes_eqb k j then Some v else find_field j left) -> merge_loop rec clash gs left' added = Some out ->
          match find_field n left, find_field n ((k, t) :: gs) with
          | Some u, Some t => exists v, both u t = Some v /\ find_field n out = Some v
          | Some u, None => find_field n out = Some u
          | None, Some t => find_field n out = Some t
          | None, None => find_field n out = find_field n added
          end).
        { intros v left' B EN EF M. assert (A1 : forall j, In j (map fst gs) -> ~ In j (map fst added)) by (intros j Hj; apply D1; now right).
          assert (A2 : forall j, In j (map fst left') -> ~ In j (map fst added)) by (rewrite EN; exact D2).
          pose proof (IH left' added out N2 A1 A2 M n) as X. rewrite EF in X. cbn [find_field]. destruct (bytes_eqb k n) eqn:E.
          - apply bytes_eqb_spec in E. subst n. rewrite FL. rewrite NG in X. exists v. now split.
          - exact X. }
        destruct (ty_eqb u t) eqn:Q.
        * apply (G u left); [unfold both; now rewrite Q|reflexivity| |exact H]. intros j. destruct (bytes_eqb k j) eqn:E; [|reflexivity]. apply bytes_eqb_spec in E. now subst.
        * destruct (match u, t with TRecord _ _, TRecord _ _ => rec t u | _, _ => clash u t end) as [v|] eqn:V; [|discriminate].
          apply (G v (set_field k v left)); [unfold both; rewrite Q; exact V|apply set_names| |exact H]. intros j. now apply set_find.
      + assert (A1 : forall j, In j (map fst gs) -> ~ In j (map fst (added ++ [(k, t)]))).
        { intros j Hj X. rewrite map_app in X. apply in_app_or in X. destruct X as [X|[<-|[] ] ]; [exact (D1 j (or_intror Hj) X)|contradiction]. }
        assert (A2 : forall j, In j (map fst left) -> ~ In j (map fst (added ++ [(k, t)]))).
        { intros j Hj X. rewrite map_app in X. apply in_app_or in X. destruct X as [X|[<-|[] ] ]; [exact (D2 j Hj X)|]. apply find_none_iff in FL. contradiction. }
        pose proof (IH left (added ++ [(k, t)]) out N2 A1 A2 H n) as X. cbn [find_field]. destruct (bytes_eqb k n) eqn:E.
        * apply bytes_eqb_spec in E. subst n. rewrite FL in *. rewrite NG in X. rewrite X, find_app. cbn [find_field]. rewrite eqb_same.
          assert (FA : find_field k added = None) by (apply find_none_iff; apply D1; now left). now rewrite FA.
        * destruct (find_field n left); [exact X|]. destruct (find_field n gs); [exact X|]. rewrite X, find_app. cbn [find_field]. rewrite E. destruct (find_field n added); reflexivity.
  Qed.
  Lemma level_names : forall gs left added out, NoDup (map fst gs) -> NoDup (map fst (left ++ added)) -> (forall n, In n (map fst gs) -> ~ In n (map fst added)) ->
    merge_loop rec clash gs left added = Some out -> NoDup (map fst out).
  Proof.
    induction gs as [|[k t] gs IH]; intros left added out ND NL D H; [injection H as <-; exact NL|].
    cbn [map fst] in ND. inversion ND as [|? ? N1 N2]; subst. cbn [merge_loop] in H. destruct (find_field k left) as [u|] eqn:FL.
    - destruct (ty_eqb u t); [apply (IH left added); auto; intros j Hj; apply D; now right|].
      destruct (match u, t with TRecord _ _, TRecord _ _ => rec t u | _, _ => clash u t end) as [v|]; [|discriminate].
      apply (IH (set_field k v left) added); auto; [rewrite map_app, set_names, <- map_app; exact NL|]. intros j Hj. apply D. now right.
    - apply (IH left (added ++ [(k, t)])); auto.
      + rewrite app_assoc, map_app. cbn [map fst]. apply find_none_iff in FL.
        assert (X : ~ In k (map fst (left ++ added))). { rewrite map_app. intros X. apply in_app_or in X. destruct X as [X|X]; [contradiction|]. exact (D k (or_introl eq_refl) X). }
        clear - NL X. induction (map fst (left ++ added)) as [|y l IHl]; cbn [app]; [constructor; [intros []|constructor]|]. inversion NL; subst. constructor; [|apply IHl; [assumption|intros Y; apply X; now right] ].
        intros Y. apply in_app_or in Y. destruct Y as [Y|[<-|[] ] ]; [contradiction|]. apply X. now left.
      + intros j Hj X. rewrite map_app in X. apply in_app_or in X. destruct X as [X|[<-|[] ] ]; [exact (D j (or_intror Hj) X)|contradiction].
  Qed.
  Lemma level_none : forall gs left added, NoDup (map fst gs) -> merge_loop rec clash gs left added = None -> exists n u t, find_field n left = Some u /\ find_field n gs = Some t /\ both u t = None.
  Proof.
    induction gs as [|[k t] gs IH]; intros left added ND H; [discriminate|]. cbn [map fst] in ND. inversion ND as [|? ? N1 N2]; subst. cbn [merge_loop] in H. pose proof (proj2 (find_none_iff k gs) N1) as NG.
    assert (O : forall n x, find_field n gs = Some x -> bytes_eqb k n = false). { intros n x Hx. apply eqb_other. intros ->. congruence. }
    destruct (find_field k left) as [u|] eqn:FL.
    - destruct (ty_eqb u t) eqn:Q.
      + destruct (IH _ _ N2 H) as (n & x & y & Hx & Hy & B). exists n, x, y. split; [exact Hx|]. split; [|exact B]. cbn [find_field]. now rewrite (O n y Hy).
      + destruct (match u, t with TRecord _ _, TRecord _ _ => rec t u | _, _ => clash u t end) as [v|] eqn:V.
        * destruct (IH _ _ N2 H) as (n & x & y & Hx & Hy & B). rewrite set_find in Hx by (apply find_field_in in FL; change k with (fst (k, u)); now apply in_map). rewrite (O n y Hy) in Hx.
          exists n, x, y. split; [exact Hx|]. split; [|exact B]. cbn [find_field]. now rewrite (O n y Hy).
        * exists k, u, t. split; [exact FL|]. split; [cbn [find_field]; now rewrite eqb_same|]. unfold both. now rewrite Q.
    - destruct (IH _ _ N2 H) as (n & x & y & Hx & Hy & B). exists n, x, y. split; [exact Hx|]. split; [|exact B]. cbn [find_field]. now rewrite (O n y Hy).
  Qed.
  Lemma level_fails : forall gs left added n u t, NoDup (map fst gs) -> find_field n left = Some u -> find_field n gs = Some t -> both u t = None -> merge_loop rec clash gs left added = None.
  Proof.
    intros gs left added n u t ND HL HG B. revert left added HL. induction gs as [|[k x] gs IH]; intros left added HL; [discriminate|]. cbn [map fst] in ND. inversion ND as [|? ? N1 N2]; subst. cbn [merge_loop].
    cbn [find_field] in HG. destruct (bytes_eqb k n) eqn:E.
    - apply bytes_eqb_spec in E. subst k. injection HG as ->. rewrite HL. unfold both in B. destruct (ty_eqb u t); [discriminate|]. now rewrite B.
    - destruct (find_field k left) as [v|] eqn:FL; [|now apply IH]. destruct (ty_eqb v x); [now apply IH|].
      destruct (match v, x with TRecord _ _, TRecord _ _ => rec x v | _, _ => clash v x end) as [w|]; [|reflexivity]. apply IH; auto.
      rewrite set_find by (apply find_field_in in FL; change k with (fst (k, v)); now apply in_map). now rewrite E.
  Qed.
End Level.

(** * Whole records *)

Lemma leaf_cons : forall m fs n p x, leaf (TRecord m fs) (n :: p) x <-> exists u, find_field n fs = Some u /\ leaf u p x.
Proof.
  intros m fs n p x. unfold leaf. cbn [at_path]. destruct (find_field n fs) as [u|]; split.
  - intros H. now exists u.
  - intros (v & E & H). now injection E as ->.
  - intros [H _]. discriminate.
  - intros (v & E & _). discriminate.
Qed.
Lemma leaf_nil : forall t x, is_record t = true -> ~ leaf t [] x.
Proof. intros t x R [H1 H2]. injection H1 as ->. congruence. Qed.
Lemma open_cons : forall m fs n p, open_at (TRecord m fs) (n :: p) <-> find_field n fs = None \/ exists u, find_field n fs = Some u /\ open_at u p.
Proof.
  intros m fs n p. split.
  - intros (q & k & r & m' & gs & E & A & N). destruct q as [|c q].
    + cbn [app at_path] in *. injection E as -> ->. injection A as -> ->. left. now apply find_none_iff.
    + cbn [app at_path] in *. injection E as <- ->. destruct (find_field n fs) as [u|]; [|discriminate]. right. exists u. split; [reflexivity|]. now exists q, k, r, m', gs.
  - intros [H|(u & H & q & k & r & m' & gs & -> & A & N)].
    + exists [], n, p, m, fs. split; [reflexivity|]. split; [reflexivity|]. now apply find_none_iff.
    + exists (n :: q), k, r, m', gs. split; [reflexivity|]. split; [cbn [at_path]; now rewrite H|exact N].
Qed.
Lemma open_leaf : forall t p, is_record t = false -> ~ open_at t p.
Proof. intros t p R (q & k & r & m & fs & -> & A & _). destruct q as [|c q]; cbn [at_path] in A; [injection A as ->; discriminate|]. destruct t; discriminate. Qed.
Lemma open_nil : forall t, ~ open_at t [].
Proof. intros t (q & k & r & m & fs & E & _). destruct q; discriminate. Qed.
Lemma field_distinct : forall m fs n u, distinct (TRecord m fs) -> find_field n fs = Some u -> distinct u.
Proof. intros m fs n u H F. apply distinct_fields in H. destruct H as [_ H]. apply find_field_in in F. exact (proj1 (Forall_forall _ _) H _ F). Qed.
Lemma find_forall : forall (P : ty -> Prop) fs n u, Forall (fun f => P (snd f)) fs -> find_field n fs = Some u -> P u.
Proof. intros P fs n u H F. apply find_field_in in F. exact (proj1 (Forall_forall _ _) H _ F). Qed.

(** ** Merging without conflicts *)

Lemma merge_shape : forall rhs lhs r, merge_into rhs lhs = Some r -> exists n gs m fs out, rhs = TRecord n gs /\ lhs = TRecord m fs /\ r = TRecord {| m_name := []; m_attrs := m_attrs m |} out /\
  merge_loop merge_into (fun _ _ => None) gs fs [] = Some out.
Proof.
  intros rhs lhs r H. destruct rhs as [| | | | | |n gs|]; try discriminate. destruct lhs as [| | | | | |m fs|]; try discriminate. cbn [merge_into] in H.
  destruct (merge_loop merge_into (fun _ _ => None) gs fs []) as [out|] eqn:E; [|discriminate]. injection H as <-. now exists n, gs, m, fs, out.
Qed.
Lemma both_merge : forall u t v, both merge_into (fun _ _ => None) u t = Some v -> (v = u /\ u = t) \/ merge_into t u = Some v.
Proof.
  intros u t v H. unfold both in H. destruct (ty_eqb u t) eqn:E; [left; apply ty_eqb_eq in E; injection H as <-; now split|]. right. destruct u; try discriminate; destruct t; try discriminate. exact H.
Qed.
Lemma no_added : forall (l : list field) n, In n (map fst l) -> ~ In n (map fst (@nil field)).
Proof. intros l n _ []. Qed.
Lemma merge_leaves : forall rhs lhs r, distinct rhs -> distinct lhs -> merge_into rhs lhs = Some r -> distinct r /\ forall p x, leaf r p x <-> leaf lhs p x \/ leaf rhs p x.
Proof.
  induction rhs as [|m0|m0 b|m0 es|m0 v0 IHv|m0 kt vt IHk IHv|m0 fs0 IH|m0 v0 IHv] using ty_rect'; intros lhs r DR DL H; try discriminate.
  destruct (merge_shape _ _ _ H) as (n & gs & m & fs & out & E & -> & -> & M). injection E as <- <-.
  pose proof (proj1 (proj1 (distinct_fields _ _) DR)) as NR. pose proof (proj1 (proj1 (distinct_fields _ _) DL)) as NL.
  pose proof (level_some _ _ _ _ _ _ NR (no_added _) (no_added _) M) as L.
  assert (NO : NoDup (map fst out)) by (eapply level_names; [exact NR| |apply no_added|exact M]; rewrite app_nil_r; exact NL).
  split.
  - apply distinct_fields. split; [exact NO|]. apply Forall_forall. intros [k v] Hv. cbn [snd]. apply (in_find_field _ _ _ NO) in Hv. specialize (L k).
    destruct (find_field k fs) as [u|] eqn:F1; destruct (find_field k fs0) as [t|] eqn:F2.
    + destruct L as (w & B & L). rewrite L in Hv. injection Hv as ->. destruct (both_merge _ _ _ B) as [ [-> _]|B']; [exact (field_distinct _ _ _ _ DL F1)|].
      pose proof (proj1 (Forall_forall _ _) IH _ (find_field_in _ _ _ F2)) as IHt. cbn [snd] in IHt. exact (proj1 (IHt u v (field_distinct _ _ _ _ DR F2) (field_distinct _ _ _ _ DL F1) B')).
    + rewrite L in Hv. injection Hv as ->. exact (field_distinct _ _ _ _ DL F1).
    + rewrite L in Hv. injection Hv as ->. exact (field_distinct _ _ _ _ DR F2).
    + rewrite L in Hv. discriminate.
  - intros [|k p] x; [split; [intros X; exfalso; now apply leaf_nil in X|intros [X|X]; exfalso; now apply leaf_nil in X]|]. rewrite !leaf_cons. specialize (L k).
    destruct (find_field k fs) as [u|] eqn:F1; destruct (find_field k fs0) as [t|] eqn:F2.
    + destruct L as (w & B & L). rewrite L. destruct (both_merge _ _ _ B) as [ [-> ->]|B'].
      * split; [intros H0; now left|intros [H0|H0]; exact H0].
      * pose proof (proj1 (Forall_forall _ _) IH _ (find_field_in _ _ _ F2)) as IHt. cbn [snd] in IHt. pose proof (proj2 (IHt u w (field_distinct _ _ _ _ DR F2) (field_distinct _ _ _ _ DL F1) B') p x) as Q.
        split; [intros (v & E & X); injection E as <-; apply Q in X; destruct X; [left|right]; eexists; eauto|].
        intros [(v & E & X)|(v & E & X)]; injection E as <-; exists w; (split; [reflexivity|]); apply Q; auto.
    + rewrite L. split; [intros H0; now left|intros [H0|(v & E & _)]; [exact H0|discriminate] ].
    + rewrite L. split; [intros H0; now right|intros [(v & E & _)|H0]; [discriminate|exact H0] ].
    + rewrite L. split; [intros (v & E & _); discriminate|intros [(v & E & _)|(v & E & _)]; discriminate].
Qed.
(** Fields that both records have and that are neither equal nor both records. *)
Definition conflict (lhs rhs : ty) : Prop := exists p x y, at_path lhs p = Some x /\ at_path rhs p = Some y /\ x <> y /\ is_record x && is_record y = false.
Lemma merge_fails : forall rhs lhs, is_record rhs = true -> is_record lhs = true -> distinct rhs -> distinct lhs -> merge_into rhs lhs = None -> conflict lhs rhs.
Proof.
  induction rhs as [|m0|m0 b|m0 es|m0 v0 IHv|m0 kt vt IHk IHv|m0 fs0 IH|m0 v0 IHv] using ty_rect'; intros lhs RR RL DR DL H; try discriminate.
  destruct lhs as [| | | | | |m fs|]; try discriminate. cbn [merge_into] in H. destruct (merge_loop merge_into (fun _ _ => None) fs0 fs []) as [out|] eqn:M; [discriminate|].
  pose proof (proj1 (proj1 (distinct_fields _ _) DR)) as NR. destruct (level_none _ _ _ _ _ NR M) as (n & u & t & F1 & F2 & B). unfold both in B. destruct (ty_eqb u t) eqn:Q; [discriminate|].
  assert (NE : u <> t) by (intros E; apply ty_eqb_eq in E; congruence).
  destruct (is_record u && is_record t) eqn:R.
  - apply andb_true_iff in R. destruct R as [R1 R2]. assert (B' : merge_into t u = None) by (destruct u; try discriminate; destruct t; try discriminate; exact B).
    pose proof (proj1 (Forall_forall _ _) IH _ (find_field_in _ _ _ F2)) as IHt; cbn [snd] in IHt; destruct (IHt u R2 R1 (field_distinct _ _ _ _ DR F2) (field_distinct _ _ _ _ DL F1) B') as (p & x & y & X & Y & Z). exists (n :: p), x, y. cbn [at_path]. rewrite F1, F2. auto.
  - exists [n], u, t. cbn [at_path]. rewrite F1, F2. auto.
Qed.
Lemma merge_conflict : forall p lhs rhs x y, distinct rhs -> at_path lhs p = Some x -> at_path rhs p = Some y -> x <> y -> is_record x && is_record y = false -> merge_into rhs lhs = None.
Proof.
  induction p as [|n p IH]; intros lhs rhs x y DR X Y NE R.
  - injection X as ->. injection Y as ->. destruct y; try reflexivity. destruct x; try reflexivity. discriminate.
  - cbn [at_path] in *. destruct lhs as [| | | | | |m fs|]; try discriminate. destruct rhs as [| | | | | |m0 gs|]; try discriminate.
    destruct (find_field n fs) as [u|] eqn:F1; [|discriminate]. destruct (find_field n gs) as [t|] eqn:F2; [|discriminate].
    pose proof (proj1 (proj1 (distinct_fields _ _) DR)) as NR. cbn [merge_into]. rewrite (level_fails _ _ _ _ _ n u t NR F1 F2); [reflexivity|]. unfold both.
    destruct (ty_eqb u t) eqn:Q; [apply ty_eqb_eq in Q; subst; rewrite X in Y; injection Y as ->; now contradiction NE|].
    pose proof (IH u t x y (field_distinct _ _ _ _ DR F2) X Y NE R) as M. destruct u; try reflexivity. destruct t; try reflexivity. exact M.
Qed.

(** ** Merging with a preference *)

Definition winner (p : policy) (lhs rhs : ty) : ty := match p with prefer_left => lhs | prefer_right => rhs end.
Definition loser (p : policy) (lhs rhs : ty) : ty := match p with prefer_left => rhs | prefer_right => lhs end.
Lemma priority_total : forall pol rhs lhs, is_record rhs = true -> is_record lhs = true -> distinct rhs -> distinct lhs -> exists r, priority_merge_into pol rhs lhs = Some r.
Proof.
  intros pol. induction rhs as [|m0|m0 b|m0 es|m0 v0 IHv|m0 kt vt IHk IHv|m0 fs0 IH|m0 v0 IHv] using ty_rect'; intros lhs RR RL DR DL; try discriminate.
  destruct lhs as [| | | | | |m fs|]; try discriminate. cbn [priority_merge_into].
  match goal with |- context [merge_loop ?r ?c fs0 fs []] => set (rc := r); set (cl := c); destruct (merge_loop rc cl fs0 fs []) as [out|] eqn:M end; [eexists; reflexivity|]. exfalso.
  pose proof (proj1 (proj1 (distinct_fields _ _) DR)) as NR. destruct (level_none _ _ _ _ _ NR M) as (n & u & t & F1 & F2 & B). unfold both in B. destruct (ty_eqb u t) eqn:Q; [discriminate|].
  destruct (is_record u && is_record t) eqn:R.
  - apply andb_true_iff in R. destruct R as [R1 R2]. pose proof (proj1 (Forall_forall _ _) IH _ (find_field_in _ _ _ F2)) as IHt; cbn [snd] in IHt; destruct (IHt u R2 R1 (field_distinct _ _ _ _ DR F2) (field_distinct _ _ _ _ DL F1)) as (v & V). unfold rc in B.
    destruct u; try discriminate; destruct t; try discriminate; rewrite V in B; discriminate.
  - unfold cl in B. destruct u; try discriminate; destruct t; try discriminate.
Qed.
Lemma priority_leaves : forall pol rhs lhs r, distinct rhs -> distinct lhs -> priority_merge_into pol rhs lhs = Some r ->
  distinct r /\ is_record r = true /\ forall p x, leaf r p x <-> leaf (winner pol lhs rhs) p x \/ (leaf (loser pol lhs rhs) p x /\ open_at (winner pol lhs rhs) p).
Proof.
  intros pol. induction rhs as [|m0|m0 b|m0 es|m0 v0 IHv|m0 kt vt IHk IHv|m0 fs0 IH|m0 v0 IHv] using ty_rect'; intros lhs r DR DL H; try discriminate.
  destruct lhs as [| | | | | |m fs|]; try discriminate. cbn [priority_merge_into] in H.
  match type of H with context [merge_loop ?r ?c fs0 fs []] => set (rc := r) in *; set (cl := c) in *; destruct (merge_loop rc cl fs0 fs []) as [out|] eqn:M; [|discriminate] end. injection H as <-.
  pose proof (proj1 (proj1 (distinct_fields _ _) DR)) as NR. pose proof (proj1 (proj1 (distinct_fields _ _) DL)) as NL.
  pose proof (level_some _ _ _ _ _ _ NR (no_added _) (no_added _) M) as L.
  assert (NO : NoDup (map fst out)) by (eapply level_names; [exact NR| |apply no_added|exact M]; rewrite app_nil_r; exact NL).
  assert (BB : forall k u t w, find_field k fs = Some u -> find_field k fs0 = Some t -> both rc cl u t = Some w ->
    distinct w /\ forall p x, leaf w p x <-> leaf (winner pol u t) p x \/ (leaf (loser pol u t) p x /\ open_at (winner pol u t) p)).
  { intros k u t w F1 F2 B. pose proof (field_distinct _ _ _ _ DL F1) as Du. pose proof (field_distinct _ _ _ _ DR F2) as Dt. unfold both in B. destruct (ty_eqb u t) eqn:Q.
    - injection B as <-. apply ty_eqb_eq in Q. subst t. split; [exact Du|]. intros p x. destruct pol; cbn [winner loser]; tauto.
    - destruct (is_record u && is_record t) eqn:R.
      + apply andb_true_iff in R. destruct R as [R1 R2]. assert (B' : priority_merge_into pol t u = Some w) by (destruct u; try discriminate; destruct t; try discriminate; exact B).
        pose proof (proj1 (Forall_forall _ _) IH _ (find_field_in _ _ _ F2)) as IHt; cbn [snd] in IHt; destruct (IHt u w Dt Du B') as (X & _ & Y). now split.
      + assert (W : w = winner pol u t) by (unfold cl in B; destruct pol; destruct u; try discriminate; destruct t; try discriminate; now injection B as <-). subst w.
        split; [destruct pol; assumption|]. intros p x. split; [intros X; now left|]. intros [X|[X1 X2] ]; [exact X|]. exfalso.
        assert (RW : is_record (winner pol u t) = true \/ is_record (winner pol u t) = false) by (destruct (is_record (winner pol u t)); auto). destruct RW as [RW|RW]; [|exact (open_leaf _ _ RW X2)].
        assert (RL : is_record (loser pol u t) = false). { destruct pol; cbn [winner loser] in *; rewrite RW in R; [exact R|rewrite andb_true_r in R; exact R]. }
        destruct p as [|c p]; [exact (open_nil _ X2)|]. destruct X1 as [X1 _]. cbn [at_path] in X1. destruct (loser pol u t); discriminate. }
  split; [|split; [reflexivity|] ].
  - apply distinct_fields. split; [exact NO|]. apply Forall_forall. intros [k v] Hv. cbn [snd]. apply (in_find_field _ _ _ NO) in Hv. specialize (L k).
    destruct (find_field k fs) as [u|] eqn:F1; destruct (find_field k fs0) as [t|] eqn:F2.
    + destruct L as (w & B & L). rewrite L in Hv. injection Hv as ->. exact (proj1 (BB _ _ _ _ F1 F2 B)).
    + rewrite L in Hv. injection Hv as ->. exact (field_distinct _ _ _ _ DL F1).
    + rewrite L in Hv. injection Hv as ->. exact (field_distinct _ _ _ _ DR F2).
    + rewrite L in Hv. discriminate.
  - intros [|k p] x.
    { split; [intros X; exfalso; now apply leaf_nil in X|]. intros [X|[_ X] ]; exfalso; [|exact (open_nil _ X)]. destruct pol; now apply leaf_nil in X. }
    specialize (L k). destruct pol; cbn [winner loser] in *; rewrite !leaf_cons, open_cons.
    all: destruct (find_field k fs) as [u|] eqn:F1; destruct (find_field k fs0) as [t|] eqn:F2.
    all: try (destruct L as (w & B & L); rewrite L; pose proof (proj2 (BB _ _ _ _ F1 F2 B) p x) as Q; split;
      [intros (v & E & X); injection E as <-; apply Q in X; destruct X as [X|[X Y] ]; [left; eexists; split; [reflexivity|exact X]|right; split; [eexists; split; [reflexivity|exact X]|right; eexists; split; [reflexivity|exact Y] ] ]
      |intros [(v & E & X)|((v & E & X) & [Y|(v' & E' & Y)])]; [injection E as <-; eexists; split; [reflexivity|]; apply Q; now left|discriminate|injection E as <-; injection E' as <-; eexists; split; [reflexivity|]; apply Q; right; now split] ]).
    all: rewrite L; cbn [find_field]; split; intros X.
    all: try (now left). all: try (destruct X as [X|[(v & E & X) Y] ]; [exact X|discriminate]).
    all: try (right; split; [exact X|now left]).
    all: try (destruct X as [(v & E & X)|[X Y] ]; [discriminate|exact X]).
    all: try (destruct X as (v & E & X); discriminate).
Qed.

(** ** Removing a field *)

Lemma remove_other : forall rec fs p rest, ~ In p (map fst fs) -> remove_loop rec fs (p :: rest) = Some fs.
Proof.
  induction fs as [|[n t] fs IH]; intros p rest H; [reflexivity|]. cbn [remove_loop]. rewrite eqb_other by (intros ->; apply H; now left). rewrite IH; [reflexivity|]. intros X. apply H. now right.
Qed.
(** [q] starts with [p]. *)
Definition begins (p q : list text) : Prop := exists r, q = p ++ r.
Fixpoint clear (t : ty) (path : list text) : Prop :=
  match path, t with
  | n :: rest, TRecord _ fs => match rest with
                               | [] => True
                               | n2 :: _ => ~ In n2 (map fst fs) /\ match find_field n fs with Some u => is_record u = true /\ clear u rest | None => True end
                               end
  | _, _ => False
  end.
Lemma remove_split : forall fs n t, find_field n fs = Some t -> exists a b, fs = a ++ (n, t) :: b /\ ~ In n (map fst a).
Proof.
  induction fs as [|[k u] fs IH]; intros n t H; [discriminate|]. cbn [find_field] in H. destruct (bytes_eqb k n) eqn:E.
  - apply bytes_eqb_spec in E. injection H as ->. subst k. exists [], fs. split; [reflexivity|intros []].
  - destruct (IH n t H) as (a & b & -> & N). exists ((k, u) :: a), b. split; [reflexivity|]. cbn [map fst]. intros [X|X]; [subst; now rewrite eqb_same in E|contradiction].
Qed.
Lemma remove_before : forall rec a fs p rest, ~ In p (map fst a) -> remove_loop rec (a ++ fs) (p :: rest) = option_map (app a) (remove_loop rec fs (p :: rest)).
Proof.
  induction a as [|[n t] a IH]; intros fs p rest H; [cbn [app]; now destruct (remove_loop rec fs (p :: rest))|]. cbn [app remove_loop]. rewrite eqb_other by (intros ->; apply H; now left).
  rewrite IH by (intros X; apply H; now right). now destruct (remove_loop rec fs (p :: rest)).
Qed.
Lemma find_before : forall (a fs : list field) n, ~ In n (map fst a) -> find_field n (a ++ fs) = find_field n fs.
Proof. induction a as [|[k t] a IH]; intros fs n H; [reflexivity|]. cbn [app find_field]. rewrite eqb_other by (intros ->; apply H; now left). apply IH. intros X. apply H. now right. Qed.
Lemma find_middle : forall (a b : list field) n t k, k <> n -> find_field k (a ++ (n, t) :: b) = find_field k (a ++ b).
Proof. induction a as [|[c u] a IH]; intros b n t k H; [cbn [app find_field]; rewrite eqb_other by congruence; reflexivity|]. cbn [app find_field]. destruct (bytes_eqb c k); [reflexivity|]. now apply IH. Qed.
Lemma find_change : forall (a b : list field) n t u k, k <> n -> find_field k (a ++ (n, t) :: b) = find_field k (a ++ (n, u) :: b).
Proof. intros. now rewrite !find_middle. Qed.
Lemma begins_cons : forall n p k q, begins (n :: p) (k :: q) <-> n = k /\ begins p q.
Proof. intros n p k q. split; [intros (r & E); injection E as -> ->; split; [reflexivity|now exists r]|intros [-> (r & ->)]; now exists r]. Qed.
Lemma begins_nil : forall p, begins [] p. Proof. intros p. now exists p. Qed.

Lemma remove_leaves : forall path t, distinct t -> clear t path -> exists m fs, remove_path t path = Some (TRecord m fs) /\ distinct (TRecord m fs) /\
  (forall p x, leaf (TRecord m fs) p x <-> leaf t p x /\ ~ begins path p).
Proof.
  induction path as [|n rest IH]; intros t D C; [contradiction|]. destruct t as [| | | | | |m fs|]; try contradiction. cbn [clear] in C. cbn [remove_path].
  pose proof (proj1 (distinct_fields _ _) D) as [ND FD].
  destruct (find_field n fs) as [t|] eqn:F.
  - destruct (remove_split _ _ _ F) as (a & b & -> & NA). rewrite remove_before by exact NA. cbn [remove_loop]. rewrite eqb_same.
    rewrite map_app in ND. cbn [map fst] in ND. pose proof (NoDup_remove_2 _ _ _ ND) as NN. pose proof (NoDup_remove_1 _ _ _ ND) as ND'. rewrite in_app_iff in NN.
    apply Forall_app in FD. destruct FD as [FA FB]. inversion FB as [|? ? Ft FB']; subst. cbn [snd] in Ft.
    assert (DD : distinct (TRecord m (a ++ b))). { apply distinct_fields. split; [now rewrite map_app|]. apply Forall_app. now split. }
    assert (GONE : find_field n (a ++ b) = None). { apply find_none_iff. rewrite map_app, in_app_iff. exact NN. }
    assert (HERE : find_field n (a ++ (n, t) :: b) = Some t). { rewrite find_before by exact NA. cbn [find_field]. now rewrite eqb_same. }
    assert (DROP : (forall p x, leaf t p x -> begins rest p) -> forall p x, leaf (TRecord m (a ++ b)) p x <-> leaf (TRecord m (a ++ (n, t) :: b)) p x /\ ~ begins (n :: rest) p).
    { intros ALL [|k p] x; [split; [intros X; exfalso; now apply leaf_nil in X|intros [X _]; exfalso; now apply leaf_nil in X]|]. rewrite !leaf_cons, begins_cons. split.
      - intros (u & Hu & X). assert (k <> n) by (intros ->; congruence). rewrite find_middle by assumption. split; [now exists u|]. intros [E _]. congruence.
      - intros [(u & Hu & X) N]. assert (k <> n). { intros ->. rewrite HERE in Hu. injection Hu as <-. apply N. split; [reflexivity|]. exact (ALL p x X). }
        rewrite find_middle in Hu by assumption. now exists u. }
    destruct rest as [|n2 rest].
    + rewrite remove_other by (intros X; apply NN; now right). cbn [option_map]. exists m, (a ++ b). split; [reflexivity|]. split; [exact DD|]. apply DROP. intros p x _. apply begins_nil.
    + destruct C as (N2 & RT & CT). rewrite map_app in N2. cbn [map fst] in N2. rewrite in_app_iff in N2.
      destruct (IH t Ft CT) as (mt & ft & E & Dt & L). destruct t as [| | | | | |m1 fs1|]; try discriminate. rewrite E. rewrite remove_other by (intros X; apply N2; right; now right). cbn [option_map].
      destruct ft as [|g ft].
      * exists m, (a ++ b). split; [reflexivity|]. split; [exact DD|]. apply DROP. intros p x X.
        destruct (Bool.bool_dec (forallb (fun i => match nth_error (n2 :: rest) i, nth_error p i with Some y, Some z => bytes_eqb y z | _, _ => false end) (seq 0 (length (n2 :: rest)))) true) as [Q|Q].
        -- clear - Q. revert p Q. generalize (n2 :: rest). intros l. induction l as [|y l IHl]; intros p Q; [apply begins_nil|]. cbn [length seq forallb] in Q. apply andb_true_iff in Q. destruct Q as [Q1 Q2]. destruct p as [|z p]; [discriminate|]. cbn [nth_error] in Q1. apply bytes_eqb_spec in Q1. subst z.
           apply begins_cons. split; [reflexivity|]. apply IHl. rewrite <- seq_shift, forallb_forall in Q2. apply forallb_forall. intros i Hi. apply (Q2 (S i)). now apply in_map.
        -- exfalso. assert (B : leaf (TRecord mt []) p x). { apply L. split; [exact X|]. intros (r & ->). apply Q. apply forallb_forall. intros i Hi. apply in_seq in Hi. rewrite nth_error_app1 by lia. destruct (nth_error (n2 :: rest) i) as [y|] eqn:Y; [apply eqb_same|]. apply nth_error_None in Y. lia. }
           destruct p as [|c p]; [now apply leaf_nil in B|]. rewrite leaf_cons in B. destruct B as (u & U & _). discriminate.
      * exists m, (a ++ (n, TRecord mt (g :: ft)) :: b). split; [reflexivity|]. split.
        -- apply distinct_fields. split; [now rewrite map_app|]. apply Forall_app. split; [exact FA|]. constructor; [exact Dt|exact FB'].
        -- intros [|k p] x; [split; [intros X; exfalso; now apply leaf_nil in X|intros [X _]; exfalso; now apply leaf_nil in X]|]. rewrite !leaf_cons, begins_cons.
           destruct (bytes_eqb k n) eqn:KN.
           ++ apply bytes_eqb_spec in KN. subst k. rewrite HERE. rewrite find_before by exact NA. cbn [find_field]. rewrite eqb_same. split.
              ** intros (u & Hu & X). injection Hu as <-. apply L in X. destruct X as [X Y]. split; [now exists (TRecord m1 fs1)|]. intros [_ Z]. contradiction.
              ** intros [(u & Hu & X) Y]. injection Hu as <-. eexists. split; [reflexivity|]. apply L. split; [exact X|]. intros Z. apply Y. now split.
           ++ assert (k <> n) by (intros ->; now rewrite eqb_same in KN). rewrite (find_change a b n (TRecord mt (g :: ft)) (TRecord m1 fs1)) by assumption. split; [intros X; split; [exact X|intros [-> _]; congruence]|intros [X _]; exact X].
  - rewrite remove_other by now apply find_none_iff. cbn [option_map]. exists m, fs. split; [reflexivity|]. split; [exact D|]. intros [|k p] x; [split; [intros X; exfalso; now apply leaf_nil in X|intros [X _]; exact X]|].
    rewrite !leaf_cons, begins_cons. split; [|intros [X _]; exact X]. intros X. split; [exact X|]. intros [<- _]. destruct X as (u & U & _). congruence.
Qed.

(** ** Type expressions *)

Lemma sum_leaves : forall ops acc r, distinct acc -> Forall (fun o => fst o = chars "+" /\ distinct (snd o)) ops -> algebra acc ops = Done r ->
  distinct r /\ forall p x, leaf r p x <-> leaf acc p x \/ exists o, In o ops /\ leaf (snd o) p x.
Proof.
  induction ops as [|[op rhs] ops IH]; intros acc r D F H.
  - injection H as <-. split; [exact D|]. intros p x. split; [intros X; now left|intros [X|(o & [] & _)]; exact X].
  - inversion F as [|? ? [E1 E2] F']; subst. cbn [fst snd] in *. subst op. cbn [algebra] in H. destruct rhs as [| | | | | |m gs|]; try discriminate. rewrite eqb_same in H. unfold merge in H.
    destruct (merge_into (TRecord m gs) acc) as [acc'|] eqn:M; [|discriminate]. destruct (merge_leaves _ _ _ E2 D M) as (D' & L). destruct (IH _ _ D' F' H) as (D2 & L2). split; [exact D2|].
    intros p x. rewrite L2, L. split.
    + intros [ [X|X]|(o & O & X)]; [now left|right; exists (chars "+", TRecord m gs); split; [now left|exact X]|right; exists o; split; [now right|exact X] ].
    + intros [X|(o & [<-|O] & X)]; [left; now left|left; now right|right; now exists o].
Qed.
Lemma with_name_leaf : forall m fs n p x, leaf (with_name (TRecord m fs) n) p x <-> leaf (TRecord m fs) p x.
Proof. intros m fs n [|k p] x; [split; intros X; exfalso; now apply leaf_nil in X|]. cbn [with_name]. now rewrite !leaf_cons. Qed.
Lemma finish_done : forall m k base ops t, has_attribute m algebra_key = true -> finish_record m ((k, base) :: ops) = Done t ->
  exists acc, algebra base ops = Done acc /\ is_record acc = true /\ ty_name t = m_name m /\ (forall p x, leaf t p x <-> leaf acc p x) /\ is_record base = true /\ ops <> [].
Proof.
  intros m k base ops t A H. unfold finish_record in H. rewrite A in H. destruct ops as [|o ops]; [discriminate|]. destruct base as [| | | | | |mb fb|]; try discriminate.
  destruct (algebra (TRecord mb fb) (o :: ops)) as [acc| |] eqn:E; cbn [andthen] in H; try discriminate. destruct acc as [| | | | | |ma fa|]; try discriminate. destruct fa as [|f fa]; [discriminate|].
  destruct (existsb _ _); [discriminate|]. injection H as <-. exists (TRecord ma (f :: fa)). split; [reflexivity|]. split; [reflexivity|]. split; [reflexivity|]. split; [|split; [reflexivity|discriminate] ]. intros p x. apply with_name_leaf.
Qed.
Lemma merge_fields : forall rec clash gs fs out, NoDup (map fst gs) -> NoDup (map fst fs) -> merge_loop rec clash gs fs [] = Some out -> (out = [] <-> fs = [] /\ gs = []).
Proof.
  intros rec clash gs fs out NG NF M. pose proof (level_some _ _ _ _ _ _ NG (no_added _) (no_added _) M) as L. split.
  - intros ->. split.
    + destruct fs as [|[k u] fs]; [reflexivity|]. specialize (L k). cbn [find_field] in L. rewrite eqb_same in L. destruct (find_field k gs); [destruct L as (v & _ & L)|]; discriminate.
    + destruct gs as [|[k u] gs]; [reflexivity|]. specialize (L k). cbn [find_field] in L. rewrite eqb_same in L. destruct (find_field k fs); [destruct L as (v & _ & L)|]; discriminate.
  - intros [-> ->]. cbn in M. now injection M as <-.
Qed.
Definition no_fields (t : ty) : Prop := match t with TRecord _ [] => True | _ => False end.
Lemma finish_next : forall m k base op rhs next, has_attribute m algebra_key = true -> is_record base = true -> algebra base [(op, rhs)] = Done next -> is_record next = true ->
  (finish_record m [(k, base); (op, rhs)] = Fail <-> no_fields next).
Proof.
  intros m k base op rhs next A B E R. unfold finish_record. rewrite A. destruct base; try discriminate. rewrite E. cbn [andthen]. destruct next as [| | | | | |mn fn|]; try discriminate. cbn [no_fields].
  destruct fn as [|f fn]; [tauto|]. destruct (existsb _ _); split; (discriminate || intros []).
Qed.
Lemma finish_fails : forall m k base op rhs, has_attribute m algebra_key = true -> is_record base = true -> algebra base [(op, rhs)] = Fail -> finish_record m [(k, base); (op, rhs)] = Fail.
Proof. intros m k base op rhs A B E. unfold finish_record. rewrite A. destruct base; try discriminate. now rewrite E. Qed.
