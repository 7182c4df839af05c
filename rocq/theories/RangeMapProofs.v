From Coq Require Import List ZArith NArith Lia Bool ZifyBool ZifyNat ZifyN.
From Verif Require Import RangeMapModel.
Import ListNotations.
Open Scope N_scope.

Section Proofs.
Context {V : Type}.
Notation entry := (entry V).
Notation rmap := (rmap V).

(** ** Specification: a partial function on points *)

Definition maps (m : rmap) (p : N) (v : V) : Prop :=
  exists e, In e m /\ eleft e <= p /\ p < eright e /\ evalue e = v.

Definition overlaps (m : rmap) (l r : N) : Prop :=
  exists p v, maps m p v /\ l <= p /\ p < r.

(** Intervals are non-empty, sorted and pairwise disjoint. *)
Fixpoint wf (m : rmap) : Prop :=
  match m with
  | [] => True
  | e :: m' => eleft e < eright e /\ (forall x, In x m' -> eright e <= eleft x) /\ wf m'
  end.

Lemma wf_app : forall a b, wf (a ++ b) <->
  wf a /\ wf b /\ (forall x y, In x a -> In y b -> eright x <= eleft y).
Proof.
  induction a as [|e a IH]; intros b; cbn [app wf].
  - split; [|tauto]. intro H. repeat split; auto. intros x y [].
  - rewrite IH. split.
    + intros (H1 & H2 & H3 & H4 & H5). repeat split; auto.
      * intros x Hx. apply H2. apply in_or_app; auto.
      * intros x y [<-|Hx] Hy; auto. apply H2. apply in_or_app; auto.
    + intros ((H1 & H2 & H3) & H4 & H5). repeat split; auto.
      * intros x Hx. apply in_app_or in Hx as [Hx|Hx]; auto.
        apply H5; auto. now left.
      * intros x y Hx Hy. apply H5; auto. now right.
Qed.

Lemma wf_lt : forall m e, wf m -> In e m -> eleft e < eright e.
Proof.
  induction m; intros e H []; cbn in H; subst; intuition.
Qed.

Lemma wf_value_unique : forall m p v w, wf m -> maps m p v -> maps m p w -> v = w.
Proof.
  induction m as [|e m IH]; intros p v w H (x & Hx & A) (y & Hy & B); [destruct Hx|].
  cbn in H. destruct H as (H1 & H2 & H3).
  destruct Hx as [<-|Hx], Hy as [<-|Hy].
  - intuition congruence.
  - specialize (H2 _ Hy). lia.
  - specialize (H2 _ Hx). lia.
  - apply (IH p); auto; [exists x|exists y]; auto.
Qed.

(** ** lower_bound *)

Lemma lower_bound_go_spec : forall m acc p b s,
  lower_bound_go acc m p = (b, s) ->
  rev acc ++ m = rev b ++ s /\
  (Forall (fun e : entry => eleft e < p) acc -> Forall (fun e : entry => eleft e < p) b) /\
  match s with [] => True | e :: _ => p <= eleft e end.
Proof.
  induction m as [|e m IH]; intros acc p b s H; cbn in H.
  - inversion H; subst. auto.
  - destruct (N.ltb_spec (eleft e) p).
    + apply IH in H as (A & B & C). cbn in A. rewrite <- app_assoc in A. auto.
    + inversion H; subst. auto.
Qed.

Lemma lower_bound_spec : forall m p b s,
  lower_bound m p = (b, s) ->
  m = rev b ++ s /\ Forall (fun e : entry => eleft e < p) b /\
  match s with [] => True | e :: _ => p <= eleft e end.
Proof.
  intros m p b s H. apply lower_bound_go_spec in H as (A & B & C). cbn in A. auto.
Qed.

Lemma wf_suffix_ge : forall e s (p : N), wf (e :: s) -> p <= eleft e ->
  forall x, In x (e :: s) -> p <= eleft x.
Proof.
  intros e s p (H1 & H2 & H3) Hp x [<-|Hx]; auto. specialize (H2 _ Hx). lia.
Qed.

Ltac inv H := inversion H; clear H; subst.

Ltac inlists :=
  repeat match goal with
  | H : In _ (_ ++ _) |- _ => apply in_app_or in H as [H|H]
  | H : In _ (_ :: _) |- _ => destruct H as [H|H]; [subst|]
  | H : In _ [] |- _ => destruct H
  | H : In _ (rev _) |- _ => apply in_rev in H
  end.

Lemma locate_some : forall m p e, wf m -> locate p (lower_bound m p) = Some e ->
  In e m /\ eleft e <= p /\ p < eright e.
Proof.
  intros m p e W H. destruct (lower_bound m p) as [b s] eqn:L.
  apply lower_bound_spec in L as (M & F & S). cbn in H.
  assert (B : forall x b', b = x :: b' -> (if p <? eright x then Some x else None) = Some e ->
     In e m /\ eleft e <= p /\ p < eright e).
  { intros x b' -> G. destruct (N.ltb_spec p (eright x)); inv G.
    inv F. repeat split; auto; try lia.
    apply in_or_app. left. apply -> in_rev. now left. }
  assert (C : forall y s', s = y :: s' -> p = eleft y -> Some y = Some e ->
     In e m /\ eleft e <= p /\ p < eright e).
  { intros y s' -> Hp G. inv G.
    assert (I : In e (rev b ++ e :: s')) by (apply in_or_app; right; now left).
    pose proof (wf_lt _ _ W I). repeat split; auto; lia. }
  destruct b as [|x b'], s as [|y s]; try discriminate.
  - destruct (N.eqb_spec p (eleft y)); [eapply C; eauto|discriminate].
  - eapply B; eauto.
  - destruct (N.eqb_spec p (eleft y)); [eapply C; eauto|eapply B; eauto].
Qed.

Lemma locate_none : forall m p, wf m -> locate p (lower_bound m p) = None ->
  forall e, In e m -> eleft e <= p -> eright e <= p.
Proof.
  intros m p W H e He Hl. destruct (lower_bound m p) as [b s] eqn:L.
  apply lower_bound_spec in L as (M & F & S). cbn in H.
  subst m. apply wf_app in W as (W1 & W2 & W3).
  assert (B : forall x b', b = x :: b' -> (if p <? eright x then Some x else None) = None ->
     In e b -> eright e <= p).
  { intros x b' -> G I. destruct (N.ltb_spec p (eright x)); [discriminate|].
    cbn in W1. apply wf_app in W1 as (_ & _ & W1).
    destruct I as [<-|I]; auto.
    assert (eright e <= eleft x). { apply W1; [now apply -> in_rev|now left]. }
    inv F. lia. }
  apply in_app_or in He as [He|He].
  - apply in_rev in He. destruct b as [|x b']; [destruct He|].
    destruct s as [|y s].
    + eapply B; eauto.
    + destruct (N.eqb_spec p (eleft y)); [discriminate|]. eapply B; eauto.
  - destruct s as [|y s]; [destruct He|].
    assert (p <> eleft y).
    { intros ->. rewrite N.eqb_refl in H. destruct b; discriminate. }
    destruct He as [<-|He]; [lia|]. cbn in W2. destruct W2 as (A1 & A2 & A3).
    specialize (A2 _ He). lia.
Qed.

Lemma lookup_spec : forall m p v, wf m -> (lookup m p = Some v <-> maps m p v).
Proof.
  intros m p v W. unfold lookup.
  destruct (locate p (lower_bound m p)) as [e|] eqn:L; cbn.
  - apply locate_some in L as (A & B & C); auto. split.
    + intro H. inv H. exists e. auto.
    + intro H. f_equal. eapply wf_value_unique; eauto. exists e. auto.
  - split; [discriminate|]. intros (e & A & B & C & D).
    pose proof (locate_none _ _ W L _ A B). lia.
Qed.

Lemma find_spec : forall m p l r v, wf m ->
  (find m p = Some (l, r, v) <-> (In (E l r v) m /\ l <= p /\ p < r)).
Proof.
  intros m p l r v W. unfold find.
  destruct (locate p (lower_bound m p)) as [e|] eqn:L; cbn.
  - pose proof L as L'. apply locate_some in L as (A & B & C); auto. split.
    + intro H. inv H. destruct e; auto.
    + intros (I & H1 & H2). f_equal.
      assert (e = E l r v); [|subst; reflexivity].
      clear L'. induction m as [|x m IH]; [destruct A|].
      cbn in W. destruct W as (W1 & W2 & W3).
      destruct A as [<-|A], I as [I|I]; auto.
      * apply W2 in I. cbn in *. lia.
      * subst x. apply W2 in A. cbn in *. lia.
  - split; [discriminate|]. intros (A & B & C).
    pose proof (locate_none _ _ W L _ A B). cbn in *. lia.
Qed.

(** ** Map operations on split lists *)

Lemma emplace_mid : forall (a b : rmap) (e : entry),
  (forall x, In x a -> eleft x < eleft e) -> (forall x, In x b -> eleft e < eleft x) ->
  map_emplace e (a ++ b) = a ++ e :: b.
Proof.
  induction a as [|x a IH]; intros b e Ha Hb; cbn.
  - destruct b as [|y b]; auto. cbn. specialize (Hb y (or_introl eq_refl)).
    now assert (eleft e <? eleft y = true) as -> by lia.
  - specialize (Ha x (or_introl eq_refl)) as Hx.
    assert (eleft e <? eleft x = false) as -> by lia.
    assert (eleft e =? eleft x = false) as -> by lia.
    f_equal. apply IH; auto. intros. apply Ha. now right.
Qed.

Lemma erase_none : forall (a : rmap) k, (forall x, In x a -> eleft x <> k) -> map_erase k a = a.
Proof.
  induction a as [|x a IH]; intros k H; cbn; auto.
  specialize (H x (or_introl eq_refl)) as Hx.
  assert (eleft x =? k = false) as -> by lia. cbn. f_equal. apply IH.
  intros. apply H. now right.
Qed.

Lemma erase_mid : forall (a b : rmap) (i : entry),
  (forall x, In x a -> eleft x <> eleft i) -> (forall x, In x b -> eleft x <> eleft i) ->
  map_erase (eleft i) (a ++ i :: b) = a ++ b.
Proof.
  intros. unfold map_erase. rewrite filter_app. cbn. rewrite N.eqb_refl. cbn.
  f_equal; apply erase_none; auto.
Qed.

Lemma set_right_none : forall (a : rmap) k r, (forall x, In x a -> eleft x <> k) -> set_right k r a = a.
Proof.
  induction a as [|x a IH]; intros k r H; cbn; auto.
  specialize (H x (or_introl eq_refl)) as Hx.
  assert (eleft x =? k = false) as -> by lia. f_equal. apply IH.
  intros. apply H. now right.
Qed.

Lemma set_right_mid : forall (a b : rmap) (i : entry) r,
  (forall x, In x a -> eleft x <> eleft i) -> (forall x, In x b -> eleft x <> eleft i) ->
  set_right (eleft i) r (a ++ i :: b) = a ++ E (eleft i) r (evalue i) :: b.
Proof.
  intros. unfold set_right. rewrite map_app. cbn. rewrite N.eqb_refl.
  f_equal; [|f_equal]; apply set_right_none; auto.
Qed.

(** ** insert *)

Definition add_spec (m m' : rmap) (l r : N) (v : V) : Prop :=
  wf m' /\ forall p w, maps m' p w <-> maps m p w \/ (l <= p /\ p < r /\ w = v).

Lemma maps_app : forall (a b : rmap) p v, maps (a ++ b) p v <-> maps a p v \/ maps b p v.
Proof.
  intros. split.
  - intros (e & H & R). apply in_app_or in H as [H|H]; [left|right]; exists e; auto.
  - intros [(e & H & R)|(e & H & R)]; exists e; split; auto; apply in_or_app; auto.
Qed.

Lemma maps_cons : forall e (b : rmap) p v,
  maps (e :: b) p v <-> (eleft e <= p /\ p < eright e /\ evalue e = v) \/ maps b p v.
Proof.
  intros. split.
  - intros (x & [<-|H] & R); [left; auto|right; exists x; auto].
  - intros [R|(x & H & R)]; [exists e|exists x]; split; auto; [now left|now right].
Qed.

Lemma maps_nil : forall p v, maps [] p v <-> False.
Proof. intros. split; [intros (e & [] & _)|tauto]. Qed.

Lemma add_mid : forall a b l r v, l < r -> wf (a ++ b) ->
  (forall x, In x a -> eright x <= l) -> (forall x, In x b -> r <= eleft x) ->
  add_spec (a ++ b) (a ++ E l r v :: b) l r v.
Proof.
  intros a b l r v Hlr W Ha Hb. split.
  - apply wf_app in W as (W1 & W2 & W3). apply wf_app. repeat split; auto.
    intros x y Hx [<-|Hy]; auto.
  - intros p w. rewrite !maps_app, maps_cons. cbn. intuition congruence.
Qed.

Lemma emplace_add : forall a b l r v, l < r -> wf (a ++ b) ->
  (forall x, In x a -> eright x <= l) -> (forall x, In x b -> r <= eleft x) ->
  add_spec (a ++ b) (map_emplace (E l r v) (a ++ b)) l r v.
Proof.
  intros a b l r v Hlr W Ha Hb. rewrite emplace_mid.
  - apply add_mid; auto.
  - intros x Hx. specialize (Ha _ Hx). cbn.
    assert (eleft x < eright x) by (eapply wf_lt; eauto; apply in_or_app; auto). lia.
  - intros x Hx. specialize (Hb _ Hx). cbn. lia.
Qed.

Lemma insert_spec : forall m l r v, wf m -> l < r ->
  let '(m', ok) := insert l r v m in
  (ok = true -> ~ overlaps m l r /\ add_spec m m' l r v) /\
  (ok = false -> overlaps m l r /\ m' = m).
Proof.
  intros m l r v W Hlr. unfold insert.
  destruct (locate l (lower_bound m l)) as [e|] eqn:L.
  - split; [discriminate|]. intros _. split; auto.
    apply locate_some in L as (A & B & C); auto.
    exists l, (evalue e). split; [|lia]. exists e. auto.
  - pose proof (locate_none _ _ W L) as N0.
    destruct (lower_bound m l) as [b s] eqn:LB.
    apply lower_bound_spec in LB as (M & F & S). cbn [snd].
    assert (Hb : forall x, In x (rev b) -> eright x <= l).
    { intros x Hx. apply N0.
      - subst m. apply in_or_app; auto.
      - apply in_rev in Hx. rewrite Forall_forall in F. apply F in Hx. lia. }
    assert (OK : (forall x, In x s -> r <= eleft x) ->
      (true = true -> ~ overlaps m l r /\ add_spec m (map_emplace (E l r v) m) l r v) /\
      (true = false -> overlaps m l r /\ map_emplace (E l r v) m = m)).
    { intro Hs. split; [|discriminate]. intros _. split.
      - intros (p & w & (e & I & P1 & P2 & P3) & Q1 & Q2). subst m.
        apply in_app_or in I as [I|I]; [apply Hb in I|apply Hs in I]; lia.
      - subst m. apply emplace_add; auto. }
    destruct s as [|e s].
    + apply OK. intros x [].
    + destruct (N.leb_spec r (eleft e)).
      * apply OK. intros x Hx. subst m. apply wf_app in W as (_ & W & _).
        eapply wf_suffix_ge; eauto.
      * split; [discriminate|]. intros _. split; auto.
        assert (I : In e m) by (subst m; apply in_or_app; right; now left).
        pose proof (wf_lt _ _ W I).
        exists (eleft e), (evalue e). split; [|lia]. exists e. repeat split; auto; lia.
Qed.

(** ** inject *)

Definition ol {A} (o : option A) : list A := match o with Some x => [x] | None => [] end.

Lemma hd_split : forall {A} (s : list A), exists t, s = ol (hd_error s) ++ t /\ (hd_error s = None -> t = []).
Proof. destruct s as [|x s]; cbn; [exists []|exists s]; split; auto; discriminate. Qed.

Lemma neighbours_spec : forall l (m : rmap) p i n,
  neighbours l m = Some (p, i, n) ->
  exists a b, m = a ++ ol p ++ i :: ol n ++ b /\ (p = None -> a = []) /\ (n = None -> b = []) /\
    (* position: either l is at or before i and i is first or equal, or i is before l *)
    ((l = eleft i) \/ (p = None /\ l <= eleft i) \/
     (eleft i < l /\ match n with Some n => l < eleft n | None => True end)).
Proof.
  intros l m p i n H. unfold neighbours in H.
  destruct (lower_bound m l) as [b s] eqn:LB.
  apply lower_bound_spec in LB as (M & F & S).
  destruct s as [|e s].
  - destruct b as [|x b']; [discriminate|]. inv H.
    destruct (hd_split b') as (t & E1 & E2).
    exists (rev t), []. cbn. repeat split; auto.
    + rewrite E1 at 1. rewrite rev_app_distr, !app_nil_r, <- app_assoc.
      destruct (hd_error b'); reflexivity.
    + intro HN. rewrite E2; auto.
    + right; right. inv F. auto.
  - destruct b as [|x b'].
    + inv H. destruct (hd_split s) as (t & E1 & E2).
      exists [], t. cbn. repeat split; auto.
      rewrite E1 at 1. reflexivity.
    + destruct (N.eqb_spec l (eleft e)).
      * inv H. destruct (hd_split s) as (t & E1 & E2).
        exists (rev b'), t. cbn. repeat split; auto; try discriminate.
        rewrite E1 at 1. now rewrite <- app_assoc.
      * inv H. destruct (hd_split b') as (t & E1 & E2).
        exists (rev t), s. cbn. repeat split; auto; try discriminate.
        -- rewrite E1 at 1. rewrite rev_app_distr, <- !app_assoc.
           destruct (hd_error b'); reflexivity.
        -- intro HN. rewrite E2; auto.
        -- right; right. inv F. split; auto. lia.
Qed.

Lemma wf_keys : forall (a b : rmap) (i : entry), wf (a ++ i :: b) ->
  (forall x, In x a -> eright x <= eleft i /\ eleft x <> eleft i) /\
  (forall x, In x b -> eright i <= eleft x /\ eleft x <> eleft i).
Proof.
  intros a b i W. apply wf_app in W as (W1 & W2 & W3). cbn in W2. destruct W2 as (A & B & C).
  split; intros x Hx.
  - assert (eright x <= eleft i) by (apply W3; [auto|now left]).
    pose proof (wf_lt _ _ W1 Hx). split; lia.
  - specialize (B _ Hx). split; auto. lia.
Qed.

(** The two ways of extending an interval. *)
Lemma extend_right : forall (a b : rmap) (i : entry) r, wf (a ++ i :: b) -> eright i < r ->
  (forall x, In x b -> r <= eleft x) ->
  add_spec (a ++ i :: b) (set_right (eleft i) r (a ++ i :: b)) (eright i) r (evalue i).
Proof.
  intros a b i r W Hr Hb. pose proof (wf_keys _ _ _ W) as [K1 K2].
  rewrite set_right_mid by (intros x Hx; first [apply K1 in Hx|apply K2 in Hx]; tauto).
  apply wf_app in W as (W1 & W2 & W3). cbn in W2. destruct W2 as (A & B & C). split.
  - apply wf_app. cbn. repeat split; auto; try lia.
    intros x y Hx [<-|Hy]; cbn; [apply K1 in Hx; lia|]. apply W3; auto. now right.
  - intros p w. rewrite !maps_app, !maps_cons. cbn. split.
    + intros [H|[H|H]]; auto. destruct (N.ltb_spec p (eright i)); intuition.
    + intros [[H|[H|H]]|H]; auto; right; left; destruct H as (? & ? & ?); subst; repeat split; auto; lia.
Qed.

Lemma extend_left : forall (a b : rmap) (i : entry) l, wf (a ++ i :: b) -> l < eleft i ->
  (forall x, In x a -> eright x <= l) ->
  add_spec (a ++ i :: b)
    (map_erase (eleft i) (map_emplace (E l (eright i) (evalue i)) (a ++ i :: b)))
    l (eleft i) (evalue i).
Proof.
  intros a b i l W Hl Ha. pose proof (wf_keys _ _ _ W) as [K1 K2].
  pose proof W as W'. apply wf_app in W as (W1 & W2 & W3). cbn in W2. destruct W2 as (A & B & C).
  rewrite emplace_mid.
  2:{ intros x Hx. pose proof (wf_lt _ _ W1 Hx). apply Ha in Hx. cbn. lia. }
  2:{ intros x [<-|Hx]; cbn; [lia|]. apply B in Hx. lia. }
  replace (a ++ E l (eright i) (evalue i) :: i :: b)
    with ((a ++ [E l (eright i) (evalue i)]) ++ i :: b) by (rewrite <- app_assoc; reflexivity).
  rewrite erase_mid.
  2:{ intros x Hx. apply in_app_or in Hx as [Hx|[<-|[]]]; [apply K1 in Hx; tauto|cbn; lia]. }
  2:{ intros x Hx. apply K2 in Hx. tauto. }
  rewrite <- app_assoc. cbn [app]. split.
  - apply wf_app. cbn. repeat split; auto; try lia.
    intros x y Hx [<-|Hy]; cbn; [apply Ha in Hx; lia|]. apply W3; auto. now right.
  - intros p w. rewrite !maps_app, !maps_cons. cbn. split.
    + intros [H|[H|H]]; auto. destruct (N.ltb_spec p (eleft i)); intuition.
    + intros [[H|[H|H]]|H]; auto; right; left; destruct H as (? & ? & ?); subst; repeat split; auto; lia.
Qed.

Lemma bridge : forall (a b : rmap) (p i : entry), wf (a ++ p :: i :: b) -> eright p < eleft i ->
  evalue p = evalue i ->
  add_spec (a ++ p :: i :: b)
    (map_erase (eleft i) (set_right (eleft p) (eright i) (a ++ p :: i :: b)))
    (eright p) (eleft i) (evalue p).
Proof.
  intros a b p i W Hpi Hv. pose proof (wf_keys _ _ _ W) as [K1 K2].
  pose proof W as W'. apply wf_app in W as (W1 & W2 & W3). cbn in W2.
  destruct W2 as (A & B & C & D & F).
  rewrite set_right_mid by (intros x Hx; first [apply K1 in Hx|apply K2 in Hx]; tauto).
  replace (a ++ E (eleft p) (eright i) (evalue p) :: i :: b)
    with ((a ++ [E (eleft p) (eright i) (evalue p)]) ++ i :: b) by (rewrite <- app_assoc; reflexivity).
  rewrite erase_mid.
  2:{ intros x Hx. apply in_app_or in Hx as [Hx|[<-|[]]]; [|cbn; lia].
      pose proof (wf_lt _ _ W1 Hx). apply K1 in Hx. lia. }
  2:{ intros x Hx. apply D in Hx. lia. }
  rewrite <- app_assoc. cbn [app]. split.
  - apply wf_app. cbn. repeat split; auto; try lia.
    intros x y Hx [<-|Hy]; cbn; [apply K1 in Hx; lia|]. apply W3; auto. right; now right.
  - intros q w. rewrite !maps_app, !maps_cons. cbn. rewrite <- Hv. split.
    + intros [H|[H|H]]; auto.
      destruct (N.ltb_spec q (eright p)); [intuition|].
      destruct (N.ltb_spec q (eleft i)); intuition.
    + intros [[H|[H|[H|H]]]|H]; auto; right; left; destruct H as (? & ? & ?); subst; repeat split; auto; try congruence; lia.
Qed.

Lemma add_spec_ext : forall m m' l r v l' r' v',
  add_spec m m' l r v -> l = l' -> r = r' -> v = v' -> add_spec m m' l' r' v'.
Proof. intros; subst; auto. Qed.

Lemma not_overlap : forall (m : rmap) l r,
  (forall x, In x m -> eright x <= l \/ r <= eleft x) -> ~ overlaps m l r.
Proof.
  intros m l r H (p & v & (e & I & P) & Q). destruct (H _ I); lia.
Qed.

Lemma overlap_at : forall m e l r, wf m -> In e m -> l < r ->
  eleft e < r -> l < eright e -> overlaps m l r.
Proof.
  intros m e l r W I Hlr H1 H2. pose proof (wf_lt _ _ W I).
  exists (N.max l (eleft e)), (evalue e). split; [|lia].
  exists e. repeat split; auto; lia.
Qed.

(** ** erase *)

Lemma in_map_erase : forall k (m : rmap) x, In x (map_erase k m) <-> In x m /\ eleft x <> k.
Proof.
  intros. unfold map_erase. rewrite filter_In. rewrite negb_true_iff, N.eqb_neq. tauto.
Qed.

Lemma wf_filter : forall f (m : rmap), wf m -> wf (filter f m).
Proof.
  induction m as [|e m IH]; cbn; auto. intros (A & B & C). destruct (f e); auto.
  cbn. repeat split; auto. intros x Hx. apply filter_In in Hx as [Hx _]. auto.
Qed.

Lemma key_unique : forall m x y, wf m -> In x m -> In y m -> eleft x = eleft y -> x = y.
Proof.
  induction m as [|e m IH]; intros x y W Hx Hy E; [destruct Hx|].
  cbn in W. destruct W as (A & B & C). destruct Hx as [<-|Hx], Hy as [<-|Hy]; auto.
  - apply B in Hy. lia.
  - apply B in Hx. lia.
Qed.

Lemma erase_point_spec : forall m p, wf m ->
  let '(m', ok) := erase_point p m in
  wf m' /\
  (ok = true <-> exists v, maps m p v) /\
  (* exactly the interval containing [p] disappears *)
  forall q v, maps m' q v <->
    (maps m q v /\ ~ exists e, In e m /\ eleft e <= p /\ p < eright e /\ eleft e <= q /\ q < eright e).
Proof.
  intros m p W. unfold erase_point.
  destruct (locate p (lower_bound m p)) as [e|] eqn:L.
  - apply locate_some in L as (A & B & C); auto. split; [now apply wf_filter|]. split.
    + split; auto. intros _. exists (evalue e), e. auto.
    + intros q v. split.
      * intros (x & I & P1 & P2 & P3). apply in_map_erase in I as [I K]. split.
        -- exists x; auto.
        -- intros (y & Iy & Y1 & Y2 & Y3 & Y4).
           assert (y = e).
           { destruct (N.eq_dec (eleft y) (eleft e)) as [E0|E0]; [eapply key_unique; eauto|].
             exfalso. clear - W A Iy B C Y1 Y2 E0. induction m as [|z m IH]; [destruct A|].
             cbn in W. destruct W as (W1 & W2 & W3). destruct A as [->|A], Iy as [->|Iy]; auto.
             - apply W2 in Iy. lia. - apply W2 in A. lia. }
           subst y.
           assert (x = e); [|subst; auto].
           clear - W A I P1 P2 Y3 Y4. induction m as [|z m IH]; [destruct A|].
           cbn in W. destruct W as (W1 & W2 & W3). destruct A as [->|A], I as [->|I]; auto.
           ++ apply W2 in I. lia.
           ++ apply W2 in A. lia.
      * intros ((x & I & P1 & P2 & P3) & N0). exists x. repeat split; auto.
        apply in_map_erase. split; auto. intro K. apply N0.
        assert (x = e) by (eapply key_unique; eauto). subst x. exists e. repeat split; auto.
  - pose proof (locate_none _ _ W L) as N0. split; auto. split.
    + split; [discriminate|]. intros (v & e & I & P1 & P2 & P3). specialize (N0 _ I P1). lia.
    + intros q v. split; [|tauto]. intro H. split; auto.
      intros (e & I & P1 & P2 & _). specialize (N0 _ I P1). lia.
Qed.

Context (veq : V -> V -> bool).
Hypothesis veq_ok : forall x y, veq x y = true <-> x = y.

Lemma inject_spec : forall m l r v, wf m -> l < r ->
  let '(m', ok) := inject veq l r v m in
  (ok = true -> ~ overlaps m l r /\ add_spec m m' l r v) /\
  (ok = false -> overlaps m l r /\ m' = m).
Proof.
  intros m l r v W Hlr. unfold inject.
  destruct (neighbours l m) as [[[p i] n]|] eqn:Nb.
  2:{ split; [|discriminate]. intros _.
      assert (m = []).
      { unfold neighbours in Nb. destruct (lower_bound m l) as [b s] eqn:LB.
        apply lower_bound_spec in LB as (M & F & S).
        destruct s as [|? ?], b as [|? ?]; try discriminate; auto.
        destruct (_ =? _); discriminate. }
      subst m. split; [apply not_overlap; intros x []|].
      apply (emplace_add [] [] l r v); auto; intros x []. }
  apply neighbours_spec in Nb as (a & b & M & Pn & Nn & Pos).
  (* entries other than the neighbours *)
  set (FL := (r <=? eleft i) && (is_none p || opt_test (fun p => eright p <=? l) p)).
  set (FR := (eright i <=? l) && (is_none n || opt_test (fun n => r <=? eleft n) n)).
  assert (W' := W). rewrite M in W'.
  destruct FL eqn:EFL; subst FL.
  - split; [|discriminate]. intros _.
    apply andb_prop in EFL as [F1 F2]. apply N.leb_le in F1.
    assert (HA : forall x, In x (a ++ ol p) -> eright x <= l).
    { intros x Hx. destruct p as [p|]; cbn in *.
      - apply N.leb_le in F2. apply in_app_or in Hx as [Hx|[<-|[]]]; auto.
        apply wf_keys in W' as [K1 K2]. apply K1 in Hx.
        assert (eleft p < eright p) by (apply (wf_lt m); auto; subst m; apply in_or_app; right; now left).
        lia.
      - rewrite Pn in Hx by auto. destruct Hx. }
    assert (HB : forall x, In x (i :: ol n ++ b) -> r <= eleft x).
    { rewrite app_assoc in W'. apply wf_app in W' as (_ & W2 & _).
      eapply wf_suffix_ge; eauto. }
    assert (NO : ~ overlaps m l r).
    { apply not_overlap. intros x Hx. subst m. rewrite app_assoc in Hx.
      apply in_app_or in Hx as [Hx|Hx]; auto. }
    split; auto.
    destruct p as [p|]; cbn [opt_test ol] in *.
    + destruct (l =? eright p) eqn:E1; cbn [andb].
      * apply N.eqb_eq in E1. destruct (veq v (evalue p)) eqn:E2.
        -- apply veq_ok in E2. destruct (r =? eleft i) eqn:E3; cbn [andb].
           ++ apply N.eqb_eq in E3. destruct (veq v (evalue i)) eqn:E4.
              ** apply veq_ok in E4. rewrite M. cbn [app].
                 eapply add_spec_ext; [apply bridge| | |]; subst; auto.
              ** rewrite M. cbn [app].
                 eapply add_spec_ext; [apply extend_right| | |]; subst; auto; lia.
           ++ rewrite M. cbn [app].
              eapply add_spec_ext; [apply extend_right| | |]; subst; auto; lia.
        -- destruct (r =? eleft i) eqn:E3; cbn [andb].
           ++ apply N.eqb_eq in E3. destruct (veq v (evalue i)) eqn:E4.
              ** apply veq_ok in E4. rewrite M. rewrite app_assoc.
                 rewrite E4.
                 eapply add_spec_ext; [apply extend_left| | |]; rewrite <- ?app_assoc; subst; auto; lia.
              ** rewrite M. rewrite app_assoc. apply emplace_add; auto.
                 now rewrite <- app_assoc.
           ++ rewrite M. rewrite app_assoc. apply emplace_add; auto.
              now rewrite <- app_assoc.
      * destruct (r =? eleft i) eqn:E3; cbn [andb].
        -- apply N.eqb_eq in E3. destruct (veq v (evalue i)) eqn:E4.
           ** apply veq_ok in E4. rewrite M. rewrite app_assoc. rewrite E4.
              eapply add_spec_ext; [apply extend_left| | |]; rewrite <- ?app_assoc; subst; auto; lia.
           ** rewrite M. rewrite app_assoc. apply emplace_add; auto.
              now rewrite <- app_assoc.
        -- rewrite M. rewrite app_assoc. apply emplace_add; auto.
           now rewrite <- app_assoc.
    + rewrite Pn in * by auto. cbn [app] in *.
      destruct (r =? eleft i) eqn:E3; cbn [andb].
      * apply N.eqb_eq in E3. destruct (veq v (evalue i)) eqn:E4.
        -- apply veq_ok in E4. rewrite M, E4.
           eapply add_spec_ext; [apply (extend_left [])| | |]; subst; auto; try lia.
        -- rewrite M. apply (emplace_add []); auto; try (intros x []).
      * rewrite M. apply (emplace_add []); auto; try (intros x []).
  - destruct FR eqn:EFR; subst FR.
    + split; [|discriminate]. intros _.
      apply andb_prop in EFR as [F1 F2]. apply N.leb_le in F1.
      assert (HA : forall x, In x (a ++ ol p ++ [i]) -> eright x <= l).
      { intros x Hx. rewrite app_assoc in W', Hx. apply in_app_or in Hx as [Hx|[<-|[]]]; auto.
        pose proof (wf_lt m i W) as Li.
        assert (In i m) by (subst m; apply in_or_app; right; apply in_or_app; right; now left).
        apply wf_keys in W' as [K1 _]. apply K1 in Hx. intuition lia. }
      assert (HB : forall x, In x (ol n ++ b) -> r <= eleft x).
      { intros x Hx. destruct n as [n|]; cbn in *.
        - apply N.leb_le in F2. rewrite !app_assoc in W'. apply wf_app in W' as (_ & W2 & _).
          cbn in W2. destruct W2 as (_ & _ & W2). eapply wf_suffix_ge; eauto.
        - rewrite Nn in Hx by auto. destruct Hx. }
      assert (NO : ~ overlaps m l r).
      { apply not_overlap. intros x Hx. subst m.
        replace (a ++ ol p ++ i :: ol n ++ b) with ((a ++ ol p ++ [i]) ++ ol n ++ b) in Hx
          by (rewrite <- !app_assoc; reflexivity).
        apply in_app_or in Hx as [Hx|Hx]; auto. }
      split; auto.
      assert (MM : m = (a ++ ol p ++ [i]) ++ ol n ++ b) by (rewrite M, <- !app_assoc; reflexivity).
      assert (EMP : add_spec m (map_emplace (E l r v) m) l r v).
      { rewrite MM. apply emplace_add; auto. now rewrite <- MM. }
      assert (M2 : m = (a ++ ol p) ++ i :: ol n ++ b) by (rewrite M, <- app_assoc; reflexivity).
      assert (ER : l = eright i -> v = evalue i ->
        add_spec m (set_right (eleft i) r m) l r v).
      { intros -> ->. rewrite M2. apply extend_right; auto; try lia.
        now rewrite <- app_assoc. }
      destruct n as [n|]; cbn [opt_test ol app] in *.
      * destruct (r =? eleft n) eqn:E1; cbn [andb].
        -- apply N.eqb_eq in E1. destruct (veq v (evalue n)) eqn:E2.
           ++ apply veq_ok in E2. destruct (l =? eright i) eqn:E3; cbn [andb].
              ** apply N.eqb_eq in E3. destruct (veq v (evalue i)) eqn:E4.
                 --- apply veq_ok in E4. rewrite M2.
                     eapply add_spec_ext; [apply bridge| | |]; subst; auto; try congruence;
                       try lia; rewrite <- ?app_assoc; auto.
                 --- rewrite MM, E2.
                     eapply add_spec_ext; [apply extend_left; [rewrite <- MM; auto|lia|auto]| | |]; auto.
              ** rewrite MM, E2.
                 eapply add_spec_ext; [apply extend_left| | |]; auto; try lia.
                 now rewrite <- MM.
           ++ destruct (l =? eright i) eqn:E3; cbn [andb]; auto.
              apply N.eqb_eq in E3. destruct (veq v (evalue i)) eqn:E4; auto.
              apply veq_ok in E4. auto.
        -- destruct (l =? eright i) eqn:E3; cbn [andb]; auto.
           apply N.eqb_eq in E3. destruct (veq v (evalue i)) eqn:E4; auto.
           apply veq_ok in E4. auto.
      * destruct (l =? eright i) eqn:E3; cbn [andb]; auto.
        apply N.eqb_eq in E3. destruct (veq v (evalue i)) eqn:E4; auto.
        apply veq_ok in E4. auto.
    + split; [discriminate|]. intros _. split; auto.
      assert (Ii : In i m) by (subst m; apply in_or_app; right; apply in_or_app; right; now left).
      assert (In_ : forall x, n = Some x -> In x m).
      { intros x ->. subst m. apply in_or_app; right. apply in_or_app; right. right. now left. }
      assert (Ip : forall x, p = Some x -> In x m).
      { intros x ->. subst m. apply in_or_app; right. now left. }
      pose proof (wf_lt _ _ W Ii) as Li.
      destruct Pos as [P|[[P1 P2]|[P1 P2]]].
      * apply (overlap_at m i); auto; lia.
      * subst p. cbn in EFL. rewrite andb_true_r in EFL. apply N.leb_gt in EFL.
        apply (overlap_at m i); auto; lia.
      * destruct (N.ltb_spec l (eright i)).
        -- apply (overlap_at m i); auto; lia.
        -- assert (eright i <=? l = true) as Hr by lia. rewrite Hr in EFR. cbn [andb] in EFR.
           destruct n as [n|]; cbn in EFR; [|discriminate].
           apply N.leb_gt in EFR. 
           assert (In n m) by auto. pose proof (wf_lt _ _ W H0).
           apply (overlap_at m n); auto; lia.
Qed.

(** ** erase *)

Lemma erase_value_spec : forall m x, wf m ->
  wf (erase_value veq x m) /\
  forall q v, maps (erase_value veq x m) q v <-> (maps m q v /\ v <> x).
Proof.
  intros m x W. split; [now apply wf_filter|]. intros q v. split.
  - intros (e & I & P1 & P2 & P3). apply filter_In in I as [I K]. split; [exists e; auto|].
    intros ->. subst x. rewrite (proj2 (veq_ok _ _) eq_refl) in K. discriminate.
  - intros ((e & I & P1 & P2 & P3) & K). exists e. repeat split; auto.
    apply filter_In. split; auto. rewrite negb_true_iff.
    destruct (veq (evalue e) x) eqn:E0; auto. apply veq_ok in E0. congruence.
Qed.

(** ** erase(l, r) *)

Lemma split_eq : forall (P : entry -> Prop) a b c d,
  a ++ b = c ++ d -> (forall x, In x a -> P x) -> (forall x, In x c -> P x) ->
  (forall x, In x b -> ~ P x) -> (forall x, In x d -> ~ P x) -> b = d.
Proof.
  intros P. induction a as [|x a IH]; intros b c d H Ha Hc Hb Hd.
  - cbn in H. subst b. destruct c as [|y c]; auto. exfalso.
    apply (Hb y); [now left|]. apply Hc. now left.
  - destruct c as [|y c].
    + cbn in H. subst d. exfalso. apply (Hd x); [now left|]. apply Ha. now left.
    + cbn in H. inv H. apply (IH b c d); auto; intros; [apply Ha|apply Hc]; now right.
Qed.

Lemma erase_cursor : forall a b nl, wf (a ++ b) ->
  (forall x, In x a -> eright x <= nl) -> (forall x, In x b -> nl < eright x) ->
  match locate nl (lower_bound (a ++ b) nl) with
  | Some e => Some e
  | None => hd_error (snd (lower_bound (a ++ b) nl))
  end = hd_error b.
Proof.
  intros a b nl W Ha Hb.
  destruct (locate nl (lower_bound (a ++ b) nl)) as [e|] eqn:L.
  - apply locate_some in L as (A & B & C); auto.
    apply in_app_or in A as [A|A]; [apply Ha in A; lia|].
    apply wf_app in W as (_ & W & _). destruct b as [|h b]; [destruct A|].
    destruct A as [->|A]; auto. cbn in W. destruct W as (_ & W & _).
    apply W in A. specialize (Hb h (or_introl eq_refl)). lia.
  - pose proof (locate_none _ _ W L) as N0.
    destruct (lower_bound (a ++ b) nl) as [b' s] eqn:LB.
    apply lower_bound_spec in LB as (M & F & S). cbn [snd]. f_equal.
    pose proof W as W'. rewrite M in W'. apply wf_app in W' as (_ & W2 & _).
    apply (split_eq (fun x => eright x <= nl) (rev b') s a b); auto.
    + intros x Hx. apply N0.
      * rewrite M. apply in_or_app; auto.
      * apply in_rev in Hx. rewrite Forall_forall in F. apply F in Hx. lia.
    + intros x Hx. destruct s as [|h s]; [destruct Hx|].
      pose proof (wf_suffix_ge _ _ _ W2 S _ Hx).
      pose proof (wf_lt _ _ W2 Hx). lia.
    + intros x Hx. apply Hb in Hx. lia.
Qed.

Definition cut_spec (m m' : rmap) (l r : N) : Prop :=
  wf m' /\ forall p v, maps m' p v <-> maps m p v /\ (p < l \/ r <= p).

Lemma out_of : forall (a : rmap) p v lo, (forall x, In x a -> eright x <= lo) -> maps a p v -> p < lo.
Proof. intros a p v lo H (e & I & P). apply H in I. lia. Qed.
Lemma out_of' : forall (a : rmap) p v hi, (forall x, In x a -> hi <= eleft x) -> maps a p v -> hi <= p.
Proof. intros a p v hi H (e & I & P). apply H in I. lia. Qed.

Lemma erase_range_go_spec : forall b fuel a nl l r,
  (length b < fuel)%nat -> l <= r -> wf (a ++ b) ->
  (forall x, In x a -> eright x <= l) -> l <= nl -> (forall x, In x b -> nl < eright x) ->
  (forall x, In x b -> ~ (eleft x = l /\ r < eright x) /\ ~ (eleft x < l /\ eright x = r)) ->
  exists m', erase_range_go veq fuel nl l r (a ++ b) = Some m' /\ cut_spec (a ++ b) m' l r.
Proof.
  induction b as [|i b IH]; intros fuel a nl l r Hf Hlr W Ha Hnl Hb Hbad;
    (destruct fuel as [|f]; [cbn in Hf; lia|]); cbn [erase_range_go];
    rewrite erase_cursor by (auto; intros x Hx; apply Ha in Hx; lia); cbn [hd_error].
  - eexists; split; eauto. split; auto. intros p v. split; [|tauto]. intro H. split; auto.
    rewrite app_nil_r in H. left. eapply out_of; eauto.
  - pose proof (wf_keys _ _ _ W) as [K1 K2].
    assert (Li : eleft i < eright i) by (apply (wf_lt _ _ W); apply in_or_app; right; now left).
    assert (Lb : forall x, In x b -> eright i < eright x).
    { intros x Hx. assert (eleft x < eright x) by (apply (wf_lt _ _ W); apply in_or_app; right; now right).
      apply K2 in Hx. lia. }
    pose proof (Hb i (or_introl eq_refl)) as Hi.
    pose proof (Hbad i (or_introl eq_refl)) as [B1 B2].
    pose proof W as W'. apply wf_app in W' as (W1 & W2 & W3). cbn in W2. destruct W2 as (_ & W2 & W4).
    assert (Hk : forall x, In x (a ++ b) -> eleft x <> eleft i).
    { intros x Hx. apply in_app_or in Hx as [Hx|Hx]; [apply K1 in Hx|apply K2 in Hx]; tauto. }
    assert (WR : forall l', wf (a ++ E (eleft i) l' (evalue i) :: b) <-> 
       eleft i < l' /\ (forall x, In x b -> l' <= eleft x)).
    { intro l'. rewrite wf_app. cbn. split; [tauto|]. intros [X1 X2]. repeat split; auto.
      intros x y Hx [<-|Hy]; cbn; [apply K1 in Hx; tauto|]. apply W3; auto. now right. }
    destruct (N.leb_spec r (eleft i)).
    { eexists; split; eauto. split; auto. intros p v. split; [|tauto]. intro H0. split; auto.
      rewrite maps_app in H0. destruct H0 as [H0|H0].
      - left. eapply out_of; eauto.
      - right. eapply out_of'; [|eauto]. intros x [<-|Hx]; auto. apply K2 in Hx. lia. }
    destruct (N.leb_spec l (eleft i)), (N.leb_spec (eright i) r); cbn [andb].
    + (* contained *)
      rewrite erase_mid by (intros x Hx; apply Hk; apply in_or_app; auto).
      destruct (IH f a (eright i) l r) as (m' & -> & C1 & C2); auto; try lia.
      * cbn in Hf. lia.
      * apply wf_app. repeat split; auto. intros x y Hx Hy. apply W3; auto. now right.
      * intros x Hx. apply Hbad. now right.
      * eexists; split; eauto. split; auto. intros p v. rewrite C2, !maps_app, maps_cons.
        intuition lia.
    + (* l <= left < r < right *)
      assert (eleft i <> l) by lia.
      assert (eleft i <=? l = false) as -> by lia. cbn [andb].
      assert (eleft i <? r = true) as -> by lia.
      assert (XX : map_erase (eleft i) (map_emplace (E r (eright i) (evalue i)) (a ++ i :: b))
              = a ++ E r (eright i) (evalue i) :: b).
      { replace (a ++ i :: b) with ((a ++ [i]) ++ b) by (rewrite <- app_assoc; reflexivity).
        rewrite emplace_mid.
        - rewrite <- app_assoc. cbn [app]. rewrite erase_mid; auto.
          + intros x Hx. apply Hk. apply in_or_app; auto.
          + intros x [<-|Hx]; cbn; [lia|]. apply Hk. apply in_or_app; auto.
        - intros x Hx. apply in_app_or in Hx as [Hx|[<-|[]]]; cbn; [|lia].
          pose proof (wf_lt _ _ W1 Hx). apply Ha in Hx. lia.
        - intros x Hx. apply K2 in Hx. cbn. lia. }
      rewrite XX. eexists; split; eauto. split.
      * apply wf_app. cbn. repeat split; auto.
        intros x y Hx [<-|Hy]; cbn; [apply Ha in Hx; lia|]. apply W3; auto. now right.
      * intros p v. rewrite !maps_app, !maps_cons. cbn. split.
        -- intros [Q|[Q|Q]].
           ++ split; auto. left. eapply out_of; eauto.
           ++ split; [right; left; intuition lia|lia].
           ++ split; auto. right. eapply out_of'; [|eauto]. intros x Hx. apply K2 in Hx. lia.
        -- intros [[Q|[Q|Q]] O]; auto. right; left. intuition lia.
    + (* left < l, right <= r *)
      assert (eright i <> r) by lia.
      assert (eleft i <=? l = true) as -> by lia.
      assert (r <=? eright i = false) as -> by lia. cbn [andb].
      assert (l <? eright i = true) as -> by lia.
      rewrite set_right_mid by (intros x Hx; apply Hk; apply in_or_app; auto).
      replace (a ++ E (eleft i) l (evalue i) :: b)
        with ((a ++ [E (eleft i) l (evalue i)]) ++ b) by (rewrite <- app_assoc; reflexivity).
      destruct (IH f (a ++ [E (eleft i) l (evalue i)]) (eright i) l r) as (m' & -> & C1 & C2); auto; try lia.
      * cbn in Hf. lia.
      * rewrite <- app_assoc. cbn [app]. apply WR. split; auto.
        intros x Hx. apply K2 in Hx. lia.
      * intros x Hx. apply in_app_or in Hx as [Hx|[<-|[]]]; auto. cbn. lia.
      * intros x Hx. apply Hbad. now right.
      * eexists; split; [reflexivity|]. split; auto. intros p v. rewrite C2, <- app_assoc.
        cbn [app]. rewrite !maps_app, !maps_cons. cbn. split.
        -- intros [[Q|[Q|Q]] O]; auto. split; auto. right; left. intuition lia.
        -- intros [[Q|[Q|Q]] O]; auto. split; auto. right; left. intuition lia.
    + (* left < l <= r < right *)
      assert (eleft i <=? l = true) as -> by lia.
      assert (r <=? eright i = true) as -> by lia. cbn [andb].
      assert (r <? eright i = true) as -> by lia.
      rewrite set_right_mid by (intros x Hx; apply Hk; apply in_or_app; auto).
      assert (WW : wf (a ++ E (eleft i) l (evalue i) :: b)).
      { apply WR. split; auto. intros x Hx. apply K2 in Hx. lia. }
      assert (NO : ~ overlaps (a ++ E (eleft i) l (evalue i) :: b) r (eright i)).
      { apply not_overlap. intros x Hx. apply in_app_or in Hx as [Hx|[<-|Hx]]; cbn; [|lia|].
        - apply Ha in Hx. lia.
        - apply K2 in Hx. lia. }
      pose proof (inject_spec _ r (eright i) (evalue i) WW ltac:(lia)) as IS.
      destruct (inject veq r (eright i) (evalue i) (a ++ E (eleft i) l (evalue i) :: b)) as [m' ok].
      destruct IS as [IS1 IS2]. destruct ok; [|exfalso; apply NO; now apply IS2].
      destruct (IS1 eq_refl) as (_ & C1 & C2).
      eexists; split; eauto. cbn [fst]. split; auto. intros p v. rewrite C2, !maps_app, !maps_cons. cbn.
      split.
      * intros [[Q|[Q|Q]]|Q].
        -- split; auto. left. eapply out_of; eauto.
        -- split; [right; left; intuition lia|lia].
        -- split; auto. right. eapply out_of'; [|eauto]. intros x Hx. apply K2 in Hx. lia.
        -- destruct Q as (Q1 & Q2 & ->). split; [right; left; repeat split; auto; lia|lia].
      * intros [[Q|[Q|Q]] O]; auto. destruct O; [left; right; left; intuition lia|].
        right. intuition.
Qed.

Lemma split_at : forall m l, wf m -> exists a b, m = a ++ b /\
  (forall x, In x a -> eright x <= l) /\ (forall x, In x b -> l < eright x).
Proof.
  induction m as [|e m IH]; intros l W.
  - exists [], []. repeat split; intros x [].
  - cbn in W. destruct W as (A & B & C). destruct (N.leb_spec (eright e) l).
    + destruct (IH l C) as (a & b & -> & H1 & H2). exists (e :: a), b. repeat split; auto.
      intros x [<-|Hx]; auto.
    + exists [], (e :: m). split; [reflexivity|]. split; [intros x []|].
      intros x [<-|Hx]; auto. pose proof (wf_lt _ _ C Hx). apply B in Hx. lia.
Qed.

Lemma erase_range_spec : forall m l r, wf m -> l <= r ->
  (forall x, In x m -> l < eright x ->
     ~ (eleft x = l /\ r < eright x) /\ ~ (eleft x < l /\ eright x = r)) ->
  exists m', erase_range veq l r m = Some m' /\ cut_spec m m' l r.
Proof.
  intros m l r W Hlr Hbad. unfold erase_range. assert (r <? l = false) as -> by lia.
  destruct (split_at m l W) as (a & b & -> & H1 & H2).
  apply erase_range_go_spec; auto; try lia.
  - rewrite app_length. lia.
  - intros x Hx. apply Hbad; auto. apply in_or_app; auto.
Qed.

End Proofs.
