(** Proofs about sorted sets (SetOpsModel.v). *)
From Coq Require Import List NArith Lia Bool Sorted.
From Verif Require Import SetOpsModel.
Import ListNotations.
Open Scope N_scope.

(** Sorted without duplicates. *)
Definition ascending (xs : list N) : Prop := StronglySorted N.lt xs.

Lemma ascending_inv : forall x xs, ascending (x :: xs) -> ascending xs /\ Forall (N.lt x) xs.
Proof. intros x xs H. now inversion H. Qed.
Lemma ascending_cons : forall x xs, ascending xs -> Forall (N.lt x) xs -> ascending (x :: xs).
Proof. intros. now constructor. Qed.
Lemma above_not_in : forall x xs, Forall (N.lt x) xs -> ~ In x xs.
Proof. intros x xs H I. rewrite Forall_forall in H. specialize (H x I). lia. Qed.
Lemma below_all : forall x y ys, x < y -> Forall (N.lt y) ys -> Forall (N.lt x) (y :: ys).
Proof. intros x y ys L H. constructor; [exact L|]. eapply Forall_impl; [|exact H]. cbv beta. intros; lia. Qed.

Lemma intersect_in : forall xs ys z, ascending xs -> ascending ys -> (In z (intersect xs ys) <-> In z xs /\ In z ys).
Proof.
  induction xs as [|x xs IHx]; intros ys z Hx Hy; [destruct ys; cbn; tauto|].
  apply ascending_inv in Hx as [Hx Fx]. induction ys as [|y ys IHy]; [cbn; tauto|].
  pose proof (ascending_inv _ _ Hy) as [Hy' Fy]. cbn [intersect].
  destruct (N.ltb_spec x y) as [L|L].
  - rewrite IHx by assumption. pose proof (above_not_in x (y :: ys) (below_all _ _ _ L Fy)) as N.
    cbn [In] in *. split; [tauto|]. intros [ [-> |H1] H2]; [now apply N in H2|auto].
  - destruct (N.ltb_spec y x) as [L'|L'].
    + specialize (IHy Hy'). cbn [intersect] in IHy. rewrite IHy. pose proof (above_not_in y (x :: xs) (below_all _ _ _ L' Fx)) as N.
      cbn [In] in *. split; [tauto|]. intros [H1 [-> |H2]]; [now apply N in H1|auto].
    + assert (x = y) as -> by lia. cbn [In]. rewrite IHx by assumption. split; [tauto|].
      intros [ [-> |H1] [H2|H2] ]; auto.
Qed.
Lemma intersect_above : forall xs ys a, Forall (N.lt a) xs -> Forall (N.lt a) (intersect xs ys).
Proof.
  induction xs as [|x xs IHx]; intros ys a H; [destruct ys; constructor|]. inversion H; subst.
  induction ys as [|y ys IHy]; [constructor|]. cbn [intersect]. destruct (x <? y); [now apply IHx|]. destruct (y <? x); [exact IHy|].
  constructor; [assumption|now apply IHx].
Qed.
Lemma intersect_ascending : forall xs ys, ascending xs -> ascending (intersect xs ys).
Proof.
  induction xs as [|x xs IHx]; intros ys H; [destruct ys; constructor|]. apply ascending_inv in H as [H F].
  induction ys as [|y ys IHy]; [constructor|]. cbn [intersect]. destruct (x <? y); [now apply IHx|]. destruct (y <? x); [exact IHy|].
  apply ascending_cons; [now apply IHx|]. now apply intersect_above.
Qed.
Lemma intersect_from_eq : forall xs ys kept, intersect_from kept xs ys = kept ++ intersect xs ys.
Proof.
  induction xs as [|x xs IHx]; intros ys kept; [destruct ys; cbn; now rewrite app_nil_r|].
  induction ys as [|y ys IHy]; [cbn; now rewrite app_nil_r|]. cbn [intersect intersect_from] in *.
  destruct (x <? y); [apply IHx|]. destruct (y <? x); [exact IHy|]. rewrite IHx, <- app_assoc. reflexivity.
Qed.
Lemma inplace_intersect_eq : forall xs ys, inplace_intersect xs ys = intersect xs ys.
Proof. intros. apply intersect_from_eq. Qed.

Lemma unify_in : forall xs ys z, In z (unify xs ys) <-> In z xs \/ In z ys.
Proof.
  induction xs as [|x xs IHx]; intros ys z; [destruct ys; cbn; tauto|].
  induction ys as [|y ys IHy]; [cbn; tauto|]. cbn [unify]. destruct (N.ltb_spec x y) as [L|L].
  - cbn [In]. rewrite IHx. cbn [In]. tauto.
  - destruct (N.ltb_spec y x) as [L'|L'].
    + cbn [In]. cbn [unify] in IHy. rewrite IHy. cbn [In]. tauto.
    + assert (x = y) as -> by lia. cbn [In]. rewrite IHx. tauto.
Qed.
Lemma unify_above : forall xs ys a, Forall (N.lt a) xs -> Forall (N.lt a) ys -> Forall (N.lt a) (unify xs ys).
Proof. intros xs ys a Hx Hy. rewrite Forall_forall in *. intros z Hz. apply unify_in in Hz as [Hz|Hz]; auto. Qed.
Lemma unify_ascending : forall xs ys, ascending xs -> ascending ys -> ascending (unify xs ys).
Proof.
  induction xs as [|x xs IHx]; intros ys Hx Hy; [destruct ys; assumption|]. pose proof (ascending_inv _ _ Hx) as [Hx' Fx].
  induction ys as [|y ys IHy]; [exact Hx|]. pose proof (ascending_inv _ _ Hy) as [Hy' Fy]. cbn [unify].
  destruct (N.ltb_spec x y) as [L|L].
  - apply ascending_cons; [now apply IHx|]. apply unify_above; [assumption|]. now apply below_all.
  - destruct (N.ltb_spec y x) as [L'|L'].
    + specialize (IHy Hy'). apply ascending_cons; [exact IHy|]. change (Forall (N.lt y) (unify (x :: xs) ys)).
      apply unify_above; [now apply below_all|assumption].
    + assert (x = y) as -> by lia. apply ascending_cons; [now apply IHx|]. now apply unify_above.
Qed.

(** Sorted, possibly with duplicates. *)
Definition sorted (xs : list N) : Prop := StronglySorted N.le xs.
Lemma ascending_sorted : forall xs, ascending xs -> sorted xs.
Proof.
  induction 1 as [|x xs H IH F]; constructor; [exact IH|]. eapply Forall_impl; [|exact F]. cbv beta. intros; lia.
Qed.
Lemma merge_in : forall xs ys z, In z (merge xs ys) <-> In z xs \/ In z ys.
Proof.
  induction xs as [|x xs IHx]; intros ys z; [destruct ys; cbn; tauto|].
  induction ys as [|y ys IHy]; [cbn; tauto|]. cbn [merge]. destruct (N.ltb_spec y x) as [L|L].
  - cbn [In]. cbn [merge] in IHy. rewrite IHy. cbn [In]. tauto.
  - cbn [In]. rewrite IHx. cbn [In]. tauto.
Qed.
Lemma merge_sorted : forall xs ys, sorted xs -> sorted ys -> sorted (merge xs ys).
Proof.
  induction xs as [|x xs IHx]; intros ys Hx Hy; [destruct ys; assumption|]. inversion Hx as [|? ? Hx' Fx]; subst.
  induction ys as [|y ys IHy]; [exact Hx|]. inversion Hy as [|? ? Hy' Fy]; subst. cbn [merge].
  destruct (N.ltb_spec y x) as [L|L].
  - constructor; [now apply IHy|]. change (Forall (N.le y) (merge (x :: xs) ys)). apply Forall_forall. intros z Hz.
    apply merge_in in Hz. rewrite Forall_forall in Fx, Fy. cbn [In] in Hz. destruct Hz as [ [<-|Hz]|Hz]; [lia| |auto].
    specialize (Fx z Hz). lia.
  - constructor; [now apply IHx|]. apply Forall_forall. intros z Hz. apply merge_in in Hz.
    rewrite Forall_forall in Fx, Fy. cbn [In] in Hz. destruct Hz as [Hz|[<-|Hz]]; [auto|exact L|]. specialize (Fy z Hz). lia.
Qed.
Lemma unique_after_in : forall ys x z, In z (x :: unique_after x ys) <-> In z (x :: ys).
Proof.
  induction ys as [|y ys IH]; intros x z; [reflexivity|]. cbn [unique_after]. destruct (N.eqb_spec x y) as [->|D].
  - rewrite IH. cbn [In]. tauto.
  - cbn [In] in *. specialize (IH y z). tauto.
Qed.
Lemma unique_in : forall xs z, In z (unique xs) <-> In z xs.
Proof. intros [|x xs] z; [reflexivity|]. apply unique_after_in. Qed.
Lemma unique_after_ascending : forall ys x, sorted (x :: ys) -> ascending (x :: unique_after x ys).
Proof.
  induction ys as [|y ys IH]; intros x H; [repeat constructor|]. inversion H as [|? ? H1 F]; subst. inversion F; subst.
  cbn [unique_after]. destruct (N.eqb_spec x y) as [->|D]; [now apply IH|].
  pose proof (IH y H1) as A. apply ascending_cons; [exact A|].
  apply Forall_forall. intros z Hz. apply (unique_after_in ys y z) in Hz. inversion H1 as [|? ? _ F1]; subst.
  rewrite Forall_forall in F1. destruct Hz as [<-|Hz]; [lia|]. specialize (F1 z Hz). lia.
Qed.
Lemma unique_ascending : forall xs, sorted xs -> ascending (unique xs).
Proof. intros [|x xs] H; [constructor|]. now apply unique_after_ascending. Qed.

Lemma ascending_ext : forall xs ys, ascending xs -> ascending ys -> (forall z, In z xs <-> In z ys) -> xs = ys.
Proof.
  induction xs as [|x xs IH]; intros [|y ys] Hx Hy E; [reflexivity| | |].
  - destruct (proj2 (E y) (or_introl eq_refl)).
  - destruct (proj1 (E x) (or_introl eq_refl)).
  - apply ascending_inv in Hx as [Hx Fx]. apply ascending_inv in Hy as [Hy Fy]. rewrite Forall_forall in Fx, Fy.
    assert (x = y) as ->.
    { destruct (proj1 (E x) (or_introl eq_refl)) as [ <- |H1]; [reflexivity|]. destruct (proj2 (E y) (or_introl eq_refl)) as [ -> |H2]; [reflexivity|].
      specialize (Fx y H2). specialize (Fy x H1). lia. }
    f_equal. apply IH; auto. intros z. specialize (E z). cbn [In] in E. split; intros Hz.
    + destruct (proj1 E (or_intror Hz)) as [<-|H]; [specialize (Fx y Hz); lia|exact H].
    + destruct (proj2 E (or_intror Hz)) as [<-|H]; [specialize (Fy y Hz); lia|exact H].
Qed.
Lemma inplace_unify_in : forall xs ys z, In z (inplace_unify xs ys) <-> In z xs \/ In z ys.
Proof. intros. unfold inplace_unify. rewrite unique_in. apply merge_in. Qed.
Lemma inplace_unify_ascending : forall xs ys, ascending xs -> ascending ys -> ascending (inplace_unify xs ys).
Proof. intros. apply unique_ascending, merge_sorted; now apply ascending_sorted. Qed.
