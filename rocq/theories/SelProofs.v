(** Bitmaps that select the values of a column satisfying a predicate; rows
    without a value may have any bit. *)
From Coq Require Import List ZArith NArith Lia Bool ZifyBool ZifyNat ZifyN.
From Verif Require Import WordProofs OperatorModel BitmapOps CoderModel CoderProofs ValueIndexModel ValueIndexProofs.
Import ListNotations.
Open Scope N_scope.

Section Sel.
  Context {B : Type} (ops : bitmap_ops B) (content : B -> list bool).
  Context (laws : bitmap_laws ops content) {V : Type}.
  Variable (off : nat) (vals : list (option V)).
  Notation bit := (bit content).
  Notation len := (len content).

  (** Selection where bits after the end count as zero. *)
  Definition wsel (r : B) (f : V -> bool) : Prop :=
    (len r <= off)%nat /\ forall p v, nth_error vals p = Some (Some v) -> bit r p = f v.
  (** Selection that covers all values. *)
  Definition sel (r : B) (f : V -> bool) : Prop :=
    (len r <= off)%nat /\ forall p v, nth_error vals p = Some (Some v) -> (p < len r)%nat /\ bit r p = f v.

  Lemma sel_wsel : forall r f, sel r f -> wsel r f.
  Proof. intros r f [L H]. split; auto. intros p v E. now apply H. Qed.

  Lemma sel_ext : forall r f g, (forall v, In (Some v) vals -> f v = g v) -> sel r f -> sel r g.
  Proof. intros r f g E [L H]. split; auto. intros p v Q. destruct (H p v Q). split; auto. rewrite <- E; auto. eapply nth_error_In; eauto. Qed.
  Lemma wsel_ext : forall r f g, (forall v, In (Some v) vals -> f v = g v) -> wsel r f -> wsel r g.
  Proof. intros r f g E [L H]. split; auto. intros p v Q. rewrite <- E; [now apply H|]. eapply nth_error_In; eauto. Qed.

  Lemma sel_and : forall r s f g, sel r f -> sel s g -> sel (b_and ops r s) (fun v => f v && g v).
  Proof.
    intros r s f g [L H] [L' H']. split; [rewrite (len_and _ _ laws); lia|]. intros p v E.
    destruct (H p v E) as [Q1 Q2], (H' p v E) as [Q3 Q4]. rewrite (len_and _ _ laws), (bit_and _ _ laws), Q2, Q4. split; [lia|auto].
  Qed.
  Lemma sel_or : forall r s f g, wsel r f -> sel s g -> sel (b_or ops r s) (fun v => f v || g v).
  Proof.
    intros r s f g [L H] [L' H']. split; [rewrite (len_or _ _ laws); lia|]. intros p v E.
    destruct (H' p v E) as [Q3 Q4]. rewrite (len_or _ _ laws), (bit_or _ _ laws), (H p v E), Q4. split; [lia|auto].
  Qed.
  Lemma wsel_or : forall r s f g, wsel r f -> wsel s g -> wsel (b_or ops r s) (fun v => f v || g v).
  Proof.
    intros r s f g [L H] [L' H']. split; [rewrite (len_or _ _ laws); lia|]. intros p v E.
    now rewrite (bit_or _ _ laws), (H p v E), (H' p v E).
  Qed.
  Lemma wsel_and : forall r s f g, wsel r f -> wsel s g -> wsel (b_and ops r s) (fun v => f v && g v).
  Proof.
    intros r s f g [L H] [L' H']. split; [rewrite (len_and _ _ laws); lia|]. intros p v E.
    now rewrite (bit_and _ _ laws), (H p v E), (H' p v E).
  Qed.
  Lemma sel_not : forall r f, sel r f -> sel (b_not ops r) (fun v => negb (f v)).
  Proof.
    intros r f [L H]. split; [rewrite (len_not _ _ laws); lia|]. intros p v E. destruct (H p v E) as [Q1 Q2].
    rewrite (len_not _ _ laws), (bit_not _ _ laws), Q2. split; auto. now replace (p <? len r)%nat with true by lia.
  Qed.
  Lemma sel_new : forall b, (length vals <= off)%nat -> sel (b_new ops (N.of_nat off) b) (fun _ => b).
  Proof.
    intros b L. split; [rewrite (len_new _ _ laws); lia|]. intros p v E.
    assert (p < length vals)%nat by (apply nth_error_Some; congruence).
    rewrite (len_new _ _ laws), (bit_new _ _ laws). replace (p <? N.to_nat (N.of_nat off))%nat with true by lia. split; [lia|auto].
  Qed.
  Lemma wsel_empty : wsel (b_empty ops) (fun _ => false).
  Proof.
    assert (E : content (b_empty ops) = []) by apply (law_empty _ _ laws).
    unfold wsel, BitmapOps.len, BitmapOps.bit. rewrite E. split; [cbn; lia|]. intros p v _. now destruct p.
  Qed.

  (** A bitmap holding a function of the rows. *)
  Lemma sel_content : forall r (f : option V -> bool), (length vals <= off)%nat -> content r = map f vals -> sel r (fun v => f (Some v)).
  Proof.
    intros r f L C. unfold sel, BitmapOps.len, BitmapOps.bit. rewrite C, map_length. split; auto. intros p v E.
    assert (p < length vals)%nat by (apply nth_error_Some; congruence). split; auto.
    rewrite (nth_map_default _ _ _ _ None) by auto. now rewrite (nth_error_nth _ _ _ E).
  Qed.

  Lemma all_false_sel : forall r f, sel r f -> b_all ops false r = true -> forall v, In (Some v) vals -> f v = false.
  Proof.
    intros r f [L H] A v I. apply In_nth_error in I as (p & E). destruct (H p v E) as [Q1 <-].
    rewrite (law_all _ _ laws) in A. unfold BitmapOps.len in Q1. destruct (content r) as [|y l] eqn:C; [cbn in Q1; lia|].
    rewrite <- C in *. rewrite forallb_forall in A. specialize (A (nth p (content r) false) (nth_In _ _ Q1)).
    unfold BitmapOps.bit. destruct (nth p (content r) false); auto.
  Qed.
End Sel.
Arguments sel {B} content {V}.
Arguments wsel {B} content {V}.

(** A lookup whose implementation selects rows of this column. *)
Lemma lookup_sel_spec : forall {B S V X} (ops : bitmap_ops B) content, bitmap_laws ops content ->
  forall (impl : index_impl B S V X) I i (col : list (cell V)) op x (f : V -> bool), VInv content I i col ->
  (forall vals, I (vi_state i) vals -> (length vals <= length col)%nat -> (forall v, In (Some v) vals -> In (Val v) col) ->
     exists r, i_lookup impl (vi_state i) (N.of_nat (length col)) op x = Some r /\ wsel content (length col) vals r f) ->
  exists r, vi_lookup ops impl i op (Some x) = Some r /\ content r = map (cell_result op f) col.
Proof.
  intros B S V X ops content laws impl I i col op x f J A. pose proof J as (_ & _ & _ & vals & j & IV & EV).
  destruct (A vals IV ltac:(rewrite <- (map_length value_of col), <- EV, app_length; lia)) as (r & E & L & F).
  { intros v H. assert (Q : In (Some v) (map value_of col)) by (rewrite <- EV; apply in_app_iff; now left).
    apply in_map_iff in Q as ([| |w] & Q & Hw); try discriminate. now injection Q as ->. }
  cbn [vi_lookup]. rewrite (offset_spec ops content laws I i col J), E. eexists. split; [reflexivity|].
  apply (finish_spec ops content laws I); auto. intros p v H. apply F. eapply vals_nth; eauto.
Qed.
