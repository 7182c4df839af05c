(** The bitmap interface that coders and indexes are written against, and its
    instance for EWAH bitmaps.

    coder.hpp and the value indexes are templates over a bitmap type that offers
    the operations of [bitmap_base] (libvast/vast/bitmap_base.hpp). The models of
    those templates are functions over a record of operations; their theorems
    assume the laws below, which are proved here for the EWAH model, so nothing
    remains assumed for the default bitmap. *)
From Coq Require Import List ZArith NArith Lia Bool Permutation ZifyBool ZifyNat ZifyN.
From Verif Require Import NBits WordModel WordProofs EwahModel EwahProofs BitmapAlgoModel
  BitmapAlgoProofs BitmapSelectProofs PropsEwah PropsBitmapOps.
Import ListNotations.
Open Scope N_scope.

(** * Interface *)

Record bitmap_ops (B : Type) := {
  b_empty : B;                       (** default constructor *)
  b_size : B -> N;                   (** [size] *)
  b_app : B -> bool -> N -> B;       (** [append_bits] *)
  b_append : B -> B -> B;            (** [append] of a whole bitmap *)
  b_not : B -> B;                    (** [flip], [operator~] (bitmap_base.hpp:131-135) *)
  b_and : B -> B -> B;               (** [operator&], [operator&=] *)
  b_or : B -> B -> B;                (** [operator|], [operator|=] *)
  b_xor : B -> B -> B;               (** [operator^], [operator^=] *)
  b_diff : B -> B -> B;              (** [operator-], [operator-=] *)
  b_nary_or : list B -> B;           (** [nary_or] (bitmap_algorithms.hpp:139-176,218-221) *)
  b_all : bool -> B -> bool          (** [all<Bit>] (bitmap_algorithms.hpp:597-602) *)
}.
Arguments b_empty {B}. Arguments b_size {B}. Arguments b_app {B}. Arguments b_append {B}.
Arguments b_not {B}. Arguments b_and {B}. Arguments b_or {B}. Arguments b_xor {B}.
Arguments b_diff {B}. Arguments b_nary_or {B}. Arguments b_all {B}.

(** The constructor [Bitmap(n, bit)]. *)
Definition b_new {B} (ops : bitmap_ops B) (n : N) (bit : bool) : B := b_app ops (b_empty ops) bit n.

(** * Laws: operations on the logical bit sequence *)

Record bitmap_laws {B} (ops : bitmap_ops B) (content : B -> list bool) : Prop := {
  law_empty : content (b_empty ops) = [];
  law_size : forall x, b_size ops x = N.of_nat (length (content x));
  law_app : forall x b n, content (b_app ops x b n) = content x ++ repeat b (N.to_nat n);
  law_append : forall x y, content (b_append ops x y) = content x ++ content y;
  law_not : forall x, content (b_not ops x) = map negb (content x);
  law_and : forall x y, content (b_and ops x y) = pointwise andb (content x) (content y);
  law_or : forall x y, content (b_or ops x y) = pointwise orb (content x) (content y);
  law_xor : forall x y, content (b_xor ops x y) = pointwise xorb (content x) (content y);
  law_diff : forall x y, content (b_diff ops x y) = pointwise (fun p q => p && negb q) (content x) (content y);
  law_nary_or : forall xs, content (b_nary_or ops xs) = across (existsb (fun b => b)) (map content xs);
  law_all : forall b x, b_all ops b x = match content x with [] => false | l => forallb (Bool.eqb b) l end
}.

(** * The reference instance: plain lists *)

Definition list_ops : bitmap_ops (list bool) := {|
  b_empty := [];
  b_size := fun l => N.of_nat (length l);
  b_app := fun l b n => l ++ repeat b (N.to_nat n);
  b_append := fun x y => x ++ y;
  b_not := map negb;
  b_and := pointwise andb;
  b_or := pointwise orb;
  b_xor := pointwise xorb;
  b_diff := pointwise (fun p q => p && negb q);
  b_nary_or := across (existsb (fun b => b));
  b_all := fun b l => match l with [] => false | l => forallb (Bool.eqb b) l end
|}.

Lemma list_laws : bitmap_laws list_ops (fun l => l).
Proof. constructor; intros; try reflexivity; cbn [list_ops b_nary_or b_all]; try (now rewrite map_id). all: destruct x; reflexivity. Qed.

(** * The EWAH instance *)

Definition econtent (e : ewah) : list bool :=
  match bit_range e with Some bs => flat_map blist bs | None => [] end.

Lemma econtent_rel : forall e l, rel e l -> econtent e = l.
Proof. intros e l R. unfold econtent. now destruct (range_rel e l R) as (bs & -> & _ & <-). Qed.

(** EWAH bitmaps in a reachable state. *)
Definition ebm : Type := { e : ewah | rel e (econtent e) }.

Definition ebm_content (x : ebm) : list bool := econtent (proj1_sig x).

Lemma rel_self : forall e l, rel e l -> rel e (econtent e).
Proof. intros e l R. now rewrite (econtent_rel e l R). Qed.

Definition mk_ebm (e : ewah) (l : list bool) (R : rel e l) : ebm :=
  exist (fun e => rel e (econtent e)) e (rel_self e l R).

Definition some_or (d : ewah) (o : option ewah) : ewah := match o with Some e => e | None => d end.

Lemma some_or_rel : forall d o l, (exists e, o = Some e /\ rel e l) -> rel (some_or d o) l.
Proof. intros d o l (e & -> & R). exact R. Qed.

Lemma lift_app_rel : forall (x : ebm) b n,
  rel (some_or (proj1_sig x) (append_bits b n (proj1_sig x))) (ebm_content x ++ repeat b (N.to_nat n)).
Proof.
  intros [e R] b n. apply some_or_rel. destruct (append_bits_rel b n e _ R) as (e' & E & R' & _). eauto.
Qed.
Definition ebm_app (x : ebm) (b : bool) (n : N) : ebm := mk_ebm _ _ (lift_app_rel x b n).

Lemma lift_append_rel : forall x y : ebm,
  rel (some_or (proj1_sig x) (append (proj1_sig y) (proj1_sig x))) (ebm_content x ++ ebm_content y).
Proof. intros [e R] [e2 R2]. apply some_or_rel. now apply append_rel. Qed.
Definition ebm_append (x y : ebm) : ebm := mk_ebm _ _ (lift_append_rel x y).

Lemma lift_not_rel : forall x : ebm, rel (some_or (proj1_sig x) (flip (proj1_sig x))) (map negb (ebm_content x)).
Proof. intros [e R]. apply some_or_rel. destruct (flip_rel e _ R) as (e' & E & R' & _). eauto. Qed.
Definition ebm_not (x : ebm) : ebm := mk_ebm _ _ (lift_not_rel x).

Lemma lift_bin_rel : forall op f,
  (forall e1 l1 e2 l2, rel e1 l1 -> rel e2 l2 -> exists e, op e1 e2 = Some e /\ rel e (pw f l1 l2)) ->
  forall x y : ebm, rel (some_or (proj1_sig x) (op (proj1_sig x) (proj1_sig y)))
    (pointwise f (ebm_content x) (ebm_content y)).
Proof. intros op f H [e R] [e2 R2]. rewrite pointwise_pw. apply some_or_rel. now apply H. Qed.
Definition ebm_and (x y : ebm) : ebm := mk_ebm _ _ (lift_bin_rel _ _ binary_and_rel x y).
Definition ebm_or (x y : ebm) : ebm := mk_ebm _ _ (lift_bin_rel _ _ binary_or_rel x y).
Definition ebm_xor (x y : ebm) : ebm := mk_ebm _ _ (lift_bin_rel _ _ binary_xor_rel x y).
Definition ebm_diff (x y : ebm) : ebm := mk_ebm _ _ (lift_bin_rel _ _ binary_nand_rel x y).

Lemma empty_rel : rel ewah_empty [].
Proof. left. auto. Qed.
Definition ebm_empty : ebm := mk_ebm _ _ empty_rel.

(** [nary_or] with one order of evaluation: repeatedly combine two bitmaps of
    smallest size ([std::priority_queue], ties broken by list position). *)
Fixpoint insert_size (e : ewah) (l : list ewah) : list ewah :=
  match l with
  | [] => [e]
  | x :: l' => if num_bits x <=? num_bits e then x :: insert_size e l' else e :: l
  end.
Fixpoint nary_run (fuel : nat) (op : ewah -> ewah -> option ewah) (sorted : list ewah) : option ewah :=
  match sorted with
  | [] => Some ewah_empty
  | [e] => Some e
  | x :: y :: l =>
    match fuel with
    | O => None
    | S f => match op x y with None => None | Some z => nary_run f op (insert_size z l) end
    end
  end.
Definition nary_or_run (es : list ewah) : option ewah :=
  nary_run (length es) binary_or (fold_right insert_size [] es).

Lemma insert_size_rels : forall e l es ls, rel e l -> rels es ls ->
  exists ls', rels (insert_size e es) ls' /\ Permutation (l :: ls) ls'.
Proof.
  intros e l es ls R F. induction F as [|x m es ls Rx F IH].
  - exists [l]. split; [constructor; auto; constructor|reflexivity].
  - cbn [insert_size]. destruct (num_bits x <=? num_bits e).
    + destruct IH as (ls' & F' & P). exists (m :: ls'). split; [constructor; auto|].
      rewrite <- P. apply perm_swap.
    + exists (l :: m :: ls). split; [constructor; [auto|constructor; auto]|reflexivity].
Qed.

Lemma insert_size_length : forall e l, length (insert_size e l) = S (length l).
Proof. induction l as [|x l IH]; cbn; auto. destruct (_ <=? _); cbn; auto. Qed.

Definition fold1_or := fold1 orb.

Lemma fold1_or_perm : forall a b, Permutation a b -> fold1_or a = fold1_or b.
Proof.
  assert (C : forall x y, pw orb x y = pw orb y x) by (intros; apply pw_comm; intros; apply orb_comm).
  assert (A : forall x y z, pw orb (pw orb x y) z = pw orb x (pw orb y z)).
  { intros. apply pw_assoc; auto. intros [] [] []; reflexivity. }
  assert (PL : forall a b, Permutation a b -> forall x, fold_left (pw orb) a x = fold_left (pw orb) b x).
  { induction 1 as [|x l l' _ IH|x y l|l l' l'' _ IH1 _ IH2]; intros z; cbn [fold_left]; auto.
    - f_equal. rewrite !A. f_equal. apply C.
    - now rewrite IH1. }
  unfold fold1_or. induction 1 as [|x l l' H IH|x y l|l l' l'' _ IH1 _ IH2]; cbn [fold1 fold_left]; auto.
  - now f_equal.
  - congruence.
Qed.

Lemma nary_run_rel : forall fuel es ls, rels es ls -> (length es <= S fuel)%nat ->
  exists r, nary_run fuel binary_or es = Some r /\ rel r (fold1_or ls).
Proof.
  induction fuel as [|f IH]; intros es ls F L.
  - destruct F as [|x l es ls Rx F]; [exists ewah_empty; split; auto; left; auto|].
    destruct F as [|y m es ls Ry F]; [exists x; auto|cbn in L; lia].
  - destruct F as [|x l es ls Rx F]; [exists ewah_empty; split; auto; left; auto|].
    destruct F as [|y m es ls Ry F]; [exists x; auto|].
    cbn [nary_run]. destruct (binary_or_rel _ _ _ _ Rx Ry) as (z & -> & Rz).
    destruct (insert_size_rels z _ es ls Rz F) as (ls' & F' & P).
    destruct (IH _ _ F') as (r & E & R).
    + rewrite insert_size_length. cbn in L. lia.
    + exists r. split; auto. rewrite <- (fold1_or_perm _ _ P) in R. exact R.
Qed.

Lemma sort_rels : forall es ls, rels es ls ->
  exists ls', rels (fold_right insert_size [] es) ls' /\ Permutation ls ls'.
Proof.
  induction 1 as [|x l es ls Rx F (ls' & F' & P)].
  - exists []. split; constructor.
  - cbn [fold_right]. destruct (insert_size_rels x l _ _ Rx F') as (l2 & F2 & P2).
    exists l2. split; auto. now rewrite P, P2.
Qed.

Lemma sort_length : forall es, length (fold_right insert_size [] es) = length es.
Proof. induction es as [|e es IH]; auto. cbn [fold_right]. now rewrite insert_size_length, IH. Qed.

Lemma lift_nary_rel : forall xs : list ebm,
  rel (some_or ewah_empty (nary_or_run (map (fun x => proj1_sig x) xs))) (across (existsb (fun b => b)) (map ebm_content xs)).
Proof.
  intros xs. apply some_or_rel.
  assert (F : rels (map (fun x => proj1_sig x) xs) (map ebm_content xs)).
  { induction xs as [|[e R] xs IH]; constructor; auto. }
  destruct (sort_rels _ _ F) as (ls' & F' & P). unfold nary_or_run.
  destruct (nary_run_rel (length (map (fun x => proj1_sig x) xs)) _ _ F') as (r & E & R).
  - rewrite sort_length. lia.
  - exists r. split; auto. rewrite <- (fold1_or_perm _ _ P) in R. unfold fold1_or in R.
    rewrite (fold1_across orb (existsb (fun b => b))) in R; auto; intros [] *; reflexivity.
Qed.
Definition ebm_nary_or (xs : list ebm) : ebm := mk_ebm _ _ (lift_nary_rel xs).

Definition ebm_all (b : bool) (x : ebm) : bool :=
  match bit_range (proj1_sig x) with
  | Some bs => all_of b (num_bits (proj1_sig x)) bs
  | None => false
  end.

Definition ewah_ops : bitmap_ops ebm := {|
  b_empty := ebm_empty;
  b_size := fun x => num_bits (proj1_sig x);
  b_app := ebm_app;
  b_append := ebm_append;
  b_not := ebm_not;
  b_and := ebm_and;
  b_or := ebm_or;
  b_xor := ebm_xor;
  b_diff := ebm_diff;
  b_nary_or := ebm_nary_or;
  b_all := ebm_all
|}.

Theorem ewah_laws : bitmap_laws ewah_ops ebm_content.
Proof.
  constructor; cbn [ewah_ops b_empty b_size b_app b_append b_not b_and b_or b_xor b_diff b_nary_or b_all];
    intros; unfold ebm_content; cbn [proj1_sig mk_ebm ebm_empty ebm_app ebm_append ebm_not ebm_and ebm_or ebm_xor ebm_diff ebm_nary_or].
  - apply econtent_rel, empty_rel.
  - destruct x as [e R]. now apply rel_size.
  - apply econtent_rel, lift_app_rel.
  - apply econtent_rel, lift_append_rel.
  - apply econtent_rel, lift_not_rel.
  - apply econtent_rel, (lift_bin_rel _ _ binary_and_rel).
  - apply econtent_rel, (lift_bin_rel _ _ binary_or_rel).
  - apply econtent_rel, (lift_bin_rel _ _ binary_xor_rel).
  - apply econtent_rel, (lift_bin_rel _ _ binary_nand_rel).
  - apply econtent_rel, lift_nary_rel.
  - unfold ebm_all. destruct x as [e R]. cbn [proj1_sig].
    destruct (range_rel e _ R) as (bs & B & F & C). rewrite B, <- C. unfold all_of.
    pose proof (rel_size e _ R) as S. rewrite <- C in S.
    destruct (flat_map blist bs) as [|x0 l] eqn:Q.
    + assert (num_bits e =? 0 = true) as -> by (rewrite S; reflexivity). reflexivity.
    + assert (num_bits e =? 0 = false) as -> by (rewrite S; cbn [length]; lia).
      rewrite any_spec by exact F. rewrite Q.
      generalize (x0 :: l). clear. induction l as [|y l IH]; auto. cbn [existsb forallb].
      rewrite negb_orb, IH. f_equal. destruct b, y; reflexivity.
Qed.

Print Assumptions ewah_laws.

(** * Reading single bits *)

Section Bits.
  Context {B : Type} (ops : bitmap_ops B) (content : B -> list bool).
  Context (laws : bitmap_laws ops content).

  Definition bit (x : B) (i : nat) : bool := nth i (content x) false.
  Definition len (x : B) : nat := length (content x).

  Lemma nth_pointwise : forall f l r i, f false false = false ->
    nth i (pointwise f l r) false = f (nth i l false) (nth i r false).
  Proof. intros. rewrite pointwise_pw. now apply pw_nth. Qed.
  Lemma pointwise_length : forall f l r, length (pointwise f l r) = Nat.max (length l) (length r).
  Proof. intros. unfold pointwise. now rewrite map_length, seq_length. Qed.

  Lemma bit_and : forall x y i, bit (b_and ops x y) i = bit x i && bit y i.
  Proof. intros. unfold bit. rewrite (law_and _ _ laws). now apply nth_pointwise. Qed.
  Lemma bit_or : forall x y i, bit (b_or ops x y) i = bit x i || bit y i.
  Proof. intros. unfold bit. rewrite (law_or _ _ laws). now apply nth_pointwise. Qed.
  Lemma bit_xor : forall x y i, bit (b_xor ops x y) i = xorb (bit x i) (bit y i).
  Proof. intros. unfold bit. rewrite (law_xor _ _ laws). now apply nth_pointwise. Qed.
  Lemma bit_diff : forall x y i, bit (b_diff ops x y) i = bit x i && negb (bit y i).
  Proof. intros. unfold bit. rewrite (law_diff _ _ laws). now apply nth_pointwise. Qed.
  Lemma len_and : forall x y, len (b_and ops x y) = Nat.max (len x) (len y).
  Proof. intros. unfold len. rewrite (law_and _ _ laws). apply pointwise_length. Qed.
  Lemma len_or : forall x y, len (b_or ops x y) = Nat.max (len x) (len y).
  Proof. intros. unfold len. rewrite (law_or _ _ laws). apply pointwise_length. Qed.
  Lemma len_xor : forall x y, len (b_xor ops x y) = Nat.max (len x) (len y).
  Proof. intros. unfold len. rewrite (law_xor _ _ laws). apply pointwise_length. Qed.
  Lemma len_diff : forall x y, len (b_diff ops x y) = Nat.max (len x) (len y).
  Proof. intros. unfold len. rewrite (law_diff _ _ laws). apply pointwise_length. Qed.

  Lemma len_not : forall x, len (b_not ops x) = len x.
  Proof. intros. unfold len. rewrite (law_not _ _ laws). apply map_length. Qed.
  Lemma bit_not : forall x i, bit (b_not ops x) i = (i <? len x)%nat && negb (bit x i).
  Proof.
    intros x i. unfold bit, len. rewrite (law_not _ _ laws).
    destruct (Nat.ltb_spec i (length (content x))) as [H|H].
    - rewrite (nth_indep _ _ (negb false)) by now rewrite map_length. now rewrite map_nth.
    - rewrite nth_overflow by (rewrite map_length; lia). reflexivity.
  Qed.

  Lemma len_app : forall x b n, len (b_app ops x b n) = (len x + N.to_nat n)%nat.
  Proof. intros. unfold len. rewrite (law_app _ _ laws). now rewrite app_length, repeat_length. Qed.
  Lemma bit_app : forall x b n i, bit (b_app ops x b n) i =
    if (i <? len x)%nat then bit x i else (i <? len x + N.to_nat n)%nat && b.
  Proof.
    intros x b n i. unfold bit, len. rewrite (law_app _ _ laws).
    destruct (Nat.ltb_spec i (length (content x))) as [H|H].
    - now rewrite app_nth1.
    - rewrite app_nth2 by auto. destruct (Nat.ltb_spec i (length (content x) + N.to_nat n)) as [G|G].
      + rewrite nth_repeat_lt by lia. reflexivity.
      + rewrite nth_overflow by (rewrite repeat_length; lia). reflexivity.
  Qed.

  Lemma len_new : forall n b, len (b_new ops n b) = N.to_nat n.
  Proof. intros. unfold b_new. rewrite len_app. unfold len. rewrite (law_empty _ _ laws). reflexivity. Qed.
  Lemma bit_new : forall n b i, bit (b_new ops n b) i = (i <? N.to_nat n)%nat && b.
  Proof.
    intros. unfold b_new. rewrite bit_app. unfold len. rewrite (law_empty _ _ laws). cbn [length].
    reflexivity.
  Qed.
  Lemma content_new : forall n b, content (b_new ops n b) = repeat b (N.to_nat n).
  Proof. intros. unfold b_new. now rewrite (law_app _ _ laws), (law_empty _ _ laws). Qed.

  Lemma max_length_ge : forall ls l, In l ls -> (length l <= max_length ls)%nat.
  Proof.
    unfold max_length. induction ls as [|m ls IH]; intros l; [intros []|]. cbn [map fold_right].
    intros [->|H]; [lia|]. specialize (IH l H). lia.
  Qed.
  Lemma max_length_le : forall ls n, (forall l, In l ls -> (length l <= n)%nat) -> (max_length ls <= n)%nat.
  Proof.
    unfold max_length. induction ls as [|m ls IH]; intros n H; cbn [map fold_right]; [lia|].
    pose proof (H m (or_introl eq_refl)). pose proof (IH n ltac:(intros; apply H; now right)). lia.
  Qed.

  Lemma bit_nary_or : forall xs i, bit (b_nary_or ops xs) i = existsb (fun x => bit x i) xs.
  Proof.
    intros xs i. unfold bit. rewrite (law_nary_or _ _ laws). unfold across.
    set (h := fun i => existsb (fun b => b) (map (fun l => nth i l false) (map content xs))).
    assert (E : h i = existsb (fun x => nth i (content x) false) xs).
    { unfold h. rewrite map_map. clear. induction xs as [|x xs IH]; auto. cbn. now rewrite IH. }
    destruct (Nat.lt_ge_cases i (max_length (map content xs))) as [H|H].
    - rewrite (nth_indep _ _ (h 0%nat)) by (rewrite map_length, seq_length; lia).
      rewrite map_nth, seq_nth by lia. exact E.
    - rewrite nth_overflow by (rewrite map_length, seq_length; lia).
      symmetry. apply not_true_is_false. intros Q. apply existsb_exists in Q as (x & Hx & Q).
      rewrite nth_overflow in Q; [discriminate|].
      pose proof (max_length_ge (map content xs) (content x) (in_map _ _ _ Hx)). lia.
  Qed.
  Lemma len_nary_or : forall xs, len (b_nary_or ops xs) = max_length (map content xs).
  Proof. intros. unfold len. rewrite (law_nary_or _ _ laws). unfold across. now rewrite map_length, seq_length. Qed.

  Lemma size_len : forall x, b_size ops x = N.of_nat (len x).
  Proof. intros. apply (law_size _ _ laws). Qed.

  Lemma len_append : forall x y, len (b_append ops x y) = (len x + len y)%nat.
  Proof. intros. unfold len. now rewrite (law_append _ _ laws), app_length. Qed.

  Lemma content_ext : forall x l, len x = length l -> (forall i, (i < length l)%nat -> bit x i = nth i l false) -> content x = l.
  Proof. intros x l H1 H2. apply list_ext; auto. intros i Hi. apply H2. unfold len in H1. lia. Qed.
End Bits.
