(** Proofs about the comparison of data (DataModel.v). *)
From Coq Require Import List ZArith NArith Lia Bool ZifyBool ZifyNat ZifyN.
From Verif Require Import OperatorModel OrderModel AddressModel AddressProofs DataModel.
Import ListNotations.
Open Scope N_scope.

(** * Induction over nested data *)

Section Induction.
  Variable P : data -> Prop.
  Hypothesis Hs : forall x, (match x with DList _ | DMap _ | DRecord _ => False | _ => True end) -> P x.
  Hypothesis Hl : forall xs, Forall P xs -> P (DList xs).
  Hypothesis Hm : forall xs, Forall (fun p => P (fst p) /\ P (snd p)) xs -> P (DMap xs).
  Hypothesis Hr : forall xs, Forall (fun p : list N * data => P (snd p)) xs -> P (DRecord xs).
  Fixpoint data_rect' (x : data) : P x.
  Proof.
    destruct x as [| | | | | | | | | | | |xs|xs|xs]; try (apply Hs; exact Logic.I).
    - apply Hl. induction xs as [|y ys IH]; constructor; [apply data_rect'|exact IH].
    - apply Hm. induction xs as [|[a b] ys IH]; constructor; [split; apply data_rect'|exact IH].
    - apply Hr. induction xs as [|[a b] ys IH]; constructor; [apply data_rect'|exact IH].
  Defined.
End Induction.

(** * Swapping *)

Definition swap (b : both) : both := (snd b, fst b).

Lemma swap_swap : forall b, swap (swap b) = b.
Proof. intros [a b]. reflexivity. Qed.
Lemma then_by_swap : forall a b, then_by (swap a) (swap b) = swap (then_by a b).
Proof. intros [[] []] [[] []]; reflexivity. Qed.

Lemma lt_N_swap : forall x y, lt_N y x = swap (lt_N x y).
Proof. reflexivity. Qed.
Lemma lt_Z_swap : forall x y, lt_Z y x = swap (lt_Z x y).
Proof. reflexivity. Qed.
Lemma lt_bool_swap : forall x y, lt_bool y x = swap (lt_bool x y).
Proof. intros [] []; reflexivity. Qed.
Lemma lt_real_swap : forall x y, lt_real y x = swap (lt_real x y).
Proof. intros x y. unfold lt_real, swap. cbn [fst snd]. now rewrite (andb_comm (negb (d_nan y))). Qed.

Lemma lex_swap : forall A (f : A -> A -> both) xs ys, Forall (fun x => forall y, f y x = swap (f x y)) xs ->
  lex f ys xs = swap (lex f xs ys).
Proof.
  intros A f. induction xs as [|x xs IH]; intros [|y ys] H; try reflexivity.
  inversion H as [|? ? H1 H2]; subst. cbn [lex]. rewrite (H1 y), (IH ys H2). apply then_by_swap.
Qed.
Lemma lex_N_swap : forall xs ys, lex lt_N ys xs = swap (lex lt_N xs ys).
Proof. intros. apply lex_swap. apply Forall_forall. intros x _ y. reflexivity. Qed.
Lemma lt_subnet_swap : forall s t, lt_subnet t s = swap (lt_subnet s t).
Proof. intros s t. unfold lt_subnet. rewrite lex_N_swap, lt_N_swap. apply then_by_swap. Qed.

Lemma data_cmp_swap : forall x y, data_cmp y x = swap (data_cmp x y).
Proof.
  induction x as [x Hx|xs IH|xs IH|xs IH] using data_rect'; intros y.
  - destruct x; destruct Hx; destruct y; cbn [data_cmp d_index]; try reflexivity;
      auto using lt_bool_swap, lt_real_swap, lex_N_swap, lt_subnet_swap.
  - destruct y; try reflexivity. cbn [data_cmp]. now apply lex_swap.
  - destruct y; try reflexivity. cbn [data_cmp]. apply lex_swap. eapply Forall_impl; [|exact IH].
    intros p [H1 H2] q. rewrite H1, H2. apply then_by_swap.
  - destruct y; try reflexivity. cbn [data_cmp]. apply lex_swap. eapply Forall_impl; [|exact IH].
    intros p H2 q. rewrite lex_N_swap, H2. apply then_by_swap.
Qed.

Lemma some_smaller_swap : forall A (f : A -> A -> both) xs ys, Forall (fun x => forall y, f y x = swap (f x y)) xs ->
  some_smaller f ys xs = swap (some_smaller f xs ys).
Proof.
  intros A f. induction xs as [|x xs IH]; intros [|y ys] H; try reflexivity.
  inversion H as [|? ? H1 H2]; subst. cbn [some_smaller]. rewrite (H1 y), (IH ys H2). reflexivity.
Qed.
Lemma view_lex_swap : forall A (f : A -> A -> both) xs ys, Forall (fun x => forall y, f y x = swap (f x y)) xs ->
  view_lex f ys xs = swap (view_lex f xs ys).
Proof.
  intros A f xs ys H. unfold view_lex. rewrite (Nat.eqb_sym (length ys)).
  destruct (Nat.eqb (length xs) (length ys)); [now apply some_smaller_swap|reflexivity].
Qed.
Lemma view_cmp_swap : forall x y, view_cmp y x = swap (view_cmp x y).
Proof.
  induction x as [x Hx|xs IH|xs IH|xs IH] using data_rect'; intros y.
  - destruct x; destruct Hx; destruct y; cbn [view_cmp d_index]; try reflexivity;
      auto using lt_bool_swap, lt_real_swap, lex_N_swap, lt_subnet_swap.
  - destruct y; try reflexivity. cbn [view_cmp]. now apply view_lex_swap.
  - destruct y; try reflexivity. cbn [view_cmp]. apply view_lex_swap. eapply Forall_impl; [|exact IH].
    intros p [H1 H2] q. rewrite H1, H2. apply then_by_swap.
  - destruct y; try reflexivity. cbn [view_cmp]. apply view_lex_swap. eapply Forall_impl; [|exact IH].
    intros p H2 q. rewrite lex_N_swap, H2. apply then_by_swap.
Qed.

Lemma data_gt : forall x y, data_lt y x = snd (data_cmp x y).
Proof. intros. unfold data_lt. rewrite (data_cmp_swap x y). reflexivity. Qed.
Lemma view_gt : forall x y, view_lt y x = snd (view_cmp x y).
Proof. intros. unfold view_lt. rewrite (view_cmp_swap x y). reflexivity. Qed.

(** * Equality *)

Lemma real_eqb_sym : forall p q, real_eqb p q = real_eqb q p.
Proof. intros. unfold real_eqb. rewrite (andb_comm (negb (d_nan p))), Z.eqb_sym. reflexivity. Qed.
Lemma bytes_eqb_sym : forall xs ys, bytes_eqb xs ys = bytes_eqb ys xs.
Proof. induction xs as [|x xs IH]; intros [|y ys]; cbn; auto. now rewrite N.eqb_sym, IH. Qed.
Lemma sn_eqb_sym : forall s t, sn_eqb s t = sn_eqb t s.
Proof. intros. unfold sn_eqb. now rewrite bytes_eqb_sym, N.eqb_sym. Qed.
Lemma eqs_sym : forall A (f : A -> A -> bool) xs ys, Forall (fun x => forall y, f x y = f y x) xs -> eqs f xs ys = eqs f ys xs.
Proof.
  intros A f. induction xs as [|x xs IH]; intros [|y ys] H; cbn [eqs]; auto.
  inversion H; subst. now rewrite H2, IH.
Qed.
Lemma bool_eqb_sym : forall a b, Bool.eqb a b = Bool.eqb b a.
Proof. intros [] []; reflexivity. Qed.

Lemma data_eqb_sym : forall x y, data_eqb x y = data_eqb y x.
Proof.
  induction x as [x Hx|xs IH|xs IH|xs IH] using data_rect'; intros y.
  - destruct x; destruct Hx; destruct y; cbn [data_eqb]; try reflexivity;
      auto using bool_eqb_sym, Z.eqb_sym, N.eqb_sym, real_eqb_sym, bytes_eqb_sym, sn_eqb_sym.
  - destruct y; try reflexivity. cbn [data_eqb]. now apply eqs_sym.
  - destruct y; try reflexivity. cbn [data_eqb]. apply eqs_sym. eapply Forall_impl; [|exact IH].
    intros p [H1 H2] q. now rewrite H1, H2.
  - destruct y; try reflexivity. cbn [data_eqb]. apply eqs_sym. eapply Forall_impl; [|exact IH].
    intros p H2 q. now rewrite bytes_eqb_sym, H2.
Qed.

Lemma view_eqs_eqs : forall A (f g : A -> A -> bool) xs ys, Forall (fun x => forall y, f x y = g x y) xs ->
  view_eqs f xs ys = eqs g xs ys.
Proof.
  intros A f g xs. unfold view_eqs. induction xs as [|x xs IH]; intros [|y ys] H; cbn [length Nat.eqb no_difference eqs]; auto.
  inversion H; subst. rewrite H2, <- (IH ys H3). destruct (g x y), (Nat.eqb (length xs) (length ys)); reflexivity.
Qed.
Lemma view_eqb_data_eqb : forall x y, view_eqb x y = data_eqb x y.
Proof.
  induction x as [x Hx|xs IH|xs IH|xs IH] using data_rect'; intros y.
  - destruct x; destruct Hx; destruct y; reflexivity.
  - destruct y; try reflexivity. cbn [data_eqb view_eqb]. now apply view_eqs_eqs.
  - destruct y; try reflexivity. cbn [data_eqb view_eqb]. apply view_eqs_eqs. eapply Forall_impl; [|exact IH].
    intros p [H1 H2] q. now rewrite H1, H2.
  - destruct y; try reflexivity. cbn [data_eqb view_eqb]. apply view_eqs_eqs. eapply Forall_impl; [|exact IH].
    intros p H2 q. now rewrite H2.
Qed.

Lemma data_eqb_index : forall x y, data_eqb x y = true -> d_index x = d_index y.
Proof. intros x y. destruct x, y; cbn; congruence. Qed.

(** * The order on data without NaN *)

Fixpoint no_nan (x : data) : Prop :=
  match x with
  | DReal p => d_nan p = false
  | DList xs => fold_right (fun y Q => no_nan y /\ Q) True xs
  | DMap xs => fold_right (fun p Q => (no_nan (fst p) /\ no_nan (snd p)) /\ Q) True xs
  | DRecord xs => fold_right (fun p Q => no_nan (snd p) /\ Q) True xs
  | _ => True
  end.

(** An order-preserving, prefix-free encoding into sequences of integers. *)
Definition enc_seq {A} (e : A -> list Z) (xs : list A) : list Z :=
  fold_right (fun x r => 1%Z :: e x ++ r) [0%Z] xs.
Definition enc_bytes (xs : list N) : list Z := enc_seq (fun b => [Z.of_N b]) xs.
Fixpoint enc (x : data) : list Z :=
  Z.of_N (d_index x) ::
  match x with
  | DNone => []
  | DBool b => [Z.b2z b]
  | DInt z | DDuration z | DTime z => [z]
  | DCount n | DEnum n => [Z.of_N n]
  | DReal p => [d_value p]
  | DString s | DPattern s | DAddress s => enc_bytes s
  | DSubnet s => enc_bytes (sn_net s) ++ [Z.of_N (sn_bits s)]
  | DList xs => enc_seq enc xs
  | DMap xs => enc_seq (fun p => enc (fst p) ++ enc (snd p)) xs
  | DRecord xs => enc_seq (fun p => enc_bytes (fst p) ++ enc (snd p)) xs
  end.

Notation zlex := (lex lt_Z).

Lemma then_by_assoc : forall a b c, then_by (then_by a b) c = then_by a (then_by b c).
Proof. intros [[] []] [[] []] [[] []]; reflexivity. Qed.
Lemma then_by_none : forall b, then_by (false, false) b = b.
Proof. intros [[] []]; reflexivity. Qed.
Lemma then_by_id : forall b, then_by b (false, false) = b.
Proof. intros [[] []]; reflexivity. Qed.
Lemma lt_Z_refl : forall z, lt_Z z z = (false, false).
Proof. intros. unfold lt_Z. now rewrite Z.ltb_irrefl. Qed.

(** [e] encodes values compared by [f]. *)
Definition encodes {A} (f : A -> A -> both) (e : A -> list Z) (ok : A -> Prop) (x : A) : Prop :=
  forall y r s, ok y -> zlex (e x ++ r) (e y ++ s) = then_by (f x y) (zlex r s).

Lemma encodes_seq : forall A (f : A -> A -> both) e ok xs, Forall (encodes f e ok) xs ->
  encodes (lex f) (enc_seq e) (fun ys => Forall ok ys) xs.
Proof.
  intros A f e ok. induction xs as [|x xs IH]; intros H ys r s OK.
  - destruct ys as [|y ys]; cbn [enc_seq fold_right app lex].
    + now rewrite lt_Z_refl, !then_by_none.
    + unfold lt_Z at 1. change ((0 <? 1)%Z) with true. change ((1 <? 0)%Z) with false.
      destruct (zlex r (((e y ++ fold_right (fun x r0 => 1%Z :: e x ++ r0) [0%Z] ys) ++ s))) as [[] []], (zlex r s) as [[] []]; reflexivity.
  - destruct ys as [|y ys]; cbn [enc_seq fold_right app lex].
    + unfold lt_Z at 1. change ((0 <? 1)%Z) with true. change ((1 <? 0)%Z) with false.
      destruct (zlex ((e x ++ fold_right (fun x r0 => 1%Z :: e x ++ r0) [0%Z] xs) ++ r) s) as [[] []], (zlex r s) as [[] []]; reflexivity.
    + inversion H as [|? ? H1 H2]; subst. inversion OK as [|? ? O1 O2]; subst.
      rewrite lt_Z_refl, then_by_none, <- !app_assoc, (H1 y _ _ O1). fold (enc_seq e xs) (enc_seq e ys).
      now rewrite (IH H2 ys r s O2), then_by_assoc.
Qed.

Lemma encodes_one : forall A (f : A -> A -> both) (g : A -> Z) (ok : A -> Prop) x,
  (forall y, ok y -> lt_Z (g x) (g y) = f x y) -> encodes f (fun a => [g a]) ok x.
Proof. intros A f g ok x H y r s OK. cbn [app lex]. now rewrite H. Qed.

Lemma encodes_bytes : forall xs, encodes (lex lt_N) enc_bytes (fun _ => True) xs.
Proof.
  intros xs ys r s _. unfold enc_bytes.
  refine (encodes_seq _ lt_N (fun b => [Z.of_N b]) (fun _ => True) xs _ ys r s _).
  - apply Forall_forall. intros x _. apply encodes_one. intros y _. unfold lt_Z, lt_N. f_equal; lia.
  - apply Forall_forall. auto.
Qed.

Lemma encodes_pair : forall A B (f : A -> A -> both) (g : B -> B -> both) ea eb oka okb p,
  encodes f ea oka (fst p) -> encodes g eb okb (snd p) ->
  encodes (fun p q => then_by (f (fst p) (fst q)) (g (snd p) (snd q))) (fun p => ea (fst p) ++ eb (snd p)) (fun p => oka (fst p) /\ okb (snd p)) p.
Proof. intros A B f g ea eb oka okb p H1 H2 q r s [O1 O2]. rewrite <- !app_assoc, (H1 _ _ _ O1), (H2 _ _ _ O2). now rewrite then_by_assoc. Qed.

Lemma fold_and_Forall : forall A (P : A -> Prop) xs, fold_right (fun y Q => P y /\ Q) True xs <-> Forall P xs.
Proof.
  intros A P. induction xs as [|x xs IH]; cbn; split; auto.
  - intros [H1 H2]. constructor; tauto.
  - intros H. inversion H; tauto.
Qed.

Lemma other_index : forall x y r s, d_index x <> d_index y ->
  zlex (enc x ++ r) (enc y ++ s) = then_by (lt_N (d_index x) (d_index y)) (zlex r s).
Proof.
  intros x y r s NE.
  assert (E : forall z, exists t, enc z = Z.of_N (d_index z) :: t) by (intros []; eexists; reflexivity).
  destruct (E x) as (tx & ->). destruct (E y) as (ty & ->). cbn [app lex].
  replace (lt_Z (Z.of_N (d_index x)) (Z.of_N (d_index y))) with (lt_N (d_index x) (d_index y)) by (unfold lt_Z, lt_N; f_equal; lia).
  unfold lt_N. destruct (N.ltb_spec (d_index x) (d_index y)), (N.ltb_spec (d_index y) (d_index x)); try lia;
    destruct (zlex (tx ++ r) (ty ++ s)) as [[] []], (zlex r s) as [[] []]; reflexivity.
Qed.

Lemma cmp_other : forall x y, d_index x <> d_index y -> data_cmp x y = lt_N (d_index x) (d_index y).
Proof. intros x y. destruct x, y; cbn [d_index data_cmp]; congruence. Qed.

Lemma encodes_data : forall x, no_nan x -> encodes data_cmp enc no_nan x.
Proof.
  induction x as [x Hx|xs IH|xs IH|xs IH] using data_rect'; intros NX y r s NY.
  - destruct (N.eq_dec (d_index x) (d_index y)) as [EI|NI]; [|now rewrite other_index, cmp_other].
    destruct x; destruct Hx; destruct y; try discriminate EI; cbn [enc app lex d_index data_cmp]; rewrite lt_Z_refl, then_by_none; try reflexivity.
    + symmetry. apply then_by_none.
    + destruct b, b0; reflexivity.
    + replace (lt_Z (Z.of_N n) (Z.of_N n0)) with (lt_N n n0) by (unfold lt_Z, lt_N; f_equal; lia). reflexivity.
    + cbn [no_nan] in *. unfold lt_real. rewrite NX, NY. reflexivity.
    + now apply encodes_bytes.
    + now apply encodes_bytes.
    + now apply encodes_bytes.
    + unfold lt_subnet. rewrite <- !app_assoc, encodes_bytes by auto. cbn [app lex].
      replace (lt_Z (Z.of_N (sn_bits s0)) (Z.of_N (sn_bits s1))) with (lt_N (sn_bits s0) (sn_bits s1)) by (unfold lt_Z, lt_N; f_equal; lia).
      now rewrite then_by_assoc.
    + replace (lt_Z (Z.of_N n) (Z.of_N n0)) with (lt_N n n0) by (unfold lt_Z, lt_N; f_equal; lia). reflexivity.
  - destruct (N.eq_dec (d_index (DList xs)) (d_index y)) as [EI|NI]; [|now rewrite other_index, cmp_other].
    destruct y; try discriminate EI. cbn [enc app lex d_index data_cmp]. rewrite lt_Z_refl, then_by_none.
    cbn [no_nan] in NX, NY. rewrite fold_and_Forall in NX, NY. apply (encodes_seq _ _ _ no_nan); auto.
    rewrite Forall_forall in *. intros z Hz. apply IH; auto.
  - destruct (N.eq_dec (d_index (DMap xs)) (d_index y)) as [EI|NI]; [|now rewrite other_index, cmp_other].
    destruct y; try discriminate EI. cbn [enc app lex d_index data_cmp]. rewrite lt_Z_refl, then_by_none.
    cbn [no_nan] in NX, NY. rewrite (fold_and_Forall _ (fun p => no_nan (fst p) /\ no_nan (snd p))) in NX, NY.
    apply (encodes_seq _ _ _ (fun p => no_nan (fst p) /\ no_nan (snd p))); auto.
    rewrite Forall_forall in *. intros z Hz. apply encodes_pair; apply IH; auto; apply NX; auto.
  - destruct (N.eq_dec (d_index (DRecord xs)) (d_index y)) as [EI|NI]; [|now rewrite other_index, cmp_other].
    destruct y; try discriminate EI. cbn [enc app lex d_index data_cmp]. rewrite lt_Z_refl, then_by_none.
    cbn [no_nan] in NX, NY. rewrite (fold_and_Forall _ (fun p => no_nan (snd p))) in NX, NY.
    apply (encodes_seq _ _ _ (fun p : list N * data => True /\ no_nan (snd p))).
    + rewrite Forall_forall in *. intros z Hz. apply (encodes_pair _ _ (lex lt_N) data_cmp enc_bytes enc (fun _ => True) no_nan z); [apply encodes_bytes|apply IH; auto; apply NX; auto].
    + eapply Forall_impl; [|exact NY]. auto.
Qed.

Lemma data_cmp_enc : forall x y, no_nan x -> no_nan y -> data_cmp x y = zlex (enc x) (enc y).
Proof.
  intros x y NX NY. pose proof (encodes_data x NX y [] [] NY) as H. rewrite !app_nil_r in H. rewrite H. cbn [lex]. now rewrite then_by_id.
Qed.

(** ** Sequences of integers are totally ordered *)

Lemma zlex_refl : forall xs, zlex xs xs = (false, false).
Proof. induction xs as [|x xs IH]; cbn [lex]; auto. now rewrite lt_Z_refl, IH. Qed.
Lemma zlex_tri : forall xs ys, (zlex xs ys = (true, false) /\ xs <> ys) \/ (zlex xs ys = (false, true) /\ xs <> ys) \/ (zlex xs ys = (false, false) /\ xs = ys).
Proof.
  induction xs as [|x xs IH]; intros [|y ys]; cbn [lex]; auto.
  - left. split; auto. discriminate.
  - right. left. split; auto. discriminate.
  - unfold lt_Z at 1 3 5. destruct (Z.ltb_spec x y) as [L|L], (Z.ltb_spec y x) as [G|G]; try lia.
    + left. split; [|intros Q; injection Q; lia]. destruct (zlex xs ys) as [[] []]; reflexivity.
    + right. left. split; [|intros Q; injection Q; lia]. destruct (zlex xs ys) as [[] []]; reflexivity.
    + assert (x = y) as -> by lia. rewrite then_by_none.
      destruct (IH ys) as [[-> Q]|[[-> Q]|[-> ->] ] ]; [left|right; left|right; right]; split; auto; congruence.
Qed.
Lemma zlex_trans : forall xs ys zs, fst (zlex xs ys) = true -> fst (zlex ys zs) = true -> fst (zlex xs zs) = true.
Proof.
  induction xs as [|x xs IH]; intros [|y ys] [|z zs]; cbn [lex fst]; try congruence.
  unfold then_by, lt_Z; cbn [fst snd]. rewrite !orb_true_iff, !andb_true_iff, !negb_true_iff, !Z.ltb_lt, !Z.ltb_ge.
  intros [A|[A A'] ] [B|[B B'] ]; try (left; lia). right. split; [lia|]. eapply IH; eauto.
Qed.

(** ** Equality and the order agree *)

Lemma then_by_ff : forall a b, then_by a b = (false, false) <-> a = (false, false) /\ b = (false, false).
Proof.
  intros [[] []] [[] []]; split; try (intros H; discriminate H); try (intros [H1 H2]; discriminate H1); try (intros [H1 H2]; discriminate H2); auto.
Qed.
Lemma eqs_lex : forall A (f : A -> A -> both) (e : A -> A -> bool) (ok : A -> Prop) xs,
  Forall (fun x => forall y, ok y -> e x y = true <-> f x y = (false, false)) xs ->
  (forall x y, then_by (f x y) (false, false) = f x y) ->
  forall ys, Forall ok ys -> (eqs e xs ys = true <-> lex f xs ys = (false, false)).
Proof.
  intros A f e ok. induction xs as [|x xs IH]; intros H T [|y ys] OK; cbn [eqs lex]; try (split; [auto; discriminate|auto; discriminate]).
  inversion H; subst. inversion OK; subst. rewrite andb_true_iff, (H2 y), (IH H3 T ys), then_by_ff; auto. tauto.
Qed.
Lemma lt_N_ff : forall x y, lt_N x y = (false, false) <-> x = y.
Proof. intros. unfold lt_N. split; [|intros ->; now rewrite N.ltb_irrefl]. destruct (N.ltb_spec x y), (N.ltb_spec y x); intros; try discriminate; lia. Qed.
Lemma lt_Z_ff : forall x y, lt_Z x y = (false, false) <-> x = y.
Proof. intros. unfold lt_Z. split; [|intros ->; now rewrite Z.ltb_irrefl]. destruct (Z.ltb_spec x y), (Z.ltb_spec y x); intros; try discriminate; lia. Qed.
Lemma bytes_lex : forall xs ys, bytes_eqb xs ys = true <-> lex lt_N xs ys = (false, false).
Proof.
  induction xs as [|x xs IH]; intros [|y ys]; cbn [bytes_eqb lex]; try (split; [auto; discriminate|auto; discriminate]).
  rewrite andb_true_iff, IH, then_by_ff, lt_N_ff, N.eqb_eq. tauto.
Qed.
Lemma eqb_cmp : forall x y, no_nan x -> no_nan y -> (data_eqb x y = true <-> data_cmp x y = (false, false)).
Proof.
  induction x as [x Hx|xs IH|xs IH|xs IH] using data_rect'; intros y NX NY.
  - destruct x; destruct Hx; destruct y; cbn [data_eqb data_cmp d_index]; try (split; [discriminate|vm_compute; discriminate]); try apply bytes_lex.
    + split; reflexivity.
    + destruct b, b0; vm_compute; split; intros Q; try discriminate Q; reflexivity.
    + rewrite Z.eqb_eq, lt_Z_ff. tauto.
    + rewrite N.eqb_eq, lt_N_ff. tauto.
    + cbn [no_nan] in *. unfold real_eqb, lt_real. rewrite NX, NY. cbn [negb andb].
      rewrite Z.eqb_eq. symmetry. apply lt_Z_ff.
    + rewrite Z.eqb_eq, lt_Z_ff. tauto.
    + rewrite Z.eqb_eq, lt_Z_ff. tauto.
    + unfold sn_eqb, lt_subnet. rewrite andb_true_iff, then_by_ff, bytes_lex, N.eqb_eq, lt_N_ff. tauto.
    + rewrite N.eqb_eq, lt_N_ff. tauto.
  - destruct y; cbn [data_eqb data_cmp d_index]; try (split; [discriminate|vm_compute; discriminate]).
    cbn [no_nan] in NX, NY. rewrite fold_and_Forall in NX, NY. apply (eqs_lex _ _ _ no_nan); auto using then_by_id.
    rewrite Forall_forall in *. intros z Hz w Hw. apply IH; auto.
  - destruct y; cbn [data_eqb data_cmp d_index]; try (split; [discriminate|vm_compute; discriminate]).
    cbn [no_nan] in NX, NY. rewrite (fold_and_Forall _ (fun p => no_nan (fst p) /\ no_nan (snd p))) in NX, NY.
    apply (eqs_lex _ _ _ (fun p => no_nan (fst p) /\ no_nan (snd p))); auto using then_by_id.
    rewrite Forall_forall in *. intros z Hz w [W1 W2]. destruct (IH z Hz) as [I1 I2]. destruct (NX z Hz) as [N1 N2].
    rewrite andb_true_iff, then_by_ff, I1, I2 by auto. tauto.
  - destruct y; cbn [data_eqb data_cmp d_index]; try (split; [discriminate|vm_compute; discriminate]).
    cbn [no_nan] in NX, NY. rewrite (fold_and_Forall _ (fun p => no_nan (snd p))) in NX, NY.
    apply (eqs_lex _ _ _ (fun p => no_nan (snd p))); auto using then_by_id.
    rewrite Forall_forall in *. intros z Hz w W2.
    rewrite andb_true_iff, then_by_ff, bytes_lex, (IH z Hz (snd w)) by auto. tauto.
Qed.

(** * Equal data are interchangeable *)

Lemma real_eqb_lt : forall p q r, real_eqb p q = true -> lt_real p r = lt_real q r /\ real_eqb p r = real_eqb q r.
Proof.
  intros p q r. unfold real_eqb, lt_real. rewrite !andb_true_iff, !negb_true_iff, Z.eqb_eq. intros [[-> ->] ->]. auto.
Qed.
Lemma bytes_eqb_eq' : forall xs ys, bytes_eqb xs ys = true -> xs = ys.
Proof. induction xs as [|x xs IH]; intros [|y ys]; cbn; try congruence. rewrite andb_true_iff, N.eqb_eq. intros [-> H]. f_equal; auto. Qed.
Lemma sn_eqb_eq' : forall s t, sn_eqb s t = true -> s = t.
Proof. intros [a b] [c d]. unfold sn_eqb. cbn. rewrite andb_true_iff, N.eqb_eq. intros [H ->]. now rewrite (bytes_eqb_eq' _ _ H). Qed.

Lemma lex_cong : forall A (e : A -> A -> bool) (f : A -> A -> both) xs,
  Forall (fun x => forall y z, e x y = true -> f x z = f y z) xs ->
  forall ys zs, eqs e xs ys = true -> lex f xs zs = lex f ys zs.
Proof.
  intros A e f. induction xs as [|x xs IH]; intros H [|y ys] zs; cbn [eqs]; try congruence.
  rewrite andb_true_iff. intros [E1 E2]. inversion H; subst. destruct zs as [|z zs]; cbn [lex]; auto.
  now rewrite (H2 y z E1), (IH H3 ys zs E2).
Qed.
Lemma eqs_length : forall A (e : A -> A -> bool) xs ys, eqs e xs ys = true -> length xs = length ys.
Proof. intros A e. induction xs as [|x xs IH]; intros [|y ys]; cbn; try congruence. rewrite andb_true_iff. intros [_ H]. now rewrite (IH ys). Qed.
Lemma smaller_cong : forall A (e : A -> A -> bool) (f : A -> A -> both) xs,
  Forall (fun x => forall y z, e x y = true -> f x z = f y z) xs ->
  forall ys zs, eqs e xs ys = true -> some_smaller f xs zs = some_smaller f ys zs.
Proof.
  intros A e f. induction xs as [|x xs IH]; intros H [|y ys] zs; cbn [eqs]; try congruence.
  rewrite andb_true_iff. intros [E1 E2]. inversion H; subst. destruct zs as [|z zs]; cbn [some_smaller]; auto.
  now rewrite (H2 y z E1), (IH H3 ys zs E2).
Qed.
Lemma view_lex_cong : forall A (e : A -> A -> bool) (f : A -> A -> both) xs,
  Forall (fun x => forall y z, e x y = true -> f x z = f y z) xs ->
  forall ys zs, eqs e xs ys = true -> view_lex f xs zs = view_lex f ys zs.
Proof.
  intros A e f xs H ys zs E. unfold view_lex. rewrite (eqs_length _ _ _ _ E).
  destruct (Nat.eqb _ _); [now apply (smaller_cong _ e)|reflexivity].
Qed.
Lemma eqs_cong : forall A (e : A -> A -> bool) (f : A -> A -> bool) xs,
  Forall (fun x => forall y z, e x y = true -> f x z = f y z) xs ->
  forall ys zs, eqs e xs ys = true -> eqs f xs zs = eqs f ys zs.
Proof.
  intros A e f. induction xs as [|x xs IH]; intros H [|y ys] zs; cbn [eqs]; try congruence.
  rewrite andb_true_iff. intros [E1 E2]. inversion H; subst. destruct zs as [|z zs]; cbn [eqs]; auto.
  now rewrite (H2 y z E1), (IH H3 ys zs E2).
Qed.

Lemma data_cmp_cong : forall x y z, data_eqb x y = true -> data_cmp x z = data_cmp y z.
Proof.
  induction x as [x Hx|xs IH|xs IH|xs IH] using data_rect'; intros y z E.
  - destruct x; destruct Hx; destruct y; cbn [data_eqb] in E; try discriminate E; auto.
    + apply eqb_prop in E as ->. auto.
    + apply Z.eqb_eq in E as ->. auto.
    + apply N.eqb_eq in E as ->. auto.
    + destruct z; cbn [data_cmp]; auto. now apply real_eqb_lt.
    + apply Z.eqb_eq in E as ->. auto.
    + apply Z.eqb_eq in E as ->. auto.
    + apply bytes_eqb_eq' in E as ->. auto.
    + apply bytes_eqb_eq' in E as ->. auto.
    + apply bytes_eqb_eq' in E as ->. auto.
    + apply sn_eqb_eq' in E as ->. auto.
    + apply N.eqb_eq in E as ->. auto.
  - destruct y; cbn [data_eqb] in E; try discriminate E. destruct z; cbn [data_cmp]; auto.
    eapply lex_cong; [|exact E]. eapply Forall_impl; [|exact IH]. auto.
  - destruct y; cbn [data_eqb] in E; try discriminate E. destruct z; cbn [data_cmp]; auto.
    eapply lex_cong; [|exact E]. eapply Forall_impl; [|exact IH]. intros p [H1 H2] q w. cbn beta. rewrite andb_true_iff. intros [E1 E2].
    now rewrite (H1 _ (fst w) E1), (H2 _ (snd w) E2).
  - destruct y; cbn [data_eqb] in E; try discriminate E. destruct z; cbn [data_cmp]; auto.
    eapply lex_cong; [|exact E]. eapply Forall_impl; [|exact IH]. intros p H2 q w. cbn beta. rewrite andb_true_iff. intros [E1 E2].
    now rewrite (bytes_eqb_eq' _ _ E1), (H2 _ (snd w) E2).
Qed.
Lemma view_cmp_cong : forall x y z, data_eqb x y = true -> view_cmp x z = view_cmp y z.
Proof.
  induction x as [x Hx|xs IH|xs IH|xs IH] using data_rect'; intros y z E.
  - destruct x; destruct Hx; destruct y; cbn [data_eqb] in E; try discriminate E; auto.
    + apply eqb_prop in E as ->. auto.
    + apply Z.eqb_eq in E as ->. auto.
    + apply N.eqb_eq in E as ->. auto.
    + destruct z; cbn [view_cmp]; auto. now apply real_eqb_lt.
    + apply Z.eqb_eq in E as ->. auto.
    + apply Z.eqb_eq in E as ->. auto.
    + apply bytes_eqb_eq' in E as ->. auto.
    + apply bytes_eqb_eq' in E as ->. auto.
    + apply bytes_eqb_eq' in E as ->. auto.
    + apply sn_eqb_eq' in E as ->. auto.
    + apply N.eqb_eq in E as ->. auto.
  - destruct y; cbn [data_eqb] in E; try discriminate E. destruct z; cbn [view_cmp]; auto.
    eapply view_lex_cong; [|exact E]. eapply Forall_impl; [|exact IH]. auto.
  - destruct y; cbn [data_eqb] in E; try discriminate E. destruct z; cbn [view_cmp]; auto.
    eapply view_lex_cong; [|exact E]. eapply Forall_impl; [|exact IH]. intros p [H1 H2] q w. cbn beta. rewrite andb_true_iff. intros [E1 E2].
    now rewrite (H1 _ (fst w) E1), (H2 _ (snd w) E2).
  - destruct y; cbn [data_eqb] in E; try discriminate E. destruct z; cbn [view_cmp]; auto.
    eapply view_lex_cong; [|exact E]. eapply Forall_impl; [|exact IH]. intros p H2 q w. cbn beta. rewrite andb_true_iff. intros [E1 E2].
    now rewrite (bytes_eqb_eq' _ _ E1), (H2 _ (snd w) E2).
Qed.
Lemma data_eqb_cong : forall x y z, data_eqb x y = true -> data_eqb x z = data_eqb y z.
Proof.
  induction x as [x Hx|xs IH|xs IH|xs IH] using data_rect'; intros y z E.
  - destruct x; destruct Hx; destruct y; cbn [data_eqb] in E; try discriminate E; auto.
    + apply eqb_prop in E as ->. auto.
    + apply Z.eqb_eq in E as ->. auto.
    + apply N.eqb_eq in E as ->. auto.
    + destruct z; cbn [data_eqb]; auto. now apply real_eqb_lt.
    + apply Z.eqb_eq in E as ->. auto.
    + apply Z.eqb_eq in E as ->. auto.
    + apply bytes_eqb_eq' in E as ->. auto.
    + apply bytes_eqb_eq' in E as ->. auto.
    + apply bytes_eqb_eq' in E as ->. auto.
    + apply sn_eqb_eq' in E as ->. auto.
    + apply N.eqb_eq in E as ->. auto.
  - destruct y; cbn [data_eqb] in E; try discriminate E. destruct z; cbn [data_eqb]; auto.
    eapply eqs_cong; [|exact E]. eapply Forall_impl; [|exact IH]. auto.
  - destruct y; cbn [data_eqb] in E; try discriminate E. destruct z; cbn [data_eqb]; auto.
    eapply eqs_cong; [|exact E]. eapply Forall_impl; [|exact IH]. intros p [H1 H2] q w. cbn beta. rewrite andb_true_iff. intros [E1 E2].
    now rewrite (H1 _ (fst w) E1), (H2 _ (snd w) E2).
  - destruct y; cbn [data_eqb] in E; try discriminate E. destruct z; cbn [data_eqb]; auto.
    eapply eqs_cong; [|exact E]. eapply Forall_impl; [|exact IH]. intros p H2 q w. cbn beta. rewrite andb_true_iff. intros [E1 E2].
    now rewrite (bytes_eqb_eq' _ _ E1), (H2 _ (snd w) E2).
Qed.

Lemma existsb_ext' : forall A (f g : A -> bool) xs, (forall x, f x = g x) -> existsb f xs = existsb g xs.
Proof. intros A f g xs H. induction xs as [|x xs IH]; cbn; auto. now rewrite H, IH. Qed.

Lemma existsb_eqs : forall (f : data -> bool) xs ys, (forall x y, data_eqb x y = true -> f x = f y) ->
  eqs data_eqb xs ys = true -> existsb f xs = existsb f ys.
Proof.
  intros f xs ys H. revert ys. induction xs as [|x xs IH]; intros [|y ys]; cbn; try congruence. rewrite andb_true_iff. intros [E1 E2].
  now rewrite (H x y E1), (IH ys E2).
Qed.

(** Evaluation does not distinguish equal operands. *)
Lemma eval_in_cong : forall re x y z, data_eqb x y = true -> eval_in re x z = eval_in re y z /\ eval_in re z x = eval_in re z y.
Proof.
  intros re x y z E. split.
  - destruct z; try (destruct x, y; cbn [data_eqb] in E; try discriminate E; cbn [eval_in]; auto;
      try (apply bytes_eqb_eq' in E as ->); try (apply sn_eqb_eq' in E as ->); auto; fail).
    assert (Q : existsb (fun e => data_eqb e x) xs = existsb (fun e => data_eqb e y) xs).
    { apply existsb_ext'. intros e. now rewrite (data_eqb_sym e x), (data_eqb_sym e y), (data_eqb_cong x y e E). }
    destruct x, y; cbn [data_eqb] in E; try discriminate E; cbn [eval_in]; first [reflexivity | now rewrite Q].
  - destruct x, y; cbn [data_eqb] in E; try discriminate E; try (destruct z; reflexivity);
      try (apply bytes_eqb_eq' in E as ->; reflexivity); try (apply sn_eqb_eq' in E as ->; reflexivity).
    assert (Q : existsb (fun e => data_eqb e z) xs = existsb (fun e => data_eqb e z) xs0).
    { apply existsb_eqs; auto. intros a b H. now apply data_eqb_cong. }
    destruct z; cbn [eval_in]; first [reflexivity | now rewrite Q].
Qed.
Lemma evaluate_cong : forall re x y z op, data_eqb x y = true -> evaluate re z op x = evaluate re z op y.
Proof.
  intros re x y z op E. destruct op; cbn [evaluate].
  1,2: destruct z; cbn [eval_match]; auto; destruct x, y; cbn [data_eqb] in E; try discriminate E; auto; apply bytes_eqb_eq' in E as ->; auto.
  1-4: destruct (eval_in_cong re x y z E) as [I1 I2]; rewrite ?I1, ?I2; reflexivity.
  1,2: assert (Q : data_eqb z x = data_eqb z y) by (now rewrite (data_eqb_sym z x), (data_eqb_sym z y), (data_eqb_cong x y z E));
    rewrite Q; destruct z; cbn [eval_string_and_pattern]; auto; destruct x, y; cbn [data_eqb] in E; try discriminate E; auto; apply bytes_eqb_eq' in E as ->; auto.
  all: rewrite ?(data_gt x z), ?(data_gt y z); unfold data_lt; now rewrite (data_cmp_cong x y z E).
Qed.

Lemma view_in_eval_in : forall re x y, view_in re x y = eval_in re x y.
Proof.
  intros re x y. destruct y; try (destruct x; reflexivity).
  assert (Q : existsb (fun e => (d_index e =? d_index x) && view_eqb x e) xs = existsb (fun e => data_eqb e x) xs).
  { apply existsb_ext'. intros e. rewrite view_eqb_data_eqb, (data_eqb_sym x e).
    destruct (data_eqb e x) eqn:E; [|apply andb_false_r]. apply data_eqb_index in E. rewrite E, N.eqb_refl. reflexivity. }
  destruct x; cbn [view_in eval_in]; now rewrite Q.
Qed.
Lemma view_gt' : forall x y, view_lt y x = snd (view_cmp x y).
Proof. exact view_gt. Qed.
Lemma evaluate_view_cong : forall re x y z op, data_eqb x y = true -> evaluate_view re z op x = evaluate_view re z op y.
Proof.
  intros re x y z op E. destruct op; cbn [evaluate_view]; auto.
  1-4: rewrite !view_in_eval_in; destruct (eval_in_cong re x y z E) as [I1 I2]; rewrite ?I1, ?I2; reflexivity.
  1,2: rewrite !view_eqb_data_eqb, (data_eqb_sym z x), (data_eqb_sym z y), (data_eqb_cong x y z E); reflexivity.
  all: rewrite ?(view_gt x z), ?(view_gt y z); unfold view_lt; now rewrite (view_cmp_cong x y z E).
Qed.
