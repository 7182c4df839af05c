(** Properties of Arrow-encoded table slices. *)
From Coq Require Import List ZArith NArith Bool Arith Lia Sorted ZifyBool ZifyNat ZifyN.
From Verif Require Import OperatorModel AddressModel AddressProofs DataModel DataProofs TypeModel TypeProofs MsgpackProofs ArrowModel ArrowProofs.
Import ListNotations.
Open Scope nat_scope.

(** * C53: Arrow table slices read back what was written *)

(** Writing rows with a fresh builder and finishing the slice; the answers of [add]. *)
Definition build (cols : list ty) (rows : list (list data)) : option (aslice * list bool) :=
  match new_builder cols with
  | None => None
  | Some b => match add_values cols b (concat rows) with
              | None => None
              | Some (b', l) => option_map (fun s => (s, l)) (finish cols b')
              end
  end.

Lemma build_ok : forall cols rows, cols <> [] -> Forall (fun t => plain (strip t)) cols -> Forall (Forall2 cell cols) rows ->
  exists l, build cols rows = Some ({| as_cols := cols; as_arrays := l; as_rows := length rows |}, repeat true (length (concat rows))) /\ holds_rows cols rows l.
Proof.
  intros cols rows Ne P F. destruct (new_builder_ok cols P) as (l0 & E & H0). destruct (add_rows cols rows [] l0 Ne H0 F) as (l & A & H).
  exists l. unfold build. rewrite E. cbn [length] in A. rewrite A. cbn. split; [reflexivity|exact H].
Qed.
Lemma congruent_strip : forall t, congruent t (strip t) = true.
Proof. intros t. apply congruent_shape. symmetry. apply (shape_strip t). Qed.

(** Every row of values of the types of the columns is accepted, and reads back at its
    row. Columns may have nested lists, maps and records. *)
Theorem C53_slice : forall cols rows, cols <> [] -> Forall (fun t => plain (strip t)) cols -> Forall (Forall2 cell cols) rows ->
  exists s, build cols rows = Some (s, repeat true (length (concat rows))) /\ as_cols s = cols /\ as_rows s = length rows /\
    forall i j row t x, nth_error rows i = Some row -> nth_error cols j = Some t -> nth_error row j = Some x ->
      at_typed s i j t = Some x /\ (plain t -> at_ s i j = Some x).
Proof.
  intros cols rows Ne P F. destruct (build_ok cols rows Ne P F) as (l & E & H). eexists. split; [exact E|]. split; [reflexivity|]. split; [reflexivity|].
  intros i j row t x Xr Xt Xx. destruct H as [F2 V]. destruct (forall2_nth _ _ _ _ _ F2 Xt) as (a & Xa & Pl & _).
  assert (Hi : i < length rows) by (apply nth_error_Some; congruence). assert (Hj : j < length l) by (apply nth_error_Some; congruence).
  pose proof (V i j t a row x Xr Xt Xa Xx) as G. split.
  - unfold at_typed. cbn [as_cols as_arrays as_rows]. replace ((i <? length rows) && (j <? length l)) with true by lia. rewrite Xt, Xa, congruent_strip. exact G.
  - intros Pt. unfold at_. cbn [as_cols as_arrays as_rows]. replace ((i <? length rows) && (j <? length l)) with true by lia. rewrite Xt, Xa. rewrite strip_plain in G by exact Pt. exact G.
Qed.

Lemma all_some_map : forall {A B : Type} (f : A -> option B) l ys, map f l = map Some ys -> all_some (map f l) = Some ys.
Proof.
  intros A B f l ys H. rewrite H. clear. induction ys as [|y ys IH]; [reflexivity|]. cbn. now rewrite IH.
Qed.
Lemma eqb_none : forall x, data_eqb x DNone = true <-> x = DNone.
Proof. intros x. destruct x; cbn; split; congruence. Qed.
Lemma combine_seq_in : forall {A : Type} (l : list A) s p, In p (combine (seq s (length l)) l) <-> exists i, fst p = s + i /\ nth_error l i = Some (snd p).
Proof.
  induction l as [|x l IH]; intros s p; cbn.
  - split; [contradiction|]. intros (i & _ & E). destruct i; discriminate.
  - rewrite IH. split.
    + intros [<-|(i & Ei & En)]; [exists 0; cbn; split; [lia|reflexivity]|]. exists (S i). cbn. split; [lia|exact En].
    + intros ([|i] & Ei & En); [left; cbn in *; destruct p; cbn in *; f_equal; [lia|congruence]|]. right. exists i. cbn in *. split; [lia|exact En].
Qed.
Lemma sorted_combine : forall {A : Type} (g : nat * A -> bool) (l : list A) s, StronglySorted lt (map fst (filter g (combine (seq s (length l)) l))).
Proof.
  intros A g. induction l as [|x l IH]; intros s; cbn; [constructor|]. destruct (g (s, x)); [|apply IH]. cbn. constructor; [apply IH|].
  apply Forall_forall. intros k Hk. apply in_map_iff in Hk. destruct Hk as (p & <- & Hp). apply filter_In in Hp. destruct Hp as [Hp _].
  destruct p as [k y]. apply in_combine_l in Hp. apply in_seq in Hp. cbn. lia.
Qed.

(** Appending a column to an index hands over exactly the values that are not null, with
    the IDs of their rows, in order. *)
Theorem C53_index : forall cols rows s answers, cols <> [] -> Forall (fun t => plain (strip t)) cols -> Forall (Forall2 cell cols) rows ->
  build cols rows = Some (s, answers) -> forall first j t, nth_error cols j = Some t -> plain t ->
  exists l, to_index s first j = Some l /\ StronglySorted lt (map fst l) /\
    forall id x, In (id, x) l <-> exists i row, id = first + i /\ nth_error rows i = Some row /\ nth_error row j = Some x /\ x <> DNone.
Proof.
  intros cols rows s answers Ne P F B first j t Xt Pt. destruct (build_ok cols rows Ne P F) as (l & E & F2 & V). rewrite E in B. injection B as <- _.
  destruct (forall2_nth _ _ _ _ _ F2 Xt) as (a & Xa & Pl & Sh & La). rewrite strip_plain in Sh by exact Pt.
  set (ys := map (fun row => nth j row DNone) rows).
  assert (Cell : forall i row, nth_error rows i = Some row -> exists x, nth_error row j = Some x /\ nth j row DNone = x).
  { intros i row Xr. rewrite Forall_forall in F. pose proof (F row (nth_error_In _ _ Xr)) as Fr. destruct (forall2_nth _ _ _ _ _ Fr Xt) as (x & Xx & _).
    exists x. split; [exact Xx|]. apply nth_error_nth. exact Xx. }
  assert (R : all_some (map (value_at t a) (seq 0 (alen a))) = Some ys).
  { apply all_some_map. unfold ys. rewrite La. apply nth_ext with (d := None) (d' := None); [now rewrite !map_length, seq_length|].
    rewrite map_length, seq_length. intros i Hi. destruct (nth_error rows i) as [row|] eqn:Xr; [|apply nth_error_None in Xr; lia].
    destruct (Cell i row Xr) as (x & Xx & Nx). erewrite nth_error_nth with (x := value_at t a i) by (apply map_nth_error; rewrite nth_error_nth' with (d := 0) by (rewrite seq_length; exact Hi); f_equal; rewrite seq_nth by exact Hi; reflexivity).
    rewrite map_map. erewrite nth_error_nth with (x := Some x) by (erewrite map_nth_error by exact Xr; f_equal; f_equal; exact Nx).
    pose proof (V i j t a row x Xr Xt Xa Xx) as G. rewrite strip_plain in G by exact Pt. exact G. }
  unfold to_index. cbn [as_cols as_arrays]. rewrite Xt, Xa, R. cbn [option_map]. eexists. split; [reflexivity|].
  assert (Ly : alen a = length ys) by (unfold ys; rewrite map_length; exact La). rewrite Ly. split; [apply sorted_combine|].
  intros id x. rewrite filter_In, combine_seq_in. cbn [fst snd]. split.
  - intros [(i & -> & Xy) Nn]. unfold ys in Xy. destruct (nth_error rows i) as [row|] eqn:Xr.
    + destruct (Cell i row Xr) as (x' & Xx & Nx). erewrite map_nth_error in Xy by exact Xr. injection Xy as Xy. exists i, row. repeat split; auto; [congruence|].
      intros ->. rewrite (proj2 (eqb_none DNone) eq_refl) in Nn. discriminate.
    + apply nth_error_None in Xr. assert (nth_error (map (fun row => nth j row DNone) rows) i = None) by (apply nth_error_None; rewrite map_length; exact Xr). congruence.
  - intros (i & row & -> & Xr & Xx & Nn). split.
    + exists i. split; [reflexivity|]. unfold ys. erewrite map_nth_error by exact Xr. f_equal. apply nth_error_nth. exact Xx.
    + destruct (data_eqb x DNone) eqn:D; [|reflexivity]. apply eqb_none in D. contradiction.
Qed.

Lemma set_nth_same : forall {A : Type} (l : list A) i x, nth_error l i = Some x -> set_nth i x l = l.
Proof. induction l as [|y l IH]; intros [|i] x E; cbn in *; try discriminate; [congruence|]. f_equal. apply IH, E. Qed.

(** A column of a basic type accepts null and the values of the type and nothing else. A
    refused value leaves the builder as it was. *)
Theorem C53_rejects : forall cols b t m bt x k xs, nth_error cols (b_column b) = Some t -> strip t = TBasic m bt ->
  nth_error (b_arrays b) (b_column b) = Some (APrim k xs) ->
  exists b' ok, add_impl cols b x = Some (b', ok) /\ (ok = true <-> x = DNone \/ congruent_data (TBasic m bt) x = true) /\ (ok = false -> b' = b).
Proof.
  intros cols b t m bt x k xs Xt St Xa. unfold add_impl. rewrite Xt, Xa, add_strip, St. cbn [add].
  destruct b as [c r l]. cbn [b_column b_rows b_arrays] in *.
  assert (G : forall a', exists b' : builder, (if S c =? length l then Some ({| b_column := 0; b_rows := S r; b_arrays := set_nth c a' l |}, true)
    else Some ({| b_column := S c; b_rows := r; b_arrays := set_nth c a' l |}, true)) = Some (b', true)) by (intros a'; destruct (S c =? length l); eexists; reflexivity).
  destruct x; (match goal with |- context [to_prim bt ?x] => destruct (to_prim bt x) eqn:T | _ => idtac end);
    try (match goal with |- context [set_nth c ?a' l] => destruct (G a') as (b' & E) end; exists b', true; split; [exact E|]; split; [|discriminate];
         split; [intros _|reflexivity]; first [left; reflexivity|right; destruct bt; cbn in T; try discriminate T; reflexivity]);
    (eexists; exists false; split; [reflexivity|]; split; [split; [discriminate|intros [X|X]; [discriminate X|destruct bt; cbn in T; try discriminate T; discriminate X] ]|
       intros _; rewrite set_nth_same by exact Xa; reflexivity]).
Qed.

(** Reading a column whose type is an alias without naming a type yields null in every
    row, and appending it to an index appends nothing. *)
Theorem C53_alias : forall cols rows s answers, cols <> [] -> Forall (fun t => plain (strip t)) cols -> Forall (Forall2 cell cols) rows ->
  build cols rows = Some (s, answers) -> forall j m v, nth_error cols j = Some (TAlias m v) ->
  (forall i, i < length rows -> at_ s i j = Some DNone) /\ forall first, to_index s first j = Some [].
Proof.
  intros cols rows s answers Ne P F B j m v Xt. destruct (build_ok cols rows Ne P F) as (l & E & F2 & V). rewrite E in B. injection B as <- _.
  destruct (forall2_nth _ _ _ _ _ F2 Xt) as (a & Xa & _ & _ & La). assert (Hj : j < length l) by (apply nth_error_Some; congruence).
  assert (N0 : forall i, value_at (TAlias m v) a i = Some DNone) by (intros i; destruct a as [|k xs| |]; try reflexivity; destruct k; reflexivity). split.
  - intros i Hi. unfold at_. cbn [as_cols as_arrays as_rows]. replace ((i <? length rows) && (j <? length l)) with true by lia. rewrite Xt, Xa. apply N0.
  - intros first. unfold to_index. cbn [as_cols as_arrays]. rewrite Xt, Xa. rewrite (all_some_map _ _ (repeat DNone (alen a))).
    + cbn [option_map]. f_equal. generalize (alen a) as n. clear. intros n. revert first. induction n as [|n IH]; intros first; [reflexivity|]. cbn. apply IH.
    + clear La. generalize 0. induction (alen a) as [|n IH]; intros z; [reflexivity|]. cbn [seq map repeat]. rewrite N0, IH. reflexivity.
Qed.

(** ** Cases *)

Definition nm (s : list N) : meta := {| m_name := s; m_attrs := [] |}.
Definition count_t : ty := TBasic no_meta BCount.
Definition string_t : ty := TBasic no_meta BString.
(** { a: count, l: list<string>, m: map<string, count>, e: enum, r inside a list, and an alias } *)
Definition sample_cols : list ty :=
  [count_t; TList no_meta string_t; TMap no_meta string_t count_t; TEnum no_meta [[120]; [121]]%N;
   TList no_meta (TRecord no_meta [([97]%N, count_t); ([98]%N, TBasic no_meta BSubnet)]); TAlias (nm [112]%N) count_t].
Definition sample_rows : list (list data) :=
  [ [DCount 7; DList [DString [1]; DNone; DString []]; DMap [(DString [2], DCount 3)]; DEnum 1;
     DList [DRecord [([97], DCount 5); ([98], DSubnet (sn_make (repeat 0 10 ++ [255; 255; 10; 1; 2; 3]) 104))]; DNone]; DCount 80];
    [DNone; DNone; DMap []; DNone; DList []; DNone];
    [DCount 9; DList [DString [4; 5]]; DNone; DEnum 0; DList [DRecord [([97], DNone); ([98], DNone)]]; DCount 443] ]%N.
Lemma sample_fits : Forall (fun t => plain (strip t)) sample_cols /\ Forall (Forall2 cell sample_cols) sample_rows.
Proof.
  split.
  - repeat (apply Forall_cons); try apply Forall_nil; cbn; auto. repeat split; auto. repeat (constructor; [cbn; intuition congruence|]). constructor.
  - assert (W : sn_wf (sn_make (repeat 0 10 ++ [255; 255; 10; 1; 2; 3])%N 104%N)).
    { apply sn_make_wf. split; [reflexivity|]. repeat constructor. }
    repeat (apply Forall_cons); try apply Forall_nil;
      repeat (apply Forall2_cons); try apply Forall2_nil; try apply cell_null; try (right; exact I);
      try (right; eexists; split; [reflexivity|]; first [reflexivity|repeat (apply Forall_cons); try apply Forall_nil; try apply cell_null; try (right; exact I);
             try (split; right; exact I)]);
      try (right; right; exact I).
    + apply cell_record. repeat (apply Forall2_cons; [split; [reflexivity|right; first [exact I|exact W] ]|]). constructor.
    + apply cell_record. repeat (apply Forall2_cons; [split; [reflexivity|apply cell_null]|]). constructor.
Qed.
Example C53_example : exists s l, build sample_cols sample_rows = Some (s, l) /\ at_ s 0 1 = Some (DList [DString [1]; DNone; DString []])%N /\
  at_ s 2 4 = Some (DList [DRecord [([97], DNone); ([98], DNone)]])%N /\ at_typed s 2 5 (TAlias (nm [112]%N) count_t) = Some (DCount 443) /\
  to_index s 100 0 = Some [(100, DCount 7); (102, DCount 9)].
Proof. eexists. eexists. repeat (apply conj; [vm_compute; reflexivity|]). vm_compute. reflexivity. Qed.
Example C53_rejects_example : exists b, new_builder [count_t] = Some b /\ add_impl [count_t] b (DString []) = Some (b, false).
Proof. eexists. split; vm_compute; reflexivity. Qed.

(** A value written to a column whose type is an alias reads as null, although [at] is
    given the same row and column, and no index is told about it. *)
Theorem C53_alias_refuted : exists cols rows s answers x, Forall (fun t => plain (strip t)) cols /\ Forall (Forall2 cell cols) rows /\
  build cols rows = Some (s, answers) /\ nth_error rows 0 = Some [x] /\ x <> DNone /\ at_ s 0 0 = Some DNone /\ to_index s 0 0 = Some [].
Proof.
  exists [TAlias (nm [112]%N) count_t], [[DCount 80]]. eexists. eexists. exists (DCount 80).
  split; [repeat constructor|]. split; [constructor; [constructor; [right; right; exact I|constructor]|constructor]|].
  split; [vm_compute; reflexivity|]. split; [reflexivity|]. split; [discriminate|]. split; vm_compute; reflexivity.
Qed.
(** The elements of a list of an alias read as null, also when the type is named. *)
Theorem C53_nested_alias_refuted : exists t x s answers, cell t x /\ build [t] [[x]] = Some (s, answers) /\
  at_typed s 0 0 t = Some (DList [DNone]) /\ x = DList [DCount 80].
Proof.
  exists (TList no_meta (TAlias (nm [112]%N) count_t)), (DList [DCount 80]). eexists. eexists.
  split; [right; eexists; split; [reflexivity|repeat constructor; right; right; exact I]|].
  split; [vm_compute; reflexivity|]. split; [vm_compute; reflexivity|reflexivity].
Qed.
(** A refused list leaves a slot behind: the value that is accepted in its place is read
    one row later. *)
Theorem C53_failed_add_refuted : exists t bad good b0 b1 b2 s, new_builder [t] = Some b0 /\ add_impl [t] b0 bad = Some (b1, false) /\
  add_impl [t] b1 good = Some (b2, true) /\ finish [t] b2 = Some s /\ as_rows s = 1 /\ cell t good /\ at_ s 0 0 = Some (DList [DCount 1]) /\ good = DList [DCount 2].
Proof.
  exists (TList no_meta count_t), (DList [DCount 1; DString []])%N, (DList [DCount 2]). do 4 eexists.
  split; [vm_compute; reflexivity|]. split; [vm_compute; reflexivity|]. split; [vm_compute; reflexivity|]. split; [vm_compute; reflexivity|].
  split; [reflexivity|]. split; [right; eexists; split; [reflexivity|repeat constructor; right; exact I]|]. split; [vm_compute; reflexivity|reflexivity].
Qed.
(** Records inside lists are stored by position: a record with the fields in another order
    is accepted and reads back with the values under the wrong names. *)
Theorem C53_record_order_refuted : exists t x y s answers, build [t] [[x]] = Some (s, answers) /\ answers = [true] /\ at_ s 0 0 = Some y /\
  x = DList [DRecord [([98], DCount 1); ([97], DCount 2)]]%N /\ y = DList [DRecord [([97], DCount 1); ([98], DCount 2)]]%N.
Proof.
  exists (TList no_meta (TRecord no_meta [([97]%N, count_t); ([98]%N, count_t)])), (DList [DRecord [([98], DCount 1); ([97], DCount 2)]])%N. do 3 eexists.
  split; [vm_compute; reflexivity|]. split; [reflexivity|]. split; [vm_compute; reflexivity|]. split; reflexivity.
Qed.

Definition assumptions_arrow := (C53_slice, C53_index, C53_rejects, C53_alias, C53_alias_refuted, C53_nested_alias_refuted, C53_failed_add_refuted, C53_record_order_refuted).
Print Assumptions assumptions_arrow.
