(** Proofs about Arrow-encoded table slices. *)
From Coq Require Import List ZArith NArith Bool Arith Lia ZifyBool ZifyNat ZifyN.
From Verif Require Import OperatorModel AddressModel AddressProofs DataModel DataProofs TypeModel TypeProofs MsgpackProofs ArrowModel.
Import ListNotations.
Open Scope nat_scope.

(** * Which values a type has *)

(** Types without aliases, with distinct names in records. *)
Fixpoint plain (t : ty) : Prop :=
  match t with
  | TAlias _ _ => False
  | TNull | TNone _ | TBasic _ _ | TEnum _ _ => True
  | TList _ v => plain v
  | TMap _ k v => plain k /\ plain v
  | TRecord _ fs => NoDup (map fst fs) /\ (fix go (fs : list field) : Prop := match fs with [] => True | (_, t) :: r => plain t /\ go r end) fs
  end.
Definition basic_cell (b : basic) (x : data) : Prop :=
  match b, x with
  | BBool, DBool _ | BInteger, DInt _ | BCount, DCount _ | BReal, DReal _ | BDuration, DDuration _ | BTime, DTime _
  | BString, DString _ | BPattern, DPattern _ | BAddress, DAddress _ => True
  | BSubnet, DSubnet s => sn_wf s
  | _, _ => False
  end.
(** Null, or a value of the type whose parts are null or values of the parts of the type.
    Records have the fields of the type in order. *)
Fixpoint cell (t : ty) (x : data) {struct t} : Prop :=
  x = DNone \/
  match t with
  | TNull | TNone _ => False
  | TBasic _ b => basic_cell b x
  | TEnum _ _ => exists n, x = DEnum n /\ (n < 256)%N
  | TList _ v => exists xs, x = DList xs /\ Forall (cell v) xs
  | TMap _ k v => exists xs, x = DMap xs /\ Forall (fun p => cell k (fst p) /\ cell v (snd p)) xs
  | TRecord _ fs => exists xs, x = DRecord xs /\
      (fix go (fs : list field) (xs : list (list N * data)) : Prop :=
         match fs, xs with
         | [], [] => True
         | (n, t) :: fs', (m, y) :: xs' => n = m /\ cell t y /\ go fs' xs'
         | _, _ => False
         end) fs xs
  | TAlias _ v => cell v x
  end.
Lemma cell_null : forall t, cell t DNone. Proof. destruct t; left; reflexivity. Qed.
Lemma cell_record : forall m fs xs, cell (TRecord m fs) (DRecord xs) <-> Forall2 (fun f y => fst f = fst y /\ cell (snd f) (snd y)) fs xs.
Proof.
  intros m fs xs. cbn [cell]. split.
  - intros [H|(ys & [= <-] & H)]; [discriminate|]. revert xs H. induction fs as [|[n t] fs IH]; intros [|[k y] xs] H; try contradiction; constructor; cbn; [tauto|].
    apply IH. tauto.
  - intros H. right. exists xs. split; [reflexivity|]. induction H as [|[n t] [k y] fs xs [A B] H IH]; [exact I|]. auto.
Qed.
Lemma plain_record : forall m fs, plain (TRecord m fs) <-> NoDup (map fst fs) /\ Forall (fun f => plain (snd f)) fs.
Proof.
  intros m fs. cbn [plain]. split; intros [A B]; (split; [exact A|]); clear A.
  - induction fs as [|[n t] fs IH]; constructor; [apply B|]. apply IH, B.
  - induction B as [|[n t] fs P B IH]; [exact I|]. split; assumption.
Qed.

(** * Arrays that belong to a type *)

Fixpoint shape (t : ty) (a : arr) {struct t} : Prop :=
  match t, a with
  | TNull, ANull _ | TNone _, ANull _ => True
  | TBasic _ b, APrim k _ => k = kind_of b
  | TEnum _ _, APrim k _ => k = KUint64
  | TList _ v, AList xs c => shape v c /\ Forall (fun p => snd p <= alen c) xs
  | TMap _ kt vt, AList xs (AStruct valid [(_, ka); (_, va)]) =>
      shape kt ka /\ shape vt va /\ alen ka = length valid /\ alen va = length valid /\ Forall (fun p => snd p <= length valid) xs
  | TRecord _ fs, AStruct valid cs =>
      (fix go (fs : list field) (cs : list (list N * arr)) : Prop :=
         match fs, cs with
         | [], [] => True
         | (n, t) :: fs', (m, a) :: cs' => n = m /\ (shape t a /\ alen a = length valid) /\ go fs' cs'
         | _, _ => False
         end) fs cs
  | TAlias _ v, _ => shape v a
  | _, _ => False
  end.
Lemma shape_record : forall m fs valid cs, shape (TRecord m fs) (AStruct valid cs) <->
  Forall2 (fun f c => fst f = fst c /\ (shape (snd f) (snd c) /\ alen (snd c) = length valid)) fs cs.
Proof.
  intros m fs valid cs. cbn [shape]. split.
  - revert cs. induction fs as [|[n t] fs IH]; intros [|[k y] xs] H; try contradiction; constructor; cbn; [tauto|].
    apply IH. tauto.
  - intros H. induction H as [|[n t] [k y] fs xs [A B] H IH]; [exact I|]. auto.
Qed.

(** ** Nulls *)

Lemma list_end_app : forall xs b n m i, i < length xs -> list_end (xs ++ [(b, n)]) m i = list_end xs n i.
Proof.
  intros xs b n m i H. unfold list_end. destruct (Nat.eq_dec (S i) (length xs)) as [E|E].
  - assert (F : nth_error xs (S i) = None) by (apply nth_error_None; lia).
    assert (G : nth_error (xs ++ [(b, n)]) (S i) = Some (b, n)) by (rewrite E, nth_error_app2, Nat.sub_diag by lia; reflexivity).
    rewrite F, G. reflexivity.
  - assert (G : nth_error (xs ++ [(b, n)]) (S i) = nth_error xs (S i)) by (apply nth_error_app1; lia).
    rewrite G. destruct (nth_error xs (S i)) as [ [? ?]|] eqn:F; [reflexivity|]. apply nth_error_None in F. lia.
Qed.
Lemma list_end_le : forall xs n i, Forall (fun p : bool * nat => snd p <= n) xs -> list_end xs n i <= n.
Proof.
  intros xs n i H. unfold list_end. destruct (nth_error xs (S i)) as [[b s]|] eqn:F; [|lia]. apply nth_error_In in F.
  rewrite Forall_forall in H. apply (H _ F).
Qed.
Lemma map_seq_ext : forall {A : Type} (f g : nat -> A) s n, (forall i, s <= i < s + n -> f i = g i) -> map f (seq s n) = map g (seq s n).
Proof. intros A f g s n H. apply map_ext_in. intros i Hi. apply in_seq in Hi. auto. Qed.
Lemma nth_error_snoc : forall {A : Type} (l : list A) x, nth_error (l ++ [x]) (length l) = Some x.
Proof. intros. rewrite nth_error_app2 by lia. now rewrite Nat.sub_diag. Qed.

(** What reading the fields depends on. *)
Lemma read_fields_ext : forall all all' r r' fs cs cs', map fst all = map fst all' ->
  Forall2 (fun (f : field) c => fst f = fst c) fs cs ->
  Forall2 (fun (c c' : list N * arr) => fst c = fst c') cs cs' ->
  (forall i f c c', nth_error fs i = Some f -> nth_error cs i = Some c -> nth_error cs' i = Some c' -> value_at (snd f) (snd c') r' = value_at (snd f) (snd c) r) ->
  read_fields all' (map (fun g => (fst g, fun c => value_at (snd g) c r')) fs) cs' =
  read_fields all (map (fun g => (fst g, fun c => value_at (snd g) c r)) fs) cs.
Proof.
  intros all all' r r' fs cs cs' Ea Hf Hc Hv. revert cs' Hc Hv. induction Hf as [|f c fs cs E Hf IH]; intros cs' Hc Hv.
  - inversion Hc; subst. reflexivity.
  - inversion Hc as [|? c' ? cs1 E' Hc']; subst. destruct c as [n a]. destruct c' as [n' a']. cbn [fst] in E'. subst n'.
    cbn [map read_fields]. assert (U : unique_name (fst f) all' = unique_name (fst f) all).
    { unfold unique_name. f_equal. clear -Ea. revert all' Ea. induction all as [|[x y] all IH]; intros [|[x' y'] all'] E; try discriminate; [reflexivity|].
      cbn in E. injection E as <- E. cbn. destruct (bytes_eqb x (fst f)); cbn; rewrite (IH _ E); reflexivity. }
    rewrite U. destruct (_ && _); [|reflexivity].
    rewrite (Hv 0 f (n, a) (n, a') eq_refl eq_refl eq_refl : value_at (snd f) a' r' = value_at (snd f) a r).
    rewrite (IH cs1 Hc'); [reflexivity|]. intros i g c c' A B C. exact (Hv (S i) g c c' A B C).
Qed.
Lemma forall2_names : forall (P : field -> list N * arr -> Prop) fs cs, Forall2 (fun f c => fst f = fst c /\ P f c) fs cs -> Forall2 (fun (f : field) c => fst f = fst c) fs cs.
Proof. intros P fs cs H. induction H; constructor; tauto. Qed.

Definition keeps (t : ty) (a a' : arr) : Prop := forall i, i < alen a -> value_at t a' i = value_at t a i.

Lemma append_null_spec : forall t a, plain t -> shape t a ->
  shape t (append_null a) /\ alen (append_null a) = S (alen a) /\ value_at t (append_null a) (alen a) = Some DNone /\ keeps t a (append_null a).
Proof.
  induction t as [|m|m b|m es|m v IHv|m kt vt IHk IHv|m fs IH|m v IHv] using ty_rect'; intros a P Sh; cbn [plain] in P; try contradiction.
  - destruct a; cbn [shape] in Sh; try contradiction. cbn. repeat split; intros i Hi; reflexivity.
  - destruct a; cbn [shape] in Sh; try contradiction. cbn. repeat split; intros i Hi; reflexivity.
  - destruct a as [|k xs| |]; cbn [shape] in Sh; try contradiction. subst k. cbn [append_null shape alen value_at]. split; [reflexivity|].
    split; [rewrite app_length; cbn; lia|]. split; [rewrite nth_error_snoc; destruct b; reflexivity|].
    intros i Hi. cbn [alen] in Hi. cbn [value_at]. rewrite nth_error_app1 by exact Hi. reflexivity.
  - destruct a as [|k xs| |]; cbn [shape] in Sh; try contradiction. subst k. cbn [append_null shape alen value_at]. split; [reflexivity|].
    split; [rewrite app_length; cbn; lia|]. split; [rewrite nth_error_snoc; reflexivity|].
    intros i Hi. cbn [alen] in Hi. cbn [value_at]. rewrite nth_error_app1 by exact Hi. reflexivity.
  - destruct a as [| |xs c|]; cbn [shape] in Sh; try contradiction. destruct Sh as [Sc Ss]. cbn [append_null shape alen value_at].
    split; [split; [exact Sc|apply Forall_app; split; [exact Ss|repeat constructor]]|]. split; [rewrite app_length; cbn; lia|].
    split; [rewrite nth_error_snoc; reflexivity|].
    intros i Hi. cbn [alen] in Hi. cbn [value_at]. rewrite nth_error_app1 by exact Hi. rewrite list_end_app by exact Hi. reflexivity.
  - destruct a as [| |xs c|]; cbn [shape] in Sh; try contradiction. destruct c as [| | |valid cs]; try contradiction.
    destruct cs as [|[kn ka] [|[vn va] [|? ?] ] ]; try contradiction. destruct Sh as (S1 & S2 & L1 & L2 & Ss). cbn [append_null shape alen value_at].
    split; [repeat split; auto; apply Forall_app; split; [exact Ss|repeat constructor]|]. split; [rewrite app_length; cbn; lia|].
    split; [rewrite nth_error_snoc; reflexivity|].
    intros i Hi. cbn [alen] in Hi. cbn [value_at]. rewrite nth_error_app1 by exact Hi. cbn [alen]. rewrite list_end_app by exact Hi. reflexivity.
  - destruct a as [| | |valid cs]; [contradiction|contradiction|contradiction|]. apply shape_record in Sh.
    cbn [append_null]. pose proof (proj2 (proj1 (plain_record m fs) P)) as Pf. clear P.
    set (cs' := map (fun f => (fst f, append_null (snd f))) cs).
    assert (G : Forall2 (fun f c => fst f = fst c /\ (shape (snd f) (snd c) /\ alen (snd c) = length (valid ++ [false]))) fs cs' /\
      Forall2 (fun (c c' : list N * arr) => fst c = fst c') cs cs' /\
      forall i f c c', nth_error fs i = Some f -> nth_error cs i = Some c -> nth_error cs' i = Some c' -> keeps (snd f) (snd c) (snd c') /\ alen (snd c) = length valid).
    { unfold cs'. clear cs'. induction Sh as [|f c fs cs (E & Sf & L) Sh IHf]; [split; [constructor|]; split; [constructor|]; intros [|i] ? ? ? X; discriminate X|].
      inversion IH as [|? ? H1 H2]; subst. inversion Pf as [|? ? Q1 Q2]; subst. destruct (IHf H2 Q2) as (A & B & C).
      destruct (H1 (snd c) Q1 Sf) as (S1 & L1 & _ & K1). cbn [map]. split; [|split].
      - constructor; [|exact A]. cbn [fst snd]. split; [exact E|]. split; [exact S1|]. rewrite app_length. cbn. lia.
      - constructor; [reflexivity|exact B].
      - intros [|i] f' c1 c' X Y Z; cbn in X, Y, Z; [|eapply C; eassumption]. injection X as <-. injection Y as <-. injection Z as <-. split; assumption. }
    destruct G as (A & B & C). cbn [alen]. split; [apply shape_record, A|]. split; [rewrite app_length; cbn; lia|].
    split; [cbn [value_at]; rewrite nth_error_snoc; reflexivity|].
    intros i Hi. cbn [alen] in Hi. cbn [value_at]. rewrite nth_error_app1 by exact Hi. destruct (nth_error valid i) as [[|]|]; try reflexivity. f_equal.
    apply read_fields_ext.
    + clear -B. induction B as [|c c' cs cs' E B IH]; [reflexivity|]. cbn. congruence.
    + eapply forall2_names. exact Sh.
    + exact B.
    + intros j f c c' X Y Z. destruct (C j f c c' X Y Z) as [K L]. apply K. lia.
Qed.

(** ** Sequences *)

Lemma add_each_gen : forall {A B : Type} (f : A -> B -> option (A * bool)) (Inv : A -> Prop) (len : A -> nat) (get : A -> nat -> option B) (ok : B -> Prop),
  (forall a y, Inv a -> ok y -> exists a', f a y = Some (a', true) /\ Inv a' /\ len a' = S (len a) /\ get a' (len a) = Some y /\
     forall i, i < len a -> get a' i = get a i) ->
  forall ys a, Inv a -> Forall ok ys -> exists a', add_each f a ys = Some (a', true) /\ Inv a' /\ len a' = len a + length ys /\
    all_some (map (get a') (seq (len a) (length ys))) = Some ys /\ forall i, i < len a -> get a' i = get a i.
Proof.
  intros A B f Inv len get ok St. induction ys as [|y ys IH]; intros a V K.
  - exists a. cbn. repeat split; auto.
  - inversion K as [|? ? K1 K2]; subst. destruct (St a y V K1) as (a1 & E & V1 & L1 & G1 & P1).
    destruct (IH a1 V1 K2) as (a2 & E2 & V2 & L2 & G2 & P2). exists a2. cbn [add_each]. rewrite E. split; [exact E2|]. split; [exact V2|].
    split; [cbn [length]; lia|]. split.
    + cbn [length seq map all_some]. rewrite P2 by lia. rewrite G1. rewrite <- L1, G2. reflexivity.
    + intros i Hi. rewrite P2 by lia. apply P1, Hi.
Qed.

Lemma of_to_prim : forall b x, basic_cell b x -> exists p, to_prim b x = Some p /\ of_prim (kind_of b) b p = Some x.
Proof.
  intros b x H. destruct b, x; cbn [basic_cell] in H; try contradiction; try (eexists; split; reflexivity).
  eexists. split; [reflexivity|]. pose proof (proj1 H) as W. destruct W as [L _].
  cbn [of_prim kind_of]. rewrite firstn_app, L, Nat.sub_diag, firstn_O, app_nil_r, firstn_all2 by lia.
  rewrite app_nth2 by lia. rewrite L, Nat.sub_diag. cbn [nth]. rewrite sn_make_length by exact H. reflexivity.
Qed.

Lemma basic_cell_none : forall b, ~ basic_cell b DNone. Proof. destruct b; cbn; auto. Qed.

Lemma unique_name_nodup : forall (fs : list field) (cs : list (list N * arr)), NoDup (map fst fs) -> Forall2 (fun f c => fst f = fst c) fs cs ->
  forall f, In f fs -> unique_name (fst f) cs = true.
Proof.
  intros fs cs Nd H. unfold unique_name. assert (Z : forall n, ~ In n (map fst fs) -> filter (fun f : list N * arr => bytes_eqb (fst f) n) cs = []).
  { clear Nd. induction H as [|f c fs cs E H IH]; intros n Hn; [reflexivity|]. cbn [map In] in Hn. cbn [filter].
    destruct (bytes_eqb (fst c) n) eqn:B; [apply bytes_eqb_spec in B; exfalso; apply Hn; left; congruence|]. apply IH. tauto. }
  induction H as [|f c fs cs E H IH]; intros g Hg; [contradiction|]. cbn [map] in Nd. inversion Nd as [|? ? N1 N2]; subst.
  assert (Z' : forall n, ~ In n (map fst fs) -> filter (fun f : list N * arr => bytes_eqb (fst f) n) cs = []).
  { intros n Hn. clear - Hn H. induction H as [|f c fs cs E H IH]; [reflexivity|]. cbn [map In] in Hn. cbn [filter].
    destruct (bytes_eqb (fst c) n) eqn:B; [apply bytes_eqb_spec in B; exfalso; apply Hn; left; congruence|]. apply IH. tauto. }
  clear Z. cbn [filter]. destruct Hg as [->|Hg].
  - destruct (bytes_eqb (fst c) (fst g)) eqn:B; [|exfalso; assert (bytes_eqb (fst c) (fst g) = true) by (apply bytes_eqb_spec; congruence); congruence].
    rewrite Z' by exact N1. reflexivity.
  - destruct (bytes_eqb (fst c) (fst g)) eqn:B.
    + apply bytes_eqb_spec in B. exfalso. apply N1. apply in_map_iff. exists g. split; [congruence|exact Hg].
    + apply IH; [exact N2|intros; apply Z'; assumption|exact Hg].
Qed.
Lemma read_fields_all : forall all row fs cs ys,
  (forall f, In f fs -> unique_name (fst f) all = true) ->
  Forall2 (fun (f : field) (c : list N * arr) => fst f = fst c) fs cs ->
  Forall2 (fun (f : field) (y : list N * data) => fst f = fst y) fs ys ->
  (forall i f c y, nth_error fs i = Some f -> nth_error cs i = Some c -> nth_error ys i = Some y -> value_at (snd f) (snd c) row = Some (snd y)) ->
  read_fields all (map (fun g => (fst g, fun c => value_at (snd g) c row)) fs) cs = Some ys.
Proof.
  intros all row fs cs ys U Hc Hy Hv. revert ys Hy Hv. induction Hc as [|f [n a] fs cs E Hc IH]; intros ys Hy Hv.
  - inversion Hy. reflexivity.
  - inversion Hy as [|? y ? ys' E' Hy']; subst. cbn [map read_fields fst] in *. subst n.
    rewrite (proj2 (bytes_eqb_spec _ _) eq_refl), U by (left; reflexivity). cbn [andb].
    pose proof (Hv 0 f (fst f, a) y eq_refl eq_refl eq_refl) as V0. cbn [snd] in V0. rewrite V0.
    rewrite (IH (fun g Hg => U g (or_intror Hg)) ys' Hy'); [|intros i g c z A B C; exact (Hv (S i) g c z A B C)].
    destruct y as [m y]. cbn in E'. subst. reflexivity.
Qed.

(** Adding a value of the type appends a slot that reads back as the value. *)
Lemma add_spec : forall t a x, plain t -> shape t a -> cell t x ->
  exists a', add t a x = Some (a', true) /\ shape t a' /\ alen a' = S (alen a) /\ value_at t a' (alen a) = Some x /\ keeps t a a'.
Proof.
  induction t as [|m|m b|m es|m v IHv|m kt vt IHk IHv|m fs IH|m v IHv] using ty_rect'; intros a x P Sh C.
  - destruct C as [->|[] ]. destruct (append_null_spec TNull a P Sh) as (A & B & D & E). destruct a; try contradiction.
    exists (ANull (S n)). cbn [add]. auto.
  - destruct C as [->|[] ]. destruct (append_null_spec (TNone m) a P Sh) as (A & B & D & E). destruct a; try contradiction.
    exists (ANull (S n)). cbn [add]. auto.
  - destruct a as [|k xs| |]; try contradiction. pose proof Sh as Sk. cbn [shape] in Sk. destruct C as [->|C].
    + destruct (append_null_spec _ _ P Sh) as (A & B & D & E). exists (append_null (APrim k xs)). auto.
    + destruct (of_to_prim _ _ C) as (p & T & O). exists (APrim k (xs ++ [Some p])). split.
      { cbn [add]. destruct x; try (rewrite T; reflexivity). destruct b; contradiction. }
      subst k. split; [reflexivity|]. cbn [alen]. split; [rewrite app_length; cbn; lia|]. split.
      * cbn [value_at]. rewrite nth_error_snoc. destruct b; exact O.
      * intros i Hi. cbn [alen] in Hi. cbn [value_at]. rewrite nth_error_app1 by exact Hi. reflexivity.
  - destruct a as [|k xs| |]; try contradiction. pose proof Sh as Sk. cbn [shape] in Sk. destruct C as [->|C].
    + destruct (append_null_spec _ _ P Sh) as (A & B & D & E). exists (append_null (APrim k xs)). auto.
    + destruct C as (n & -> & Hn). exists (APrim k (xs ++ [Some (PUint n)])). split; [reflexivity|].
      subst k. split; [reflexivity|]. cbn [alen]. split; [rewrite app_length; cbn; lia|]. split.
      * cbn [value_at]. rewrite nth_error_snoc. rewrite N.mod_small by exact Hn. reflexivity.
      * intros i Hi. cbn [alen] in Hi. cbn [value_at]. rewrite nth_error_app1 by exact Hi. reflexivity.
  - destruct a as [| |xs c|]; try contradiction. pose proof Sh as [Sc Ss]. cbn [plain] in P. destruct C as [->|C].
    + destruct (append_null_spec (TList m v) _ P Sh) as (A & B & D & E). exists (append_null (AList xs c)). auto.
    + destruct C as (ys & -> & C).
      destruct (add_each_gen (add v) (shape v) alen (value_at v) (cell v)) with (ys := ys) (a := c) as (c' & E & S' & L & G & K); [|exact Sc|exact C|].
      { intros b y Sb Cy. apply (IHv b y P Sb Cy). }
      exists (AList (xs ++ [(true, alen c)]) c'). cbn [add]. rewrite E. split; [reflexivity|]. cbn [shape alen]. split.
      { split; [exact S'|]. apply Forall_app. split; [|constructor; [cbn; lia|constructor] ]. eapply Forall_impl; [|exact Ss]. cbn. lia. }
      split; [rewrite app_length; cbn; lia|]. split.
      * cbn [value_at]. rewrite nth_error_snoc. unfold list_end.
        rewrite (proj2 (nth_error_None _ _)) by (rewrite app_length; cbn; lia). rewrite L.
        replace (alen c + length ys - alen c) with (length ys) by lia. rewrite G. reflexivity.
      * intros i Hi. cbn [alen] in Hi. cbn [value_at]. rewrite nth_error_app1, list_end_app by exact Hi.
        destruct (nth_error xs i) as [ [ [|] s]|] eqn:F; try reflexivity. f_equal. f_equal. apply map_seq_ext. intros j Hj. apply K.
        pose proof (list_end_le xs (alen c) i Ss). lia.
  - destruct a as [| |xs c|]; try contradiction. destruct C as [->|C].
    + destruct (append_null_spec (TMap m kt vt) _ P Sh) as (A & B & D & E). exists (append_null (AList xs c)). auto.
    + destruct C as (ys & -> & C). destruct P as [Pk Pv].
      set (Inv := fun c : arr => exists valid kn ka vn va, c = AStruct valid [(kn, ka); (vn, va)] /\ shape kt ka /\ shape vt va /\ alen ka = length valid /\ alen va = length valid).
      set (get := fun (c : arr) (i : nat) => match c with AStruct _ [(_, ka); (_, va)] => both_some (value_at kt ka i) (value_at vt va i) | _ => None end).
      cbn [shape] in Sh. destruct c as [| | |valid cs]; try contradiction. destruct cs as [|[kn ka] [|[vn va] [|? ?] ] ]; try contradiction.
      destruct Sh as (S1 & S2 & L1 & L2 & Ss).
      cbn [add]. match goal with |- context [add_each ?ff (AStruct valid _) ys] => set (f := ff) end.
      destruct (add_each_gen f Inv alen get (fun p => cell kt (fst p) /\ cell vt (snd p))) with (ys := ys) (a := AStruct valid [(kn, ka); (vn, va)]) as (c' & E & S' & L & G & K); [| |exact C|].
      { intros b [y1 y2] (valid' & kn' & ka' & vn' & va' & -> & T1 & T2 & M1 & M2) [C1 C2]. cbn [fst snd] in C1, C2.
        destruct (IHk ka' y1 Pk T1 C1) as (ka2 & A1 & A2 & A3 & A4 & A5). destruct (IHv va' y2 Pv T2 C2) as (va2 & B1 & B2 & B3 & B4 & B5).
        exists (AStruct (valid' ++ [true]) [(kn', ka2); (vn', va2)]). unfold f. cbn [fst snd]. rewrite A1, B1. split; [reflexivity|]. split.
        { exists (valid' ++ [true]), kn', ka2, vn', va2. repeat split; auto; rewrite app_length; cbn; lia. }
        cbn [alen]. split; [rewrite app_length; cbn; lia|]. unfold get. split.
        - rewrite <- M1, A4. rewrite M1, <- M2, B4. reflexivity.
        - intros i Hi. rewrite A5, B5 by lia. reflexivity. }
      { exists valid, kn, ka, vn, va. auto 8. }
      exists (AList (xs ++ [(true, length valid)]) c'). rewrite E. split; [reflexivity|].
      destruct S' as (valid' & kn' & ka' & vn' & va' & -> & T1 & T2 & M1 & M2). cbn [alen] in L, G, K. split.
      { cbn [shape]. repeat split; auto. apply Forall_app. split; [|constructor; [cbn; lia|constructor] ]. eapply Forall_impl; [|exact Ss]. cbn. lia. }
      cbn [alen]. split; [rewrite app_length; cbn; lia|]. split.
      * cbn [value_at]. rewrite nth_error_snoc. unfold list_end.
        rewrite (proj2 (nth_error_None _ _)) by (rewrite app_length; cbn; lia). cbn [alen]. rewrite L.
        replace (length valid + length ys - length valid) with (length ys) by lia. unfold get in G. rewrite G. reflexivity.
      * intros i Hi. cbn [alen] in Hi. cbn [value_at]. cbn [alen]. rewrite nth_error_app1, list_end_app by exact Hi.
        destruct (nth_error xs i) as [ [ [|] s]|] eqn:F; try reflexivity. f_equal. f_equal. apply map_seq_ext. intros j Hj. apply K.
        pose proof (list_end_le xs (length valid) i Ss). lia.
  - destruct a as [| | |valid cs]; [contradiction|contradiction|contradiction|]. destruct C as [->|C].
    { destruct (append_null_spec (TRecord m fs) _ P Sh) as (A & B & D & E). exists (append_null (AStruct valid cs)). auto. }
    destruct C as (ys & -> & C). assert (C' : cell (TRecord m fs) (DRecord ys)) by (right; exists ys; auto). clear C. apply cell_record in C'.
    apply shape_record in Sh. apply plain_record in P. destruct P as [Nd Pf].
    assert (G : exists cs', add_fields (map (fun f => add (snd f)) fs) cs ys = Some (cs', true) /\
      Forall2 (fun f c => fst f = fst c /\ (shape (snd f) (snd c) /\ alen (snd c) = length (valid ++ [true]))) fs cs' /\
      Forall2 (fun (c c' : list N * arr) => fst c = fst c') cs cs' /\
      (forall i f c c', nth_error fs i = Some f -> nth_error cs i = Some c -> nth_error cs' i = Some c' -> keeps (snd f) (snd c) (snd c') /\ alen (snd c) = length valid) /\
      (forall i f c' y, nth_error fs i = Some f -> nth_error cs' i = Some c' -> nth_error ys i = Some y -> value_at (snd f) (snd c') (length valid) = Some (snd y))).
    { clear Nd. revert ys C'. induction Sh as [|f c fs cs (E & Sf & L) Sh IHf]; intros ys C'.
      - inversion C'; subst. exists []. split; [reflexivity|]. split; [constructor|]. split; [constructor|]. split; intros [|i] ? ? ? X; discriminate X.
      - inversion C' as [|? y ? ys' [En Cy] C'']; subst. inversion IH as [|? ? H1 H2]; subst. inversion Pf as [|? ? Q1 Q2]; subst.
        destruct (IHf H2 Q2 ys' C'') as (cs' & A & B & D & F & G). destruct (H1 (snd c) (snd y) Q1 Sf Cy) as (a' & A1 & A2 & A3 & A4 & A5).
        destruct c as [n a]. destruct y as [k y]. cbn [fst snd] in *. exists ((n, a') :: cs'). cbn [map add_fields snd]. rewrite A1, A. split; [reflexivity|].
        split; [constructor; [|exact B]; cbn [fst snd]; rewrite app_length; cbn; split; [exact E|split; [exact A2|lia] ]|].
        split; [constructor; [reflexivity|exact D]|]. split.
        + intros [|i] f' c1 c' X Y Z; cbn in X, Y, Z; [|eapply F; eassumption]. injection X as <-. injection Y as <-. injection Z as <-. split; assumption.
        + intros [|i] f' c' y' X Y Z; cbn in X, Y, Z; [|eapply G; eassumption]. injection X as <-. injection Y as <-. injection Z as <-. cbn [snd]. rewrite <- L. exact A4. }
    destruct G as (cs' & A & B & D & F & G). exists (AStruct (valid ++ [true]) cs'). cbn [add]. rewrite A. split; [reflexivity|].
    split; [apply shape_record, B|]. cbn [alen]. split; [rewrite app_length; cbn; lia|]. split.
    + cbn [value_at]. rewrite nth_error_snoc. rewrite read_fields_all with (ys := ys); [reflexivity| | | |exact G].
      * eapply unique_name_nodup; [exact Nd|]. eapply forall2_names. exact B.
      * eapply forall2_names. exact B.
      * clear -C'. induction C'; constructor; tauto.
    + intros i Hi. cbn [alen] in Hi. cbn [value_at]. rewrite nth_error_app1 by exact Hi. destruct (nth_error valid i) as [ [|]|]; try reflexivity. f_equal.
      apply read_fields_ext.
      * clear -D. induction D as [|c c' cs cs' E D IH]; [reflexivity|]. cbn. congruence.
      * eapply forall2_names. exact Sh.
      * exact D.
      * intros j f c c' X Y Z. destruct (F j f c c' X Y Z) as [K L]. apply K. lia.
  - contradiction.
Qed.

(** * Columns whose type is an alias *)

Lemma add_strip : forall t a x, add t a x = add (strip t) a x.
Proof. induction t using ty_rect'; intros a x; try reflexivity. cbn [strip]. rewrite <- IHt. destruct a; reflexivity. Qed.
Lemma make_strip : forall t, make_column t = make_column (strip t).
Proof. induction t using ty_rect'; try reflexivity. assumption. Qed.
Lemma cell_strip : forall t x, cell t x <-> cell (strip t) x.
Proof.
  induction t using ty_rect'; intros x; try reflexivity. cbn [strip]. rewrite <- IHt. cbn [cell]. split; [|auto].
  intros [->|H]; [apply cell_null|exact H].
Qed.
Lemma strip_idem : forall t, strip (strip t) = strip t.
Proof. induction t using ty_rect'; try reflexivity. assumption. Qed.
Lemma strip_plain : forall t, plain t -> strip t = t.
Proof. destruct t; try reflexivity. contradiction. Qed.

(** Fresh columns are empty and belong to their type. *)
Lemma make_shape : forall t, plain t -> exists a, make_column t = Some a /\ shape t a /\ alen a = 0.
Proof.
  induction t as [|m|m b|m es|m v IHv|m kt vt IHk IHv|m fs IH|m v IHv] using ty_rect'; intros P; cbn [plain] in P; try contradiction.
  - eexists. split; [reflexivity|]. split; [exact I|reflexivity].
  - eexists. split; [reflexivity|]. split; [exact I|reflexivity].
  - eexists. split; [reflexivity|]. split; reflexivity.
  - eexists. split; [reflexivity|]. split; reflexivity.
  - destruct (IHv P) as (a & E & Sh & L). cbn [make_column]. rewrite E. eexists. split; [reflexivity|]. split; [|reflexivity]. split; [exact Sh|constructor].
  - destruct P as [Pk Pv]. destruct (IHk Pk) as (a & E & Sh & L). destruct (IHv Pv) as (b & E' & Sh' & L'). cbn [make_column]. rewrite E, E'.
    eexists. split; [reflexivity|]. split; [|reflexivity]. cbn. auto.
  - destruct P as [_ P]. cbn [make_column].
    assert (G : exists cs, (fix go (fs : list field) : option (list (list N * arr)) :=
            match fs with
            | [] => Some []
            | (n, t) :: r => match make_column t, go r with Some a, Some l => Some ((n, a) :: l) | _, _ => None end
            end) fs = Some cs /\ Forall2 (fun f c => fst f = fst c /\ (shape (snd f) (snd c) /\ alen (snd c) = length (@nil bool))) fs cs).
    { induction fs as [|[n t] fs IHf]; [exists []; split; [reflexivity|constructor]|]. inversion IH as [|? ? H1 H2]; subst. destruct P as [P1 P2].
      destruct (H1 P1) as (a & E & Sh & L). destruct (IHf H2 P2) as (cs & E' & F). cbn [snd] in E. rewrite E, E'. exists ((n, a) :: cs).
      split; [reflexivity|]. constructor; [|exact F]. cbn. auto. }
    destruct G as (cs & E & F). rewrite E. eexists. split; [reflexivity|]. split; [|reflexivity]. apply shape_record, F.
Qed.

(** * Rows *)

Lemma forall2_len : forall {A B : Type} (P : A -> B -> Prop) l m, Forall2 P l m -> length l = length m.
Proof. intros A B P l m H. induction H; cbn; congruence. Qed.

Lemma set_nth_app : forall {A : Type} (l : list A) x y r, set_nth (length l) x (l ++ y :: r) = l ++ x :: r.
Proof. induction l as [|z l IH]; intros x y r; cbn; [reflexivity|]. f_equal. apply IH. Qed.

(** One more value in a column. *)
Definition grew (t : ty) (a : arr) (y : data) (a' : arr) : Prop :=
  shape (strip t) a' /\ alen a' = S (alen a) /\ value_at (strip t) a' (alen a) = Some y /\ keeps (strip t) a a'.
Definition mk (c r : nat) (l : list arr) : builder := {| b_column := c; b_rows := r; b_arrays := l |}.

Lemma add_row : forall cols2 todo ys cols1 done rows,
  Forall2 (fun t a => plain (strip t) /\ shape (strip t) a) cols2 todo -> Forall2 cell cols2 ys -> length cols1 = length done -> cols2 <> [] ->
  exists todo', add_values (cols1 ++ cols2) (mk (length done) rows (done ++ todo)) ys = Some (mk 0 (S rows) (done ++ todo'), repeat true (length ys)) /\
    length todo' = length todo /\
    forall j t a y, nth_error cols2 j = Some t -> nth_error todo j = Some a -> nth_error ys j = Some y ->
      exists a', nth_error todo' j = Some a' /\ grew t a y a'.
Proof.
  induction cols2 as [|t cols2 IH]; intros todo ys cols1 done rows Ht Hc L Ne; [congruence|]. clear Ne.
  inversion Ht as [|? a ? todo' [Pl Sh] Ht']; subst. inversion Hc as [|? y ? ys' Cy Hc']; subst.
  destruct (add_spec (strip t) a y Pl Sh (proj1 (cell_strip _ _) Cy)) as (a' & A1 & A2 & A3 & A4 & A5). rename todo' into todo.
  assert (E : forall r, add_impl (cols1 ++ t :: cols2) (mk (length done) r (done ++ a :: todo)) y =
    if S (length done) =? length (done ++ a :: todo) then Some (mk 0 (S r) (done ++ a' :: todo), true)
    else Some (mk (S (length done)) r (done ++ a' :: todo), true)).
  { intros r. unfold add_impl. cbn [mk b_column b_arrays b_rows]. rewrite <- L at 1. rewrite nth_error_app2, Nat.sub_diag by lia. cbn [nth_error].
    rewrite nth_error_app2, Nat.sub_diag by lia. cbn [nth_error]. rewrite add_strip, A1. rewrite set_nth_app. reflexivity. }
  cbn [add_values]. rewrite E. destruct cols2 as [|t2 cols2].
  - inversion Ht'; subst. inversion Hc'; subst. rewrite app_length. cbn [length]. replace (S (length done) =? length done + 1) with true by lia.
    exists [a']. split; [reflexivity|]. split; [reflexivity|]. intros [|j] t' b z; cbn; [|destruct j; discriminate]. intros [= <-] [= <-] [= <-].
    exists a'. split; [reflexivity|]. repeat split; assumption.
  - pose proof (forall2_len _ _ _ Ht') as L2. cbn [length] in L2. rewrite app_length. cbn [length].
    replace (S (length done) =? length done + S (length todo)) with false by lia.
    destruct (IH todo ys' (cols1 ++ [t]) (done ++ [a']) rows Ht' Hc') as (todo' & B1 & B2 & B3); [rewrite !app_length; cbn; lia|discriminate|].
    rewrite <- !app_assoc in B1. cbn [app] in B1. rewrite app_length in B1. cbn [length] in B1. rewrite Nat.add_1_r in B1. rewrite B1.
    exists (a' :: todo'). split; [reflexivity|]. split; [cbn; lia|].
    intros [|j] t' b z X Y Z; cbn in X, Y, Z; [|apply (B3 j t' b z X Y Z)]. injection X as <-. injection Y as <-. injection Z as <-.
    exists a'. split; [reflexivity|]. repeat split; assumption.
Qed.

(** What the arrays of [rows] hold. *)
Definition holds_rows (cols : list ty) (rows : list (list data)) (l : list arr) : Prop :=
  Forall2 (fun t a => plain (strip t) /\ shape (strip t) a /\ alen a = length rows) cols l /\
  forall i j t a row y, nth_error rows i = Some row -> nth_error cols j = Some t -> nth_error l j = Some a -> nth_error row j = Some y ->
    value_at (strip t) a i = Some y.

Lemma add_values_app : forall cols xs b ys, add_values cols b (xs ++ ys) =
  match add_values cols b xs with
  | None => None
  | Some (b', l) => match add_values cols b' ys with None => None | Some (b'', l') => Some (b'', l ++ l') end
  end.
Proof.
  induction xs as [|x xs IH]; intros b ys; cbn [add_values app]; [destruct (add_values cols b ys) as [ [? ?]|]; reflexivity|].
  destruct (add_impl cols b x) as [ [b1 ok]|]; [|reflexivity]. rewrite IH. destruct (add_values cols b1 xs) as [ [b2 l]|]; [|reflexivity].
  destruct (add_values cols b2 ys) as [ [b3 l']|]; reflexivity.
Qed.
Lemma forall2_nth : forall {A B : Type} (P : A -> B -> Prop) l m i x, Forall2 P l m -> nth_error l i = Some x -> exists y, nth_error m i = Some y /\ P x y.
Proof.
  intros A B P l m i x H. revert i. induction H as [|a b l m HP H IH]; intros [|i] E; cbn in E; try discriminate; [|apply (IH i E)].
  injection E as <-. exists b. auto.
Qed.
Lemma forall2_of_nth : forall {A B : Type} (P : A -> B -> Prop) l m, length l = length m ->
  (forall i x y, nth_error l i = Some x -> nth_error m i = Some y -> P x y) -> Forall2 P l m.
Proof.
  induction l as [|a l IH]; intros [|b m] L H; try discriminate; constructor; [apply (H 0 a b eq_refl eq_refl)|].
  apply IH; [cbn in L; lia|]. intros i x y X Y. apply (H (S i) x y X Y).
Qed.

Lemma holds_row : forall cols rows row l l', holds_rows cols rows l -> Forall2 cell cols row -> length l' = length l ->
  (forall j t a y, nth_error cols j = Some t -> nth_error l j = Some a -> nth_error row j = Some y -> exists a', nth_error l' j = Some a' /\ grew t a y a') ->
  holds_rows cols (rows ++ [row]) l'.
Proof.
  intros cols rows row l l' [F V] Hc L G. pose proof (forall2_len _ _ _ F) as Lc. split.
  - apply forall2_of_nth; [lia|]. intros j t a' Xt Xa'. destruct (forall2_nth _ _ _ _ _ F Xt) as (a & Xa & Pl & Sh & La).
    destruct (forall2_nth _ _ _ _ _ Hc Xt) as (y & Xy & _). destruct (G j t a y Xt Xa Xy) as (a'' & X & S1 & S2 & _).
    assert (a'' = a') by congruence. subst a''. split; [exact Pl|]. split; [exact S1|]. rewrite app_length. cbn. lia.
  - intros i j t a' row' y Xr Xt Xa' Xy'. destruct (forall2_nth _ _ _ _ _ F Xt) as (a & Xa & Pl & Sh & La).
    destruct (forall2_nth _ _ _ _ _ Hc Xt) as (y0 & Xy0 & _). destruct (G j t a y0 Xt Xa Xy0) as (a'' & X & S1 & S2 & S3 & S4).
    assert (a'' = a') by congruence. subst a''. destruct (Nat.lt_ge_cases i (length rows)) as [Hi|Hi].
    + rewrite nth_error_app1 in Xr by exact Hi. rewrite S4 by lia. eapply V; eassumption.
    + assert (i < length (rows ++ [row])) as Hi2 by (apply nth_error_Some; congruence). rewrite app_length in Hi2. cbn in Hi2.
      assert (i = length rows) by lia. subst i. rewrite nth_error_snoc in Xr. injection Xr as <-. rewrite <- La. congruence.
Qed.

Lemma add_rows : forall cols rows done l, cols <> [] -> holds_rows cols done l -> Forall (Forall2 cell cols) rows ->
  exists l', add_values cols (mk 0 (length done) l) (concat rows) = Some (mk 0 (length done + length rows) l', repeat true (length (concat rows))) /\
    holds_rows cols (done ++ rows) l'.
Proof.
  intros cols rows. induction rows as [|row rows IH]; intros done l Ne H F.
  - exists l. cbn. rewrite Nat.add_0_r, app_nil_r. split; [reflexivity|exact H].
  - inversion F as [|? ? F1 F2]; subst. destruct (add_row cols l row [] [] (length done)) as (l1 & A & L & G); [|exact F1|reflexivity|exact Ne|].
    { destruct H as [H _]. clear -H. induction H; constructor; tauto. }
    cbn [app length] in A. pose proof (holds_row _ _ _ _ _ H F1 L G) as H1. destruct (IH (done ++ [row]) l1 Ne H1 F2) as (l2 & B & H2).
    exists l2. rewrite app_length in B. cbn [length] in B. cbn [concat]. rewrite add_values_app, A. replace (S (length done)) with (length done + 1) by lia. rewrite B.
    cbn [length]. split; [|rewrite <- app_assoc in H2; exact H2]. rewrite app_length, repeat_app. replace (length done + S (length rows)) with (length done + 1 + length rows) by lia. reflexivity.
Qed.

Lemma new_builder_ok : forall cols, Forall (fun t => plain (strip t)) cols -> exists l, new_builder cols = Some (mk 0 0 l) /\ holds_rows cols [] l.
Proof.
  intros cols H. assert (G : exists l, all_some (map make_column cols) = Some l /\ Forall2 (fun t a => plain (strip t) /\ shape (strip t) a /\ alen a = 0) cols l).
  { induction H as [|t cols P H IH]; [exists []; split; [reflexivity|constructor]|]. destruct IH as (l & E & F). destruct (make_shape _ P) as (a & M & Sh & L).
    cbn [map all_some]. rewrite make_strip, M, E. exists (a :: l). split; [reflexivity|]. constructor; auto. }
  destruct G as (l & E & F). exists l. unfold new_builder. rewrite E. split; [reflexivity|]. split; [exact F|]. intros [|i] ? ? ? ? ? X; discriminate X.
Qed.
