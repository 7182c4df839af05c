(** C16: column synopses never exclude a matching value. *)
From Coq Require Import List ZArith NArith Lia Bool Arith ZifyBool.
From Verif Require Import OperatorModel AddressModel DataModel TypeModel BloomModel BloomProofs SynopsisModel SynopsisProofs PropsData.
Import ListNotations.
Open Scope nat_scope.

(** A synopsis made for a column of any type, to which any values of the column and nils
    were added, does not say no to a lookup that one of the values satisfies, whatever
    the hash function and the settings. Neither does it after shrinking. For times the
    operators [!=] and [not in] are excepted, see below. *)
Theorem C16_no_false_negatives : forall hash opts re t s0 xs s x op rhs,
  make_synopsis opts t = Some (Some s0) -> syn_add_all hash s0 xs = Some s ->
  In x xs -> x <> DNone -> sound_op s op -> evaluate_view re x op rhs = Some true ->
  syn_lookup hash s op rhs <> Some (Some false) /\
  exists r, shrink hash opts s = Some r /\ match r with Some s' => syn_lookup hash s' op rhs <> Some (Some false) | None => True end.
Proof.
  intros hash opts re t s0 xs s x op rhs M A Hi N S E.
  pose proof (covers_add_all hash xs s0 [] s (make_synopsis_covers hash opts t s0 M) A) as C. rewrite app_nil_r in C.
  assert (Ix : In x (rev (present xs))) by (rewrite <- in_rev; apply filter_In; split; [exact Hi|destruct x; auto]).
  split; [eapply lookup_sound; eassumption|]. destruct (shrink_covers hash opts s _ C) as (r & Er & H). exists r. split; [exact Er|].
  destruct r as [s'|]; [|exact I]. destruct H as [C' B]. apply (lookup_sound hash re s' (rev (present xs)) x op rhs C' Ix); [|exact E].
  destruct s' as [| | |]; try exact I. destruct s as [t' f'|mn' mx'|k f|k p vs]; try discriminate Er.
  cbn [covers] in C, C'. destruct C as [_ C]. destruct (C x Ix) as [K _]. destruct (C' x Ix) as (z & -> & _). destruct k; discriminate.
Qed.

(** Adding a column whose values have the type of the synopsis succeeds, and then so does
    every lookup, unless the synopsis is one that buffers its values. *)
Theorem C16_defined : forall hash s xs, well_formed s -> Forall (fun x => x = DNone \/ accepts s x) xs ->
  exists s', syn_add_all hash s xs = Some s' /\ (is_buffered s' = false -> forall op rhs, syn_lookup hash s' op rhs <> None).
Proof.
  intros hash s xs W F. enough (G : exists s', syn_add_all hash s xs = Some s' /\ well_formed s').
  { destruct G as (s' & E & W'). exists s'. split; [exact E|]. intros B op rhs. now apply lookup_defined. }
  revert s W F. induction xs as [|x xs IH]; intros s W F; [exists s; split; [reflexivity|exact W]|]. inversion F as [|? ? H F']; subst.
  assert (D : x = DNone \/ x <> DNone) by (destruct x; [now left|right; discriminate..]).
  destruct D as [-> |N]; [cbn [syn_add_all]; now apply IH|]. destruct H as [->|A]; [contradiction|].
  destruct (add_defined hash s x W A) as (s1 & E & W1 & A1). destruct (IH s1 W1) as (s' & E' & W').
  { eapply Forall_impl; [|exact F']. cbv beta. intros y [->|Hy]; auto. }
  exists s'. split; [|exact W']. destruct x; try contradiction; cbn [syn_add_all]; rewrite E; exact E'.
Qed.

(** Time synopses answer orderings exactly, and equality exactly if the value is between
    the smallest and the largest added value. *)
Theorem C16_time_exact : forall hash zs mn mx, syn_add_all hash (STime time_max time_min) (map DTime zs) = Some (STime mn mx) ->
  Forall (fun z => time_min <= z <= time_max)%Z zs -> zs <> [] -> forall x, (time_min <= x <= time_max)%Z ->
  min_max_lookup mn mx op_lt (DTime x) = Some (Some (existsb (fun z => z <? x)%Z zs)) /\
  min_max_lookup mn mx op_le (DTime x) = Some (Some (existsb (fun z => z <=? x)%Z zs)) /\
  min_max_lookup mn mx op_gt (DTime x) = Some (Some (existsb (fun z => x <? z)%Z zs)) /\
  min_max_lookup mn mx op_ge (DTime x) = Some (Some (existsb (fun z => x <=? z)%Z zs)) /\
  min_max_lookup mn mx op_eq (DTime x) = Some (Some (existsb (fun z => z <=? x)%Z zs && existsb (fun z => x <=? z)%Z zs)) /\
  forall ys, min_max_lookup mn mx op_in (DList (map DTime ys)) =
    Some (Some (existsb (fun y => existsb (fun z => z <=? y)%Z zs && existsb (fun z => y <=? z)%Z zs) ys)).
Proof.
  intros hash zs mn mx E F N.
  assert (G : forall zs a b, syn_add_all hash (STime a b) (map DTime zs) = Some (STime (fold_left Z.min zs a) (fold_left Z.max zs b))).
  { clear. induction zs as [|z zs IH]; intros a b; [reflexivity|]. cbn [map syn_add_all syn_add fold_left].
    replace (if (z <? a)%Z then z else a) with (Z.min a z) by (destruct (Z.ltb_spec z a); lia).
    replace (if (z >? b)%Z then z else b) with (Z.max b z) by (rewrite Z.gtb_ltb; destruct (Z.ltb_spec b z); lia). apply IH. }
  rewrite G in E. injection E as Emn Emx.
  assert (Mn : forall zs a, (forall z, In z zs -> fold_left Z.min zs a <= z)%Z /\ (fold_left Z.min zs a <= a)%Z /\ (fold_left Z.min zs a = a \/ In (fold_left Z.min zs a) zs)).
  { clear. induction zs as [|z zs IH]; intros a; cbn [fold_left]; [repeat split; auto; [intros z []|lia]|].
    destruct (IH (Z.min a z)) as (H1 & H2 & H3). repeat split; [|lia|].
    - intros y [<-|Hy]; [lia|auto].
    - destruct H3 as [H3|H3]; [|auto with datatypes]. rewrite H3. destruct (Z.min_spec a z) as [ [_ ->]|[_ ->] ]; auto with datatypes. }
  assert (Mx : forall zs a, (forall z, In z zs -> z <= fold_left Z.max zs a)%Z /\ (a <= fold_left Z.max zs a)%Z /\ (fold_left Z.max zs a = a \/ In (fold_left Z.max zs a) zs)).
  { clear. induction zs as [|z zs IH]; intros a; cbn [fold_left]; [repeat split; auto; [intros z []|lia]|].
    destruct (IH (Z.max a z)) as (H1 & H2 & H3). repeat split; [|lia|].
    - intros y [<-|Hy]; [lia|auto].
    - destruct H3 as [H3|H3]; [|auto with datatypes]. rewrite H3. destruct (Z.max_spec a z) as [ [_ ->]|[_ ->] ]; auto with datatypes. }
  destruct (Mn zs time_max) as (A1 & A2 & A3). destruct (Mx zs time_min) as (B1 & B2 & B3). rewrite Emn in *. rewrite Emx in *.
  rewrite Forall_forall in F. destruct zs as [|z0 zs']; [contradiction|]. set (zs := z0 :: zs') in *.
  assert (I0 : In z0 zs) by now left. pose proof (A1 z0 I0). pose proof (B1 z0 I0). pose proof (F z0 I0).
  assert (A3' : In mn zs). { destruct A3 as [A3|A3]; [|exact A3]. assert (mn = z0) as -> by lia. exact I0. }
  assert (B3' : In mx zs). { destruct B3 as [B3|B3]; [|exact B3]. assert (mx = z0) as -> by lia. exact I0. }
  assert (X : forall (f : Z -> bool) b, (b = true -> exists z, In z zs /\ f z = true) -> (forall z, In z zs -> f z = true -> b = true) -> b = existsb f zs).
  { intros f b H1' H2'. apply eq_true_iff_eq. rewrite existsb_exists. split; [exact H1'|]. intros (z & Iz & Hz). eauto. }
  assert (Elt : forall y, (mn <? y)%Z = existsb (fun z => z <? y)%Z zs) by (intros y; apply X; [intros; exists mn; auto|intros z Iz Hz; specialize (A1 z Iz); lia]).
  assert (Ele : forall y, (mn <=? y)%Z = existsb (fun z => z <=? y)%Z zs) by (intros y; apply X; [intros; exists mn; auto|intros z Iz Hz; specialize (A1 z Iz); lia]).
  assert (Egt : forall y, (mx >? y)%Z = existsb (fun z => y <? z)%Z zs) by (intros y; rewrite Z.gtb_ltb; apply X; [intros; exists mx; auto|intros z Iz Hz; specialize (B1 z Iz); lia]).
  assert (Ege : forall y, (mx >=? y)%Z = existsb (fun z => y <=? z)%Z zs) by (intros y; rewrite Z.geb_leb; apply X; [intros; exists mx; auto|intros z Iz Hz; specialize (B1 z Iz); lia]).
  intros x Hx. unfold min_max_lookup. cbn [min_max_impl option_map]. rewrite Elt, Ele, Egt, Ege.
  repeat split; try reflexivity.
  - rewrite <- (Ege x), Z.geb_leb. reflexivity.
  - intros ys. f_equal. f_equal. clear -Ele Ege. induction ys as [|y ys IH]; [reflexivity|]. cbn [map existsb time_equal]. rewrite IH.
    rewrite <- Ele, <- Ege, Z.geb_leb. reflexivity.
Qed.

(** Bool synopses answer [==] and [!=] exactly on columns without nils. *)
Theorem C16_bool_exact : forall hash re bs t f op b, syn_add_all hash (SBool false false) (map DBool bs) = Some (SBool t f) ->
  op = op_eq \/ op = op_ne ->
  bool_lookup t f op (DBool b) = Some (existsb (fun a => match evaluate_view re (DBool a) op (DBool b) with Some r => r | None => false end) bs).
Proof.
  intros hash re bs t f op b E H.
  assert (G : forall bs t f, syn_add_all hash (SBool t f) (map DBool bs) = Some (SBool (t || existsb (fun a => a) bs) (f || existsb negb bs))).
  { clear. induction bs as [|a bs IH]; intros t f; cbn [map syn_add_all syn_add existsb].
    - now rewrite !orb_false_r.
    - destruct a; cbn [negb orb]; rewrite IH; cbn [orb]; f_equal; rewrite ?orb_true_r; reflexivity. }
  rewrite G in E. cbn [orb] in E. injection E as <- <-. destruct H as [-> | ->]; cbn [bool_lookup evaluate_view view_eqb]; f_equal; destruct b; clear;
    (induction bs as [|a bs IH]; [reflexivity|]); cbn [existsb]; rewrite IH; destruct a; reflexivity.
Qed.

(** A buffering synopsis answers equality exactly. *)
Theorem C16_buffered_exact : forall hash k p xs s x, Forall (fun v => of_kind k v = true) xs ->
  syn_add_all hash (SBuffered k p []) xs = Some s -> of_kind k x = true ->
  syn_lookup hash s op_eq x = Some (Some (existsb (view_eqb x) xs)).
Proof.
  intros hash k p xs s x F E K.
  assert (G : forall vs, exists ws, syn_add_all hash (SBuffered k p vs) xs = Some (SBuffered k p ws) /\ forall y, In y ws <-> In y vs \/ In y xs).
  { clear E s. induction F as [|v xs Kv F IH]; intros vs; [exists vs; split; [reflexivity|intros y; cbn; tauto]|].
    destruct (IH (if existsb (view_eqb v) vs then vs else v :: vs)) as (ws & E & H). exists ws. split.
    - destruct v; try (destruct k; discriminate); cbn [syn_add_all syn_add]; rewrite Kv; exact E.
    - intros y. rewrite H. destruct (existsb (view_eqb v) vs) eqn:M; cbn [In]; [|tauto]. apply (member_of_kind k v vs Kv) in M.
      split; [tauto|]. intros [?|[<-|?]]; auto. }
  destruct (G []) as (ws & E' & H). rewrite E' in E. injection E as <-. cbn [syn_lookup buffered_lookup]. rewrite K. f_equal. f_equal.
  apply eq_true_iff_eq. rewrite !(member_of_kind k) by assumption. rewrite H. cbn [In]. tauto.
Qed.

(** Shrinking sizes the Bloom filter for at least the number of buffered values. *)
Theorem C16_shrink_size : forall size, (size <= 2 ^ 64)%N -> (size <= power_from 64 size 1)%N.
Proof. intros size H. apply (power_from_covers 64 size 1). assert (E : (1 * 2 ^ N.of_nat 64 = 2 ^ 64)%N) by reflexivity. rewrite E. exact H. Qed.

Definition sample_options : syn_options :=
  {| o_attribute := fun _ => None; o_default := fun _ => Some (10, 5)%N; o_buffered := true; o_evaluate := fun _ => Some (32, 3) |}.
Definition length_hash (seed : N) (x : data) : N :=
  match x with DString s => fold_left (fun a c => a * 31 + c)%N s seed | _ => seed end.
Example C16_example :
  make_synopsis sample_options (TBasic no_meta BTime) = Some (Some (STime time_max time_min)) /\
  syn_add_all length_hash (STime time_max time_min) [DTime 5; DNone; DTime 9] = Some (STime 5 9) /\
  evaluate_view literal_regex (DTime 9) op_gt (DTime 8) = Some true /\ min_max_lookup 5 9 op_gt (DTime 8) = Some (Some true) /\
  min_max_lookup 5 9 op_lt (DTime 5) = Some (Some false) /\
  make_synopsis sample_options (TBasic no_meta BString) = Some (Some (SBuffered KString 5 [])) /\
  (exists s f, syn_add_all length_hash (SBuffered KString 5 []) [DString [1%N]; DNone; DString [2%N; 3%N]; DString [1%N]] = Some s /\
    shrink length_hash sample_options s = Some (Some (SBloom KString f)) /\
    bloom_lookup length_hash KString f op_eq (DString [2%N; 3%N]) = Some (Some true) /\
    bloom_lookup length_hash KString f op_in (DList [DString [9%N]; DString [1%N]]) = Some (Some true) /\
    bloom_lookup length_hash KString f op_eq (DString [9%N]) = Some (Some false)).
Proof.
  do 6 (split; [vm_compute; reflexivity|]).
  exists (SBuffered KString 5 [DString [2%N; 3%N]; DString [1%N]]).
  exists {| bf_partitioned := false; bf_hasher := double_hasher 3 0 1; bf_bits :=
    match shrink length_hash sample_options (SBuffered KString 5 [DString [2%N; 3%N]; DString [1%N]]) with
    | Some (Some (SBloom _ f)) => bf_bits f | _ => [] end |}.
  repeat split; vm_compute; reflexivity.
Qed.

(** ** What does not hold *)

(** A time synopsis says no to [!= x] for every [x] between the smallest and the largest
    value, although other values differ from [x]; [not in] fails in the same way. *)
Theorem C16_time_not_equal_refuted : forall hash re a b x, (a < x < b)%Z -> exists s,
  syn_add_all hash (STime time_max time_min) [DTime a; DTime b] = Some s /\
  evaluate_view re (DTime a) op_ne (DTime x) = Some true /\
  ((time_min <= a)%Z -> (b <= time_max)%Z -> syn_lookup hash s op_ne (DTime x) = Some (Some false) /\
   evaluate_view re (DTime a) op_not_in (DList [DTime x]) = Some true /\ syn_lookup hash s op_not_in (DList [DTime x]) = Some (Some false)).
Proof.
  intros hash re a b x H. eexists. split; [reflexivity|]. split; [cbn; f_equal; lia|]. intros L U.
  assert (Ea : (if (b <? (if (a <? time_max) then a else time_max)) then b else (if (a <? time_max) then a else time_max))%Z = a).
  { assert ((a <? time_max)%Z = true) as -> by lia. assert ((b <? a)%Z = false) as -> by lia. reflexivity. }
  assert (Eb : (if (b >? (if (a >? time_min) then a else time_min)) then b else (if (a >? time_min) then a else time_min))%Z = b).
  { rewrite !Z.gtb_ltb. destruct (Z.ltb_spec time_min a); [assert ((a <? b)%Z = true) as -> by lia|assert ((time_min <? b)%Z = true) as -> by lia]; reflexivity. }
  cbn [syn_lookup]. rewrite Ea, Eb. cbn [min_max_lookup min_max_impl option_map existsb time_equal evaluate_view view_in view_eqb].
  split; [f_equal; f_equal; lia|]. split; [cbn; f_equal; lia|]. f_equal. f_equal. lia.
Qed.
(** Nils are not added, so lookups that nil satisfies are answered no: [!= true], [< x]
    for times, and [in] a list with nil. *)
Theorem C16_nil_refuted : exists hash re, 
  (exists s, syn_add_all hash (SBool false false) [DNone; DBool true] = Some s /\
     evaluate_view re DNone op_ne (DBool true) = Some true /\ syn_lookup hash s op_ne (DBool true) = Some (Some false)) /\
  (exists s, syn_add_all hash (STime time_max time_min) [DNone; DTime 5] = Some s /\
     evaluate_view re DNone op_lt (DTime 4) = Some true /\ syn_lookup hash s op_lt (DTime 4) = Some (Some false) /\
     evaluate_view re DNone op_in (DList [DNone]) = Some true /\ syn_lookup hash s op_in (DList [DNone]) = Some (Some false)).
Proof.
  exists length_hash, literal_regex. split; eexists; (split; [reflexivity|]); repeat split; vm_compute; reflexivity.
Qed.
(** A Bloom filter synopsis does handle nil in a list, but only in front of the values
    that are found; and a buffering synopsis accesses the operand as a value of its own
    type without looking. *)
Theorem C16_buffered_refuted : forall hash p xs, 
  syn_lookup hash (SBuffered KString p xs) op_eq DNone = None /\
  syn_lookup hash (SBuffered KString p xs) op_eq (DPattern []) = None /\
  syn_lookup hash (SBuffered KAddress p xs) op_in (DList [DNone]) = None.
Proof. repeat split; reflexivity. Qed.
(** Making a synopsis for an alias of bool, string or address fails an assertion. *)
Theorem C16_alias_refuted : forall opts m n b, b = BBool \/ b = BString \/ b = BAddress ->
  make_synopsis opts (TAlias m (TBasic n b)) = None.
Proof. intros opts m n b [-> | [-> | ->] ]; reflexivity. Qed.

Definition assumptions_synopsis := (C16_no_false_negatives, C16_defined, C16_time_exact, C16_bool_exact, C16_buffered_exact, C16_shrink_size,
  C16_time_not_equal_refuted, C16_nil_refuted, C16_buffered_refuted, C16_alias_refuted).
Print Assumptions assumptions_synopsis.
