(** C12: lookups in string indexes; C09 for enumerations. *)
From Coq Require Import List ZArith NArith Lia Bool ZifyBool ZifyNat ZifyN.
From Verif Require Import NBits WordProofs OperatorModel BitmapOps CoderModel CoderProofs PropsCoder ValueIndexModel ValueIndexProofs PropsIndex
  SelProofs AddressModel AddressProofs StringIndexModel StringIndexProofs PropsAddressIndex.
Import ListNotations.
Open Scope N_scope.

(** Direct evaluation of a predicate on strings (view.cpp:284-325 and the
    container predicates, view.cpp:242-249): equality, or [x] is found at some
    position of [v]. *)
Definition same (v x : list N) : bool := if list_eq_dec N.eq_dec v x then true else false.
Definition found_at (v x : list N) (i : nat) : bool := same (firstn (length x) (skipn i v)) x.
Definition string_holds (op : relop) (v x : list N) : bool :=
  match op with
  | op_eq => same v x
  | op_ne => negb (same v x)
  | op_ni => existsb (found_at v x) (seq 0 (S (length v)))
  | op_not_ni => negb (existsb (found_at v x) (seq 0 (S (length v))))
  | _ => false
  end.
Definition string_ops : list relop := [op_eq; op_ne; op_ni; op_not_ni].
Definition bytes (v : list N) : Prop := Forall (fun b => b < 256) v.
Definition no_ff (v : list N) : Prop := Forall (fun b => b < 255) v.

Lemma same_eqb : forall v x, same v x = bytes_eqb v x.
Proof.
  intros v x. apply eq_true_iff_eq. rewrite bytes_eqb_spec. unfold same. destruct (list_eq_dec N.eq_dec v x); split; congruence.
Qed.
Lemma same_spec : forall v x, same v x = true <-> v = x.
Proof. intros. rewrite same_eqb. apply bytes_eqb_spec. Qed.

Lemma found_infix : forall v x, existsb (found_at v x) (seq 0 (S (length v))) = infixb x v.
Proof.
  intros v x. apply eq_true_iff_eq. rewrite existsb_exists, infixb_spec. split.
  - intros (i & _ & F). apply same_spec in F. exists (firstn i v), (skipn (length x) (skipn i v)).
    rewrite <- F at 1. now rewrite firstn_skipn, firstn_skipn.
  - intros (pre & post & ->). exists (length pre). split.
    + apply in_seq. rewrite !app_length. lia.
    + apply same_spec. rewrite skipn_app, skipn_all, Nat.sub_diag. cbn [app skipn].
      rewrite firstn_app, firstn_all, Nat.sub_diag. cbn [firstn]. apply app_nil_r.
Qed.

Lemma string_holds_meaning : forall op v x, string_holds op v x = string_meaning op v x.
Proof. intros op v x. destruct op; cbn [string_holds string_meaning]; rewrite ?same_eqb, ?found_infix; reflexivity. Qed.

(** For every column, a lookup answers the predicate on the strings cut off at
    the maximum length, exactly. The default limit is 1024. *)
Theorem C12_truncated : forall B (ops : bitmap_ops B) content, bitmap_laws ops content ->
  forall m h, N.of_nat m mod 10 <> 0 -> (forall v, In v (values_of h) -> bytes v) ->
  exists s, st_new ops (N.of_nat m) = Some s /\
  match column [] h with
  | None => vi_run ops (string_impl ops) (vi_new ops s) h = None
  | Some col => exists i, vi_run ops (string_impl ops) (vi_new ops s) h = Some i /\
      exact_scalar ops content (string_impl ops) i col
        (fun op v x => string_holds op (firstn m v) (firstn m x)) string_ops no_ff /\
      exact_list ops content (string_impl ops) i col (fun _ v x => same (firstn m v) (firstn m x)) no_ff
  end.
Proof.
  intros B ops content laws m h MOD V. destruct (StInv_new ops content m MOD) as (s & ES & SI).
  exists s. split; auto.
  pose proof (run_spec ops content laws (string_impl ops) (StInv ops content m) h (vi_new ops s) []) as R.
  destruct (column [] h) as [col|].
  - destruct R as (i & E & J).
    + apply (VInv_new ops content laws). exact SI.
    + intros v pos H. apply (string_accepts ops content laws m MOD). apply V. eapply values_of_in; eauto.
    + exists i. split; auto. split.
      * intros op x O X.
        destruct (lookup_spec ops content laws (string_impl ops) (StInv ops content m) i col op x _ J (string_answers ops content laws m MOD op x X O))
          as (r & D & C).
        exists r. split; auto. rewrite C. apply map_ext. intros [| |v]; [reflexivity|now destruct op|].
        cbn [cell_result cell_matches]. rewrite string_holds_meaning. reflexivity.
      * intros xs X.
        destruct (lookup_list_spec ops content laws (string_impl ops) (StInv ops content m) i col
          (fun x v => string_meaning op_eq (clip m v) (clip m x)) xs J) as (r & r' & D & D' & C & C').
        { intros y Y. apply (string_answers ops content laws m MOD op_eq y); [now apply X|cbn; auto]. }
        exists r, r'. split; auto. split; auto. rewrite C, C'.
        assert (EX : forall v, existsb (fun x => match x with Some x => string_meaning op_eq (clip m v) (clip m x) | None => false end) xs =
          existsb (fun x => match x with Some x => same (firstn m v) (firstn m x) | None => false end) xs).
        { intros v. apply existsb_ext_in. intros [x|] _; auto. cbn [string_meaning]. now rewrite same_eqb. }
        split; apply map_ext; intros [| |v]; cbn [cell_in cell_not_in]; auto; now rewrite <- EX.
  - apply R.
    + apply (VInv_new ops content laws). exact SI.
    + intros v pos H. apply (string_accepts ops content laws m MOD). apply V. eapply values_of_in; eauto.
Qed.
Example C12_truncated_example : N.of_nat 1024 mod 10 <> 0 /\
  column [] [(Some [97; 98; 99], 0%nat); (None, 1%nat); (Some [], 3%nat)] = Some [Val [97; 98; 99]; Nil; Gap; Val []] /\
  string_holds op_ni [97; 98; 99] [98; 99] = true.
Proof. split; [intros E; vm_compute in E; discriminate|split; reflexivity]. Qed.

(** Within the limit, lookups agree with direct evaluation. *)
Theorem C12_exact : forall B (ops : bitmap_ops B) content, bitmap_laws ops content ->
  forall m h, N.of_nat m mod 10 <> 0 -> (forall v, In v (values_of h) -> bytes v /\ (length v <= m)%nat) ->
  exists s, st_new ops (N.of_nat m) = Some s /\
  match column [] h with
  | None => vi_run ops (string_impl ops) (vi_new ops s) h = None
  | Some col => exists i, vi_run ops (string_impl ops) (vi_new ops s) h = Some i /\
      exact_scalar ops content (string_impl ops) i col string_holds string_ops (fun x => no_ff x /\ (length x <= m)%nat) /\
      exact_list ops content (string_impl ops) i col (fun _ => same) (fun x => no_ff x /\ (length x <= m)%nat)
  end.
Proof.
  intros B ops content laws m h MOD V.
  destruct (C12_truncated B ops content laws m h MOD (fun v H => proj1 (V v H))) as (s & ES & R). exists s. split; auto.
  destruct (column [] h) as [col|] eqn:EC; auto. destruct R as (i & E & S & L). exists i. split; auto.
  assert (LV : forall v, In (Val v) col -> firstn m v = v).
  { intros v H. apply firstn_all2. apply V. eapply column_new; eauto. }
  split.
  - intros op x O [X1 X2]. destruct (S op x O X1) as (r & D & C). exists r. split; auto. rewrite C.
    apply map_ext_cells; auto. intros v H. cbn [cell_matches]. now rewrite (LV v H), (firstn_all2 x X2).
  - intros xs X. destruct (L xs (fun x H => proj1 (X x H))) as (r & r' & D & D' & C & C'). exists r, r'. split; auto. split; auto.
    rewrite C, C'.
    assert (EX : forall v, In (Val v) col -> existsb (fun x => match x with Some x => same (firstn m v) (firstn m x) | None => false end) xs =
      existsb (fun x => match x with Some x => same v x | None => false end) xs).
    { intros v H. apply existsb_ext_in. intros [x|] Hx; auto. destruct (X x Hx) as [_ Q]. now rewrite (LV v H), (firstn_all2 x Q). }
    split; apply map_ext_cells; auto; intros v H; cbn [cell_in cell_not_in]; now rewrite EX.
Qed.
Example C12_exact_example : forall v, In v (values_of [(Some [97; 255], 0%nat); (Some [], 4%nat)]) -> bytes v /\ (length v <= 1024)%nat.
Proof. cbn [values_of flat_map fst app]. intros v [<-|[<-|[] ] ]; split; cbn [length]; try lia; unfold bytes; repeat constructor. Qed.

Lemma firstn_infix : forall m x v, infixb x v = true -> infixb (firstn m x) v = true.
Proof.
  intros m x v H. apply infixb_spec in H as (pre & post & ->). apply infixb_spec.
  exists pre, (skipn m x ++ post). rewrite !app_assoc. f_equal. rewrite <- app_assoc. f_equal. symmetry. apply firstn_skipn.
Qed.

(** Without a limit on the strings, [==] misses no row. *)
Theorem C12_equal_sound : forall B (ops : bitmap_ops B) content, bitmap_laws ops content ->
  forall m h col, N.of_nat m mod 10 <> 0 -> (forall v, In v (values_of h) -> bytes v) -> column [] h = Some col ->
  exists s i, st_new ops (N.of_nat m) = Some s /\ vi_run ops (string_impl ops) (vi_new ops s) h = Some i /\
  (forall x, no_ff x -> exists r, vi_lookup ops (string_impl ops) i op_eq (Some x) = Some r /\ covers col (fun v => same v x) (content r)) /\
  (forall xs, (forall x, In (Some x) xs -> no_ff x) -> exists r, vi_lookup_list ops (string_impl ops) i op_in xs = Some r /\
     covers col (fun v => existsb (fun x => match x with Some x => same v x | None => false end) xs) (content r)).
Proof.
  intros B ops content laws m h col MOD V EC.
  destruct (C12_truncated B ops content laws m h MOD V) as (s & ES & R). rewrite EC in R. destruct R as (i & E & S & L).
  exists s, i. split; auto. split; auto.
  assert (SM : forall v x, same v x = true -> same (firstn m v) (firstn m x) = true).
  { intros v x H. apply same_spec in H. subst. now apply same_spec. }
  split.
  - intros x X. destruct (S op_eq x ltac:(cbn; auto) X) as (r & D & C). exists r. split; auto. rewrite C.
    eapply covers_map; [|intros [| |v]; reflexivity]. intros v _ H. exact (SM v x H).
  - intros xs X. destruct (L xs X) as (r & r' & D & _ & C & _). exists r. split; auto. rewrite C.
    eapply covers_map; [|intros [| |v]; reflexivity]. intros v _ H. apply existsb_exists in H as ([x|] & I & H); [|discriminate].
    apply existsb_exists. exists (Some x). split; auto.
Qed.
Example C12_equal_sound_example : column [] [(Some [1; 2; 3; 4; 5], 0%nat)] = Some [Val [1; 2; 3; 4; 5] ] /\ N.of_nat 3 mod 10 <> 0.
Proof. split; [reflexivity|intros E; vm_compute in E; discriminate]. Qed.

(** If the column is within the limit, [ni] misses no row, even for a longer pattern. *)
Theorem C12_contains_sound : forall B (ops : bitmap_ops B) content, bitmap_laws ops content ->
  forall m h col, N.of_nat m mod 10 <> 0 -> (forall v, In v (values_of h) -> bytes v /\ (length v <= m)%nat) -> column [] h = Some col ->
  exists s i, st_new ops (N.of_nat m) = Some s /\ vi_run ops (string_impl ops) (vi_new ops s) h = Some i /\
  forall x, no_ff x -> exists r, vi_lookup ops (string_impl ops) i op_ni (Some x) = Some r /\ covers col (fun v => string_holds op_ni v x) (content r).
Proof.
  intros B ops content laws m h col MOD V EC.
  destruct (C12_truncated B ops content laws m h MOD (fun v H => proj1 (V v H))) as (s & ES & R). rewrite EC in R. destruct R as (i & E & S & L).
  exists s, i. split; auto. split; auto. intros x X. destruct (S op_ni x ltac:(cbn; auto) X) as (r & D & C). exists r. split; auto. rewrite C.
  eapply covers_map; [|intros [| |v]; reflexivity]. intros v I H. change (string_holds op_ni (firstn m v) (firstn m x) = true). rewrite (firstn_all2 v) by (apply V; eapply column_new; eauto).
  rewrite string_holds_meaning in *. now apply firstn_infix.
Qed.
Example C12_contains_sound_example : string_holds op_ni [1; 2; 3; 4] [2; 3; 4] = true /\ string_holds op_ni [1; 2; 3; 4] [1; 3] = false.
Proof. split; reflexivity. Qed.

(** Where lookups miss rows. [sfound m vs op x] is the lookup of [op x] in the
    column [vs] with limit [m]. *)
Definition sfound (m : N) (vs : list (list N)) (op : relop) (x : list N) : option (list bool) :=
  match st_new list_ops m with
  | None => None
  | Some s =>
    match vi_run list_ops (string_impl list_ops) (vi_new list_ops s) (combine (map Some vs) (seq 0 (length vs))) with
    | None => None
    | Some i => vi_lookup list_ops (string_impl list_ops) i op (Some x)
    end
  end.

(** Beyond the limit, [!=] misses a string that differs after the limit, and
    [ni] misses an occurrence there. *)
Theorem C12_truncated_not_equal_refuted : exists m v x, m mod 10 <> 0 /\ no_ff v /\ no_ff x /\ string_holds op_ne v x = true /\
  sfound m [v] op_ne x = Some [false].
Proof.
  exists 3, [97; 98; 99; 100], [97; 98; 99; 101].
  split; [intros E; vm_compute in E; discriminate|]. split; [repeat constructor|]. split; [repeat constructor|]. split; reflexivity.
Qed.
Theorem C12_truncated_contains_refuted : exists m v x, m mod 10 <> 0 /\ no_ff v /\ no_ff x /\ string_holds op_ni v x = true /\
  sfound m [v] op_ni x = Some [false].
Proof.
  exists 3, [97; 98; 99; 100], [100].
  split; [intros E; vm_compute in E; discriminate|]. split; [repeat constructor|]. split; [repeat constructor|]. split; reflexivity.
Qed.
(** A byte 0xff in the operand matches where the string has no character:
    "a" != "a\xff" is missed in a column that also has a two-character string. *)
Theorem C12_ff_refuted : exists vs x, (forall v, In v vs -> no_ff v) /\ bytes x /\
  map (fun v => string_holds op_ne v x) vs = [true; true] /\ sfound 1024 vs op_ne x = Some [false; true].
Proof.
  exists [ [97]; [97; 98] ], [97; 255].
  split; [intros v [<-|[<-|[] ] ]; repeat constructor|]. split; [repeat constructor|]. split; reflexivity.
Qed.
(** With a limit of 10, the length 10 is stored as 0: the row is missed by [!= ""]. *)
Theorem C12_limit_ten_refuted : exists v, no_ff v /\ (length v <= 10)%nat /\ string_holds op_ne v [] = true /\ sfound 10 [v] op_ne [] = Some [false].
Proof. exists (repeat 97 10). split; [repeat constructor|]. split; [cbn; lia|]. split; vm_compute; reflexivity. Qed.

(** C09 for enumerations. *)
Theorem C09_enumeration : forall B (ops : bitmap_ops B) content, bitmap_laws ops content ->
  forall h, (forall v, In v (values_of h) -> v < 256) ->
  match column [] h with
  | None => vi_run ops (enum_impl ops) (vi_new ops (enum_new ops)) h = None
  | Some col => exists i, vi_run ops (enum_impl ops) (vi_new ops (enum_new ops)) h = Some i /\
      exact_scalar ops content (enum_impl ops) i col (fun op v x => holdsZ op (Z.of_N v) (Z.of_N x)) six (fun v => v < 256) /\
      exact_list ops content (enum_impl ops) i col (fun _ v x => v =? x) (fun v => v < 256)
  end.
Proof.
  intros B ops content laws h V.
  pose proof (run_spec ops content laws (enum_impl ops) (EInv content) h (vi_new ops (enum_new ops)) []) as R.
  destruct (column [] h) as [col|].
  - destruct R as (i & E & J).
    + apply (VInv_new ops content laws). now apply EInv_new.
    + intros v pos H. apply (enum_accepts ops content laws). apply V. eapply values_of_in; eauto.
    + exists i. split; auto. split.
      * intros op x O X.
        destruct (lookup_spec ops content laws (enum_impl ops) (EInv content) i col op x _ J (enum_answers ops content laws op x O X))
          as (r & D & C).
        exists r. split; auto. rewrite C. apply map_ext. intros [| |v]; [reflexivity|now destruct op|].
        cbn [cell_result cell_matches]. cbn in O. destruct O as [<-|[<-|[<-|[<-|[<-|[<-|[] ] ] ] ] ] ]; cbn [holds holdsZ]; lia.
      * intros xs X.
        destruct (lookup_list_spec ops content laws (enum_impl ops) (EInv content) i col (fun x v => holds op_eq v x) xs J)
          as (r & r' & D & D' & C & C').
        { intros y Y. apply (enum_answers ops content laws op_eq y); [cbn; auto|auto]. }
        exists r, r'. split; auto. split; auto. rewrite C, C'. split; apply map_ext; intros [| |v]; reflexivity.
  - apply R.
    + apply (VInv_new ops content laws). now apply EInv_new.
    + intros v pos H. apply (enum_accepts ops content laws). apply V. eapply values_of_in; eauto.
Qed.
Example C09_enumeration_example : column [] [(Some 3, 0%nat); (Some 255, 1%nat); (None, 2%nat)] = Some [Val 3; Val 255; Nil].
Proof. reflexivity. Qed.

Definition assumptions_string_index := (C12_truncated, C12_exact, C12_equal_sound, C12_contains_sound, C12_truncated_not_equal_refuted,
  C12_truncated_contains_refuted, C12_ff_refuted, C12_limit_ten_refuted, C09_enumeration).
Print Assumptions assumptions_string_index.
