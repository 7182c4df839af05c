(** C13: lookups in hash indexes. *)
From Coq Require Import List ZArith NArith Lia Bool Sorted ZifyBool ZifyNat ZifyN.
From Verif Require Import WordProofs EwahModel EwahProofs BitmapAlgoModel BitmapAlgoProofs BitmapSelectProofs OperatorModel PropsBitmapOps BitmapOps CoderProofs
  ValueIndexModel ValueIndexProofs PropsIndex HashIndexModel HashIndexProofs.
Import ListNotations.
Open Scope N_scope.

(** The positions of the ones of a bitmap: for EWAH bitmaps by the iteration of C03. *)
Definition ewah_ones (x : ebm) : list N :=
  match bit_range (proj1_sig x) with
  | Some bs =>
    match select_init true bs with
    | Some r => match br_collect (br_select true) (N.to_nat (num_bits (proj1_sig x))) r with Some l => l | None => [] end
    | None => []
    end
  | None => []
  end.
Lemma ewah_ones_spec : forall x, ewah_ones x = occurrences true (ebm_content x).
Proof.
  intros [e R]. unfold ewah_ones, ebm_content. cbn [proj1_sig]. destruct (range_rel e _ R) as (bs & -> & F & C).
  destruct (select_init_spec true bs F) as (r & E & _). rewrite E. rewrite (collect_select_all true bs r F E).
  - now rewrite C, occurrences_pos.
  - rewrite C, (rel_size _ _ R). lia.
Qed.
Definition list_ones (x : list bool) : list N := occurrences true x.

Section Columns.
  Context {B : Type} (ops : bitmap_ops B) (content : B -> list bool) (laws : bitmap_laws ops content).
  Context (ones : B -> list N) (ONES : forall b, ones b = occurrences true (content b)).
  Context {V D : Type} (eqv : V -> V -> bool) (eqd : D -> D -> bool) (hash : option V -> nat -> D).
  Context (EV : forall x y, eqv x y = true <-> x = y) (ED : forall x y, eqd x y = true <-> x = y).

  Lemma hash_run : forall h i, vi_run ops (hash_impl eqv eqd hash) (vi_new ops h_new) h = Some i ->
    exists col, column [] h = Some col /\ VInv content (HInv eqv hash) i col.
  Proof.
    intros h i R. eapply (run_success ops content laws (hash_impl eqv eqd hash) (HInv eqv hash)) with (i0 := vi_new ops h_new) (col := []); eauto.
    - intros s v pos s' vals E I L. exact (HInv_append eqv eqd hash EV ED s v pos s' vals E I L).
    - apply (VInv_new ops content laws). apply HInv_new.
  Qed.
End Columns.

(** For every hash function and every column that the index accepted, [== x] and
    [in xs] return every row that matches. *)
Theorem C13_sound : forall B (ops : bitmap_ops B) content, bitmap_laws ops content ->
  forall ones, (forall b, ones b = occurrences true (content b)) ->
  forall V D (eqv : V -> V -> bool) (eqd : D -> D -> bool) hash,
  (forall x y, eqv x y = true <-> x = y) -> (forall x y, eqd x y = true <-> x = y) ->
  forall h i, vi_run ops (hash_impl eqv eqd hash) (vi_new ops h_new) h = Some i ->
  exists col, column [] h = Some col /\
  (forall x, exists r, hash_lookup ops eqv eqd hash ones i op_eq (HScalar x) = Some r /\ covers col (fun v => eqv v x) (content r)) /\
  (forall xs, exists r, hash_lookup ops eqv eqd hash ones i op_in (HList xs) = Some r /\
     covers col (fun v => existsb (fun x => match x with Some x => eqv v x | None => false end) xs) (content r)).
Proof.
  intros B ops content laws ones ONES V D eqv eqd hash EV ED h i R.
  destruct (hash_run ops content laws eqv eqd hash EV ED h i R) as (col & EC & J). exists col. split; auto. split.
  - intros x. destruct (hash_lookup_spec ops content laws eqv eqd hash EV ED ones ONES i col op_eq (HScalar x) J Logic.I) as (r & E & C).
    exists r. split; auto. rewrite C. eapply covers_map; [|intros [| |v]; reflexivity]. intros v I H. apply EV in H. subst x.
    exact (digest_same content eqv eqd hash ED i col v J I).
  - intros xs. destruct (hash_lookup_spec ops content laws eqv eqd hash EV ED ones ONES i col op_in (HList xs) J Logic.I) as (r & E & C).
    exists r. split; auto. rewrite C. eapply covers_map; [|intros [| |v]; reflexivity]. intros v I H.
    apply existsb_exists in H as ([x|] & IX & H); [|discriminate]. apply EV in H. subst x.
    change (existsb (fun x => digest_matches eqv eqd hash (vi_state i) x v) xs = true). apply existsb_exists. exists (Some v). split; auto.
    exact (digest_same content eqv eqd hash ED i col v J I).
Qed.

(** A hash function onto four digests. *)
Definition small_hash (x : option N) (seed : nat) : N := match x with Some v => (v / 10 + N.of_nat seed) mod 4 | None => 0 end.
(** 11 and 12 collide with 10 in the first round. *)
Example C13_sound_example : exists i col,
  vi_run list_ops (hash_impl N.eqb N.eqb small_hash) (vi_new list_ops h_new) [(Some 10, 0%nat); (Some 11, 1%nat); (None, 2%nat); (Some 12, 4%nat); (Some 11, 5%nat)] = Some i /\
  column [] [(Some 10, 0%nat); (Some 11, 1%nat); (None, 2%nat); (Some 12, 4%nat); (Some 11, 5%nat)] = Some col /\
  hash_lookup list_ops N.eqb N.eqb small_hash list_ones i op_eq (HScalar 11) = Some [false; true; false; false; false; true] /\
  small_hash (Some 10) 0 = small_hash (Some 11) 0.
Proof. eexists. eexists. split; [vm_compute; reflexivity|]. split; [reflexivity|]. split; vm_compute; reflexivity. Qed.

(** An operand that occurs in the column, or whose digest does not collide with
    one of the column. *)
Definition unambiguous {V D} (hash : option V -> nat -> D) (col : list (cell V)) (x : option V) : Prop :=
  (exists v, x = Some v /\ In (Val v) col) \/
  ((forall v, x = Some v -> ~ In (Val v) col) /\ forall v j, In (Val v) col -> hash x 0%nat <> hash (Some v) j).

(** For such operands all lookups are exact. *)
Theorem C13_exact : forall B (ops : bitmap_ops B) content, bitmap_laws ops content ->
  forall ones, (forall b, ones b = occurrences true (content b)) ->
  forall V D (eqv : V -> V -> bool) (eqd : D -> D -> bool) hash,
  (forall x y, eqv x y = true <-> x = y) -> (forall x y, eqd x y = true <-> x = y) ->
  forall h i, vi_run ops (hash_impl eqv eqd hash) (vi_new ops h_new) h = Some i ->
  exists col, column [] h = Some col /\
  (forall x, unambiguous hash col (Some x) ->
     exists r r', hash_lookup ops eqv eqd hash ones i op_eq (HScalar x) = Some r /\ hash_lookup ops eqv eqd hash ones i op_ne (HScalar x) = Some r' /\
     content r = map (cell_matches op_eq (fun v => eqv v x)) col /\ content r' = map (cell_matches op_ne (fun v => negb (eqv v x))) col) /\
  (forall xs, (forall x, In x xs -> unambiguous hash col x) ->
     exists r r', hash_lookup ops eqv eqd hash ones i op_in (HList xs) = Some r /\ hash_lookup ops eqv eqd hash ones i op_not_in (HList xs) = Some r' /\
     content r = map (cell_in eqv xs) col /\ content r' = map (cell_not_in eqv xs) col).
Proof.
  intros B ops content laws ones ONES V D eqv eqd hash EV ED h i R.
  destruct (hash_run ops content laws eqv eqd hash EV ED h i R) as (col & EC & J). exists col. split; auto.
  assert (M : forall x v, unambiguous hash col x -> In (Val v) col ->
    digest_matches eqv eqd hash (vi_state i) x v = match x with Some x => eqv v x | None => false end).
  { intros x v [(w & -> & W)|[NI NC] ] I.
    - destruct (eqv v w) eqn:Q.
      + apply EV in Q. subst w. exact (digest_same content eqv eqd hash ED i col v J I).
      + apply (digest_other content eqv eqd hash ED i col w v J W). intros ->. rewrite (proj2 (EV v v) eq_refl) in Q. discriminate.
    - rewrite (digest_absent content eqv eqd hash ED i col x v J NI); auto.
      destruct x as [w|]; auto. destruct (eqv v w) eqn:Q; auto. apply EV in Q. subst w. exfalso. now apply (NI v). }
  split.
  - intros x U.
    destruct (hash_lookup_spec ops content laws eqv eqd hash EV ED ones ONES i col op_eq (HScalar x) J Logic.I) as (r & E & C).
    destruct (hash_lookup_spec ops content laws eqv eqd hash EV ED ones ONES i col op_ne (HScalar x) J Logic.I) as (r' & E' & C').
    exists r, r'. split; auto. split; auto. rewrite C, C'.
    split; apply map_ext_cells; auto; intros v I; cbn [cell_result cell_matches hash_truth]; now rewrite (M _ v U I).
  - intros xs U.
    destruct (hash_lookup_spec ops content laws eqv eqd hash EV ED ones ONES i col op_in (HList xs) J Logic.I) as (r & E & C).
    destruct (hash_lookup_spec ops content laws eqv eqd hash EV ED ones ONES i col op_not_in (HList xs) J Logic.I) as (r' & E' & C').
    exists r, r'. split; auto. split; auto. rewrite C, C'.
    assert (EX : forall v, In (Val v) col -> existsb (fun x => digest_matches eqv eqd hash (vi_state i) x v) xs =
      existsb (fun x => match x with Some x => eqv v x | None => false end) xs).
    { intros v I. apply existsb_ext_in. intros x Hx. apply M; auto. }
    split; apply map_ext_cells; auto; intros v I; cbn [cell_result cell_in cell_not_in hash_truth]; now rewrite EX.
Qed.
(** 11 occurs; 25 does not, and no value of the column has its digest. *)
Example C13_exact_example : unambiguous small_hash [Val 10; Nil; Val 11] (Some 11) /\
  unambiguous (fun x (_ : nat) => match x with Some v => v | None => 0 end) [Val 10; Nil; Val 11] (Some 25).
Proof.
  split; [left; exists 11; cbn; auto|]. right. split.
  - intros v E [H|[H|[H|[] ] ] ]; congruence.
  - intros v j [H|[H|[H|[] ] ] ]; try discriminate H; injection H as <-; discriminate.
Qed.

(** Storing and loading an index does not change its answers. *)
Theorem C13_reload : forall B (ops : bitmap_ops B) content, bitmap_laws ops content ->
  forall V D (eqv : V -> V -> bool) (eqd : D -> D -> bool) hash,
  (forall x y, eqv x y = true <-> x = y) -> (forall x y, eqd x y = true <-> x = y) ->
  forall ones h i, vi_run ops (hash_impl eqv eqd hash) (vi_new ops h_new) h = Some i ->
  let i' := {| vi_mask := vi_mask i; vi_none := vi_none i; vi_state := h_reload (vi_state i) |} in
  forall op x, hash_lookup ops eqv eqd hash ones i' op x = hash_lookup ops eqv eqd hash ones i op x.
Proof.
  intros B ops content laws V D eqv eqd hash EV ED ones h i R i' op x.
  destruct (hash_run ops content laws eqv eqd hash EV ED h i R) as (col & EC & J).
  destruct J as (_ & _ & _ & vals & j & HI & _).
  assert (FD : forall y, find_digest eqv hash (h_reload (vi_state i)) y = find_digest eqv hash (vi_state i) y).
  { intros y. exact (reload_digest eqv hash EV (vi_state i) vals y HI). }
  assert (MF : forall xs, map (find_digest eqv hash (h_reload (vi_state i))) xs = map (find_digest eqv hash (vi_state i)) xs).
  { intros xs. apply map_ext. exact FD. }
  unfold hash_lookup, h_lookup, vi_finish, vi_offset. subst i'. cbn [vi_mask vi_none vi_state].
  destruct op, x; cbn [h_reload h_digests]; rewrite ?FD, ?MF; reflexivity.
Qed.
Example C13_reload_example : exists i,
  vi_run list_ops (hash_impl N.eqb N.eqb small_hash) (vi_new list_ops h_new) [(Some 10, 0%nat); (Some 11, 1%nat)] = Some i /\
  h_seeds (vi_state i) = [(10, 0%nat); (11, 1%nat)] /\ h_seeds (h_reload (vi_state i)) = [(11, 1%nat)].
Proof. eexists. split; [vm_compute; reflexivity|]. split; reflexivity. Qed.

(** [!=] with an operand that does not occur but collides misses rows. *)
Theorem C13_collision_refuted : exists (hash : option N -> nat -> N) i v x, v <> x /\
  vi_run list_ops (hash_impl N.eqb N.eqb hash) (vi_new list_ops h_new) [(Some v, 0%nat)] = Some i /\
  hash_lookup list_ops N.eqb N.eqb hash list_ones i op_ne (HScalar x) = Some [false].
Proof. exists small_hash. eexists. exists 10, 11. split; [discriminate|]. split; vm_compute; reflexivity. Qed.

(** A value whose digests are all taken is refused; the index actor ignores that
    (indexer.cpp:83), and later lookups miss the row. *)
Theorem C13_refused_refuted : exists (hash : option N -> nat -> N) i v w, v <> w /\
  vi_run list_ops (hash_impl N.eqb N.eqb hash) (vi_new list_ops h_new) [(Some v, 0%nat)] = Some i /\
  vi_append list_ops (hash_impl N.eqb N.eqb hash) i (Some w) 1 = None /\
  hash_lookup list_ops N.eqb N.eqb hash list_ones i op_eq (HScalar w) = Some [true].
Proof. exists (fun _ _ => 0). eexists. exists 10, 11. split; [discriminate|]. split; [vm_compute; reflexivity|]. split; vm_compute; reflexivity. Qed.

Definition assumptions_hash_index := (ewah_ones_spec, C13_sound, C13_exact, C13_reload, C13_collision_refuted, C13_refused_refuted).
Print Assumptions assumptions_hash_index.
