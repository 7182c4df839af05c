(** C02, C03 and C05: boolean operations, rank/select/iteration and ID sets. *)
From Coq Require Import List ZArith NArith Lia Bool Sorted ZifyBool ZifyNat ZifyN.
From Verif Require Import NBits WordModel WordProofs EwahModel EwahProofs BitmapAlgoModel
  BitmapAlgoProofs BitmapSelectProofs PropsEwah.
Import ListNotations.
Open Scope N_scope.

(** * Specification: expressions over bit sequences *)

(** Every way to obtain a bitmap: mutators, boolean operators, concatenation. *)
Inductive bexp :=
| BNew
| BMut (o : bitmap_op) (a : bexp)
| BAnd (a b : bexp) | BOr (a b : bexp) | BXor (a b : bexp) | BDiff (a b : bexp)
| BAppend (a b : bexp).

Fixpoint bvalid (x : bexp) : Prop :=
  match x with
  | BNew => True
  | BMut o a => op_valid o /\ bvalid a
  | BAnd a b | BOr a b | BXor a b | BDiff a b | BAppend a b => bvalid a /\ bvalid b
  end.

(** Pointwise combination: the size of the longer operand, missing bits are 0. *)
Definition pointwise (f : bool -> bool -> bool) (l r : list bool) : list bool :=
  map (fun i => f (nth i l false) (nth i r false)) (seq 0 (Nat.max (length l) (length r))).

Fixpoint bspec (x : bexp) : list bool :=
  match x with
  | BNew => []
  | BMut o a => spec_op (bspec a) o
  | BAnd a b => pointwise andb (bspec a) (bspec b)
  | BOr a b => pointwise orb (bspec a) (bspec b)
  | BXor a b => pointwise xorb (bspec a) (bspec b)
  | BDiff a b => pointwise (fun p q => p && negb q) (bspec a) (bspec b)
  | BAppend a b => bspec a ++ bspec b
  end.

Definition bind2 (f : ewah -> ewah -> option ewah) (a b : option ewah) : option ewah :=
  match a, b with Some x, Some y => f x y | _, _ => None end.

Fixpoint bexec (x : bexp) : option ewah :=
  match x with
  | BNew => Some ewah_empty
  | BMut o a => exec_op (bexec a) o
  | BAnd a b => bind2 binary_and (bexec a) (bexec b)
  | BOr a b => bind2 binary_or (bexec a) (bexec b)
  | BXor a b => bind2 binary_xor (bexec a) (bexec b)
  | BDiff a b => bind2 binary_nand (bexec a) (bexec b)
  | BAppend a b => bind2 (fun x y => append y x) (bexec a) (bexec b)
  end.

(** The positions that hold [bit], in increasing order. *)
Definition occurrences (bit : bool) (l : list bool) : list N :=
  filter (fun p => Bool.eqb (nth (N.to_nat p) l false) bit) (map N.of_nat (seq 0 (length l))).

(** * Proofs *)

Lemma pointwise_pw : forall f l r, pointwise f l r = pw f l r.
Proof.
  intros f l r. apply list_ext.
  - unfold pointwise. now rewrite map_length, seq_length, pw_length.
  - unfold pointwise. intros i Hi. rewrite map_length, seq_length in Hi.
    rewrite pw_nth_lt by auto.
    rewrite (nth_indep _ _ (f (nth 0 l false) (nth 0 r false))) by (rewrite map_length, seq_length; lia).
    rewrite (map_nth (fun i => f (nth i l false) (nth i r false))). now rewrite seq_nth by lia.
Qed.

Lemma bexec_rel : forall x, bvalid x -> exists e, bexec x = Some e /\ rel e (bspec x).
Proof.
  induction x as [|o a IHa|a IHa b IHb|a IHa b IHb|a IHa b IHb|a IHa b IHb|a IHa b IHb]; intros V;
    cbn [bvalid bexec bspec] in *; rewrite ?pointwise_pw.
  - exists ewah_empty. split; auto. left; auto.
  - destruct V as [V1 V2]. destruct (IHa V2) as (e & -> & R). now apply exec_op_rel.
  - destruct V as [V1 V2]. destruct (IHa V1) as (e1 & -> & R1), (IHb V2) as (e2 & -> & R2). now apply binary_and_rel.
  - destruct V as [V1 V2]. destruct (IHa V1) as (e1 & -> & R1), (IHb V2) as (e2 & -> & R2). now apply binary_or_rel.
  - destruct V as [V1 V2]. destruct (IHa V1) as (e1 & -> & R1), (IHb V2) as (e2 & -> & R2). now apply binary_xor_rel.
  - destruct V as [V1 V2]. destruct (IHa V1) as (e1 & -> & R1), (IHb V2) as (e2 & -> & R2). now apply binary_nand_rel.
  - destruct V as [V1 V2]. destruct (IHa V1) as (e1 & -> & R1), (IHb V2) as (e2 & -> & R2).
    cbn [bind2]. now apply append_rel.
Qed.

Lemma bexec_rel_of : forall x e, bvalid x -> bexec x = Some e -> rel e (bspec x).
Proof. intros x e V E. destruct (bexec_rel x V) as (e' & E' & R). congruence. Qed.

Lemma bexec_range : forall x e bs, bvalid x -> bexec x = Some e -> bit_range e = Some bs ->
  Forall good bs /\ flat_map blist bs = bspec x /\ num_bits e = N.of_nat (length (bspec x)).
Proof.
  intros x e bs V E B. pose proof (bexec_rel_of x e V E) as R.
  destruct (range_rel e _ R) as (bs' & B' & F & C). assert (bs' = bs) by congruence. subst bs'.
  split; [exact F|]. split; auto. now apply rel_size.
Qed.

Lemma occurrences_pos : forall bit l, pos_from bit 0 l = occurrences bit l.
Proof.
  intros bit l. unfold occurrences.
  enough (H : forall l k pre, length pre = k ->
    pos_from bit (N.of_nat k) l =
    filter (fun p => Bool.eqb (nth (N.to_nat p) (pre ++ l) false) bit) (map N.of_nat (seq k (length l)))).
  { apply (H l 0%nat []). reflexivity. }
  clear l. induction l as [|x l IH]; intros k pre Hk; auto.
  cbn [pos_from length seq map filter].
  rewrite Nat2N.id, app_nth2, Hk, Nat.sub_diag by lia. cbn [nth].
  specialize (IH (S k) (pre ++ [x])). rewrite app_length, <- app_assoc in IH. cbn [length app] in IH.
  replace (N.of_nat k + 1) with (N.of_nat (S k)) by lia. rewrite IH by lia.
  destruct (Bool.eqb x bit); reflexivity.
Qed.

Lemma pos_count : forall bit l n, length (pos_from bit n l) = count_occ bool_dec l bit.
Proof.
  intros bit. induction l as [|x l IH]; intros n; auto. cbn [pos_from].
  destruct (bool_dec x bit) as [E|E].
  - rewrite count_occ_cons_eq by auto. subst. rewrite eqb_reflx. cbn [length]. now rewrite IH.
  - rewrite count_occ_cons_neq by auto. apply eqb_false_iff in E. rewrite E. apply IH.
Qed.

(** * C02 *)

(** Every expression over mutators, [&], [|], [^], [-] and concatenation
    evaluates without a violated assertion to a bitmap with exactly the
    specified size and bits. *)
Theorem C02_expression_exact : forall x, bvalid x ->
  exists e, bexec x = Some e /\ num_bits e = N.of_nat (length (bspec x)) /\ iterated e = Some (bspec x).
Proof.
  intros x V. destruct (bexec_rel x V) as (e & E & R). exists e. split; auto.
  split; [now apply rel_size|now apply iterated_rel].
Qed.

(** The n-ary operators combine all bitmaps of a list pointwise, whichever
    order the priority queue chooses among bitmaps of equal size: the result has
    the size of the longest bitmap, and bit [i] is the disjunction, conjunction
    or parity of all bits [i]. Some result always exists. *)
Definition max_length (ls : list (list bool)) : nat := fold_right Nat.max 0%nat (map (@length bool) ls).
Definition across (f : list bool -> bool) (ls : list (list bool)) : list bool :=
  map (fun i => f (map (fun l => nth i l false) ls)) (seq 0 (max_length ls)).

Lemma fold1_length : forall f ls, length (fold1 f ls) = max_length ls.
Proof.
  intros f [|l ls]; auto. unfold max_length. cbn [fold1 map fold_right].
  revert l. induction ls as [|m ls IH]; intros l; cbn [fold_left map fold_right]; [lia|].
  rewrite IH, pw_length. lia.
Qed.

Lemma fold1_nth : forall f (g : list bool -> bool), f false false = false ->
  (forall a, g [a] = a) -> (forall a b l, g (f a b :: l) = g (a :: b :: l)) ->
  forall ls i, ls <> [] -> nth i (fold1 f ls) false = g (map (fun l => nth i l false) ls).
Proof.
  intros f g F G1 G2 [|l ls] i H; [contradiction|]. cbn [fold1 map]. clear H.
  revert l. induction ls as [|m ls IH]; intros l; cbn [fold_left map]; [now rewrite G1|].
  rewrite IH, pw_nth by auto. apply G2.
Qed.

Lemma fold1_across : forall f g, f false false = false ->
  (forall a, g [a] = a) -> (forall a b l, g (f a b :: l) = g (a :: b :: l)) ->
  forall ls, fold1 f ls = across g ls.
Proof.
  intros f g F G1 G2 ls. destruct ls as [|l ls]; [reflexivity|]. apply list_ext.
  - rewrite fold1_length. unfold across. now rewrite map_length, seq_length.
  - intros i Hi. rewrite fold1_length in Hi. rewrite (fold1_nth f g) by (auto; discriminate).
    unfold across. set (h := fun i => g (map (fun l => nth i l false) (l :: ls))).
    rewrite (nth_indep _ _ (h 0%nat)) by (rewrite map_length, seq_length; lia).
    rewrite map_nth, seq_nth by lia. reflexivity.
Qed.

Lemma bexecs_rels : forall xs es, Forall bvalid xs -> map bexec xs = map Some es ->
  rels es (map bspec xs).
Proof.
  induction xs as [|x xs IH]; intros [|e es] F E; try discriminate; cbn [map]; [constructor|].
  apply Forall_cons_iff in F as [F1 F2]. injection E as E1 E2. constructor.
  - now apply bexec_rel_of.
  - now apply IH.
Qed.

Definition parity (l : list bool) : bool := fold_right xorb false l.

Lemma nary_exact : forall op f g,
  (forall e1 l1 e2 l2, rel e1 l1 -> rel e2 l2 -> exists e, op e1 e2 = Some e /\ rel e (pw f l1 l2)) ->
  f false false = false -> (forall a b, f a b = f b a) -> (forall a b c, f (f a b) c = f a (f b c)) ->
  (forall a, g [a] = a) -> (forall a b l, g (f a b :: l) = g (a :: b :: l)) ->
  forall xs es, Forall bvalid xs -> map bexec xs = map Some es ->
  (exists r, nary_eval op es r) /\
  forall r, nary_eval op es r ->
    num_bits r = N.of_nat (max_length (map bspec xs)) /\
    iterated r = Some (across g (map bspec xs)).
Proof.
  intros op f g OP F FC FA G1 G2 xs es V E. pose proof (bexecs_rels xs es V E) as R. split.
  - eapply (nary_total op f OP); eauto.
  - intros r H. assert (Q : rel r (across g (map bspec xs))).
    { rewrite <- (fold1_across f g) by auto.
      eapply (nary_spec op f OP); eauto; intros; [now apply pw_assoc|now apply pw_comm]. }
    split; [|now apply iterated_rel]. rewrite (rel_size _ _ Q). unfold across. now rewrite map_length, seq_length.
Qed.

Theorem C02_nary_or : forall xs es, Forall bvalid xs -> map bexec xs = map Some es ->
  (exists r, nary_eval binary_or es r) /\
  forall r, nary_eval binary_or es r ->
    num_bits r = N.of_nat (max_length (map bspec xs)) /\
    iterated r = Some (across (existsb (fun b => b)) (map bspec xs)).
Proof.
  intros xs es. apply (nary_exact _ orb); auto using binary_or_rel, orb_comm.
  - intros [] [] []; reflexivity.
  - intros []; reflexivity.
  - intros [] [] l; reflexivity.
Qed.

Theorem C02_nary_and : forall xs es, Forall bvalid xs -> map bexec xs = map Some es ->
  (exists r, nary_eval binary_and es r) /\
  forall r, nary_eval binary_and es r ->
    num_bits r = N.of_nat (max_length (map bspec xs)) /\
    iterated r = Some (across (forallb (fun b => b)) (map bspec xs)).
Proof.
  intros xs es. apply (nary_exact _ andb); auto using binary_and_rel, andb_comm.
  - intros [] [] []; reflexivity.
  - intros []; reflexivity.
  - intros [] [] l; reflexivity.
Qed.

Theorem C02_nary_xor : forall xs es, Forall bvalid xs -> map bexec xs = map Some es ->
  (exists r, nary_eval binary_xor es r) /\
  forall r, nary_eval binary_xor es r ->
    num_bits r = N.of_nat (max_length (map bspec xs)) /\
    iterated r = Some (across parity (map bspec xs)).
Proof.
  intros xs es. apply (nary_exact _ xorb); auto using binary_xor_rel, xorb_comm.
  - intros [] [] []; reflexivity.
  - intros []; reflexivity.
  - intros [] [] l; unfold parity; cbn; now destruct (fold_right xorb false l).
Qed.

(** The operator [/] ("or not") is not pointwise when the left operand is
    shorter: the surplus of the right operand is copied instead of negated. *)
Theorem C02_nor_refuted : exists x y ex ey r, bvalid x /\ bvalid y /\
  bexec x = Some ex /\ bexec y = Some ey /\ binary_nor ex ey = Some r /\
  iterated r <> Some (pointwise (fun p q => p || negb q) (bspec x) (bspec y)).
Proof.
  exists (BMut (AppendBit false) BNew), (BMut (AppendBits true 3) BNew).
  eexists. eexists. eexists. split; [cbn; auto|]. split; [cbn; auto|].
  split; [vm_compute; reflexivity|]. split; [vm_compute; reflexivity|].
  split; [vm_compute; reflexivity|]. vm_compute. intros H. discriminate.
Qed.

Definition C02_example_exp : bexp :=
  BAnd (BOr (BMut (AppendBits true 130) (BMut (AppendBlock 9 10) BNew))
            (BMut Flip (BMut (AppendBits true 64) (BMut (AppendBit false) BNew))))
       (BXor (BMut (AppendBlock 12345678901 64) BNew)
             (BDiff (BMut (AppendBits true 300) BNew) (BAppend (BMut (AppendBit true) BNew) BNew))).
Example C02_example_valid : bvalid C02_example_exp.
Proof. cbn. lia. Qed.
Example C02_example_run :
  option_map (fun e => (num_bits e, iterated e)) (bexec C02_example_exp)
  = Some (300, Some (bspec C02_example_exp)) /\ existsb (fun b => b) (bspec C02_example_exp) = true.
Proof. vm_compute. auto. Qed.
(** Three bitmaps of different sizes under the n-ary operators. *)
Definition C02_example_list : list bexp :=
  [BMut (AppendBits true 70) BNew; C02_example_exp; BMut (AppendBlock 6 4) BNew].
Example C02_example_nary : Forall bvalid C02_example_list /\
  exists es, map bexec C02_example_list = map Some es.
Proof.
  split; [repeat constructor; cbn; lia|].
  unfold C02_example_list. cbn [map].
  destruct (bexec_rel (BMut (AppendBits true 70) BNew)) as (e1 & -> & _); [cbn; auto|].
  destruct (bexec_rel C02_example_exp) as (e2 & -> & _); [apply C02_example_valid|].
  destruct (bexec_rel (BMut (AppendBlock 6 4) BNew)) as (e3 & -> & _); [cbn; lia|].
  exists [e1; e2; e3]. reflexivity.
Qed.

(** * C03 *)

(** [rank] up to and including position [i] counts the occurrences of [bit] in
    the first [i + 1] bits. *)
Theorem C03_rank_at : forall x e bs bit i, bvalid x -> bexec x = Some e -> bit_range e = Some bs ->
  i < num_bits e ->
  rank_at bit (num_bits e) bs i =
  Some (N.of_nat (count_occ bool_dec (firstn (N.to_nat (i + 1)) (bspec x)) bit)).
Proof.
  intros x e bs bit i V E B Hi. destruct (bexec_range x e bs V E B) as (F & C & S).
  unfold rank_at. assert (i <? num_bits e = true) as -> by lia. f_equal.
  rewrite rank_go_spec by (auto; rewrite ?C; lia). rewrite C, pos_count, N.sub_0_r. reflexivity.
Qed.

Theorem C03_rank : forall x e bs bit, bvalid x -> bexec x = Some e -> bit_range e = Some bs ->
  rank bit (num_bits e) bs = Some (N.of_nat (count_occ bool_dec (bspec x) bit)).
Proof.
  intros x e bs bit V E B. destruct (bexec_range x e bs V E B) as (F & C & S). unfold rank.
  destruct (N.eqb_spec (num_bits e) 0) as [Z|Z].
  - destruct (bspec x); [reflexivity|cbn [length] in S; lia].
  - rewrite (C03_rank_at x) by (auto; lia). rewrite firstn_all2 by lia. reflexivity.
Qed.

(** [select(i)] is the position of the [i]-th occurrence, or [npos]. *)
Theorem C03_select : forall x e bs bit i, bvalid x -> bexec x = Some e -> bit_range e = Some bs ->
  0 < i ->
  select_nth bit bs i = Some (nth_error (occurrences bit (bspec x)) (N.to_nat (i - 1))).
Proof.
  intros x e bs bit i V E B Hi. destruct (bexec_range x e bs V E B) as (F & C & S).
  unfold select_nth. assert (0 <? i = true) as -> by lia. rewrite select_go_spec by (auto; lia).
  rewrite C, occurrences_pos. do 2 f_equal. lia.
Qed.

(** [select(npos)] is the last set position. *)
Theorem C03_select_last : forall x e bs, bvalid x -> bexec x = Some e -> bit_range e = Some bs ->
  select_last true bs = hd_error (rev (occurrences true (bspec x))).
Proof.
  intros x e bs V E B. destruct (bexec_range x e bs V E B) as (F & C & S).
  unfold select_last. rewrite select_last_go_spec by auto. rewrite C, occurrences_pos.
  unfold last_error. now destruct (hd_error _).
Qed.

(** For zeros it is wrong: the code searches for the last 1-bit. *)
Theorem C03_select_last_zero_refuted : exists x e bs, bvalid x /\ bexec x = Some e /\
  bit_range e = Some bs /\ select_last false bs <> hd_error (rev (occurrences false (bspec x))).
Proof.
  exists (BMut (AppendBit true) (BMut (AppendBit false) BNew)). eexists. eexists.
  split; [cbn; auto|]. split; [vm_compute; reflexivity|]. split; [vm_compute; reflexivity|].
  vm_compute. discriminate.
Qed.

(** Iterating the ones (or zeros) visits exactly the matching positions, each
    once and in increasing order, and terminates. *)
Theorem C03_iterate : forall x e bs bit, bvalid x -> bexec x = Some e -> bit_range e = Some bs ->
  exists r, select_init bit bs = Some r /\
    br_collect (br_select bit) (N.to_nat (num_bits e)) r = Some (occurrences bit (bspec x)).
Proof.
  intros x e bs bit V E B. destruct (bexec_range x e bs V E B) as (F & C & S).
  destruct (select_init_spec bit bs F) as (r & I & _). exists r. split; auto.
  rewrite (collect_select_all bit bs r F I) by (rewrite C, S; lia). now rewrite C, occurrences_pos.
Qed.

(** A range standing on position [p] (it came from any sequence of calls) moves
    by [next], [next(k)], [select], [select(k)] and [select_from] to exactly the
    specified position or becomes done. *)
Inductive reached (bs : list bits) : brange -> Prop :=
| reach_each : reached bs (br_init bs)
| reach_select : forall bit r, select_init bit bs = Some r -> reached bs r
| reach_next : forall r r', reached bs r -> br_next r = Some r' -> reached bs r'
| reach_next_k : forall k r r', reached bs r -> 0 < k -> br_next_k k r = Some r' -> reached bs r'
| reach_sel : forall bit r r', reached bs r -> br_select bit r = Some r' -> reached bs r'
| reach_sel_k : forall k r r', reached bs r -> 0 < k -> br_select_k true k r = Some r' -> reached bs r'
| reach_from : forall bit p q r r', reached bs r -> br_get r = Some p -> p <= q ->
    br_select_from bit q r = Some r' -> reached bs r'.

Lemma at_pos_not_done : forall L r, at_pos L r None -> br_next r = None /\ (forall k, 0 < k -> br_next_k k r = None) /\
  (forall bit, br_select bit r = None) /\ (forall k bit, 0 < k -> br_select_k bit k r = None).
Proof.
  intros L r [E1 E2]. unfold br_next, br_next_k, br_select, br_select_k. rewrite E1.
  repeat split; auto; intros; assert (k =? 0 = false) as -> by lia; reflexivity.
Qed.

Lemma reached_at_pos : forall bs r, Forall good bs -> reached bs r ->
  exists p, at_pos (flat_map blist bs) r p.
Proof.
  intros bs r F H. induction H as [|bit r E|r r' H [[p|] A] E|k r r' H [[p|] A] K E|bit r r' H [[p|] A] E|k r r' H [[p|] A] K E|bit p q r r' H [op A] G L E].
  - eexists. now apply br_init_spec.
  - destruct (select_init_spec bit bs F) as (r' & E' & A). assert (r' = r) by congruence. subst. eauto.
  - destruct (br_next_spec _ _ _ A) as (r2 & E2 & A2). assert (r2 = r') by congruence. subst. eauto.
  - destruct (at_pos_not_done _ _ A) as (Q & _). congruence.
  - destruct (br_next_k_spec _ _ _ k A K) as (r2 & E2 & A2). assert (r2 = r') by congruence. subst. eauto.
  - destruct (at_pos_not_done _ _ A) as (_ & Q & _). specialize (Q k K). congruence.
  - destruct (br_select_spec bit _ _ _ A) as (r2 & E2 & A2). assert (r2 = r') by congruence. subst. eauto.
  - destruct (at_pos_not_done _ _ A) as (_ & _ & Q & _). specialize (Q bit). congruence.
  - destruct (br_select_k_spec _ _ _ k A K) as (r2 & E2 & A2). assert (r2 = r') by congruence. subst. eauto.
  - destruct (at_pos_not_done _ _ A) as (_ & _ & _ & Q). specialize (Q k true K). congruence.
  - pose proof (at_pos_get _ _ _ A) as G2. rewrite G in G2. subst op.
    destruct (br_select_from_spec bit _ _ _ q A L) as (r2 & E2 & A2). assert (r2 = r') by congruence. subst. eauto.
Qed.

Definition later (bit : bool) (l : list bool) (p : N) : list N :=
  filter (fun q => p <? q) (occurrences bit l).

Theorem C03_range_moves : forall x e bs r, bvalid x -> bexec x = Some e -> bit_range e = Some bs ->
  reached bs r ->
  br_done r = (match br_get r with None => true | Some _ => false end) /\
  forall p, br_get r = Some p ->
    p < num_bits e /\
    br_value r = Some (nth (N.to_nat p) (bspec x) false) /\
    (exists r', br_next r = Some r' /\
       br_get r' = if p + 1 <? num_bits e then Some (p + 1) else None) /\
    (forall k, 0 < k -> exists r', br_next_k k r = Some r' /\
       br_get r' = if p + k <? num_bits e then Some (p + k) else None) /\
    (forall bit, exists r', br_select bit r = Some r' /\
       br_get r' = hd_error (later bit (bspec x) p)) /\
    (forall k, 0 < k -> exists r', br_select_k true k r = Some r' /\
       br_get r' = nth_error (later true (bspec x) p) (N.to_nat (k - 1))) /\
    (forall bit q, p <= q -> exists r', br_select_from bit q r = Some r' /\
       br_get r' = hd_error (filter (fun o => q <=? o) (occurrences bit (bspec x)))).
Proof.
  intros x e bs r V E B H. destruct (bexec_range x e bs V E B) as (F & C & S).
  destruct (reached_at_pos bs r F H) as (po & A). rewrite C in A. pose proof (at_pos_get _ _ _ A) as G.
  split. { rewrite (at_pos_done _ _ _ A), G. reflexivity. }
  intros p Gp. rewrite <- G, Gp in A. rewrite S.
  unfold later. rewrite <- !occurrences_pos.
  split; [exact (at_pos_lt _ _ _ A)|]. split; [exact (at_pos_value _ _ _ A)|].
  split. { destruct (br_next_spec _ _ _ A) as (r' & E' & A'). exists r'. split; auto. now apply at_pos_get in A'. }
  split. { intros k K. destruct (br_next_k_spec _ _ _ k A K) as (r' & E' & A'). exists r'. split; auto. now apply at_pos_get in A'. }
  split. { intros bit. destruct (br_select_spec bit _ _ _ A) as (r' & E' & A'). exists r'. split; auto.
           rewrite <- occurrences_pos. now apply at_pos_get in A'. }
  split. { intros k K. destruct (br_select_k_spec _ _ _ k A K) as (r' & E' & A'). exists r'. split; auto. now apply at_pos_get in A'. }
  intros bit q Q. destruct (br_select_from_spec bit _ _ _ q A Q) as (r' & E' & A'). exists r'. split; auto.
  rewrite <- occurrences_pos. now apply at_pos_get in A'.
Qed.

(** [select<0>(k)] can select a position past the end of the bitmap: unused
    bits of the last block count as zeros. *)
Theorem C03_select_k_zero_refuted : exists x e bs r r' p, bvalid x /\ bexec x = Some e /\
  bit_range e = Some bs /\ reached bs r /\ br_select_k false 1 r = Some r' /\
  br_get r' = Some p /\ num_bits e <= p.
Proof.
  exists (BMut (AppendBlock 7 3) (BMut (AppendBlock 5 64) BNew)). eexists. eexists.
  set (bs := [Bits 5 64; Bits 7 3]).
  exists (BRange bs (Some 63) 0). eexists. eexists.
  split; [cbn; lia|]. split; [vm_compute; reflexivity|]. split; [vm_compute; reflexivity|].
  split; [|split; [vm_compute; reflexivity|split; [vm_compute; reflexivity|vm_compute; discriminate]]].
  apply reach_next_k with (k := 63) (r := br_init bs); [constructor|lia|vm_compute; reflexivity].
Qed.

(** [frame]: the first and last position. [any] and [all]. *)
Theorem C03_frame : forall x e bs bit, bvalid x -> bexec x = Some e -> bit_range e = Some bs ->
  frame bit bs = match occurrences bit (bspec x) with
                 | [] => None
                 | p :: ps => Some (p, List.last ps p)
                 end.
Proof.
  intros x e bs bit V E B. destruct (bexec_range x e bs V E B) as (F & C & S).
  unfold frame. rewrite frame_go_spec by auto. rewrite C, occurrences_pos.
  destruct (occurrences bit (bspec x)) as [|p ps]; auto. cbn [hd_error].
  assert (H : last_error (p :: ps) = Some (List.last ps p)).
  { revert p. induction ps as [|q ps IH]; intros p; auto.
    change (p :: q :: ps) with ([p] ++ q :: ps). rewrite last_error_app, IH. f_equal.
    clear. revert p q. induction ps as [|z zs IH]; intros p q; auto.
    change (List.last (q :: z :: zs) p) with (List.last (z :: zs) p). rewrite <- (IH p z). symmetry. apply (IH q z). }
  now rewrite H.
Qed.

Theorem C03_any : forall x e bs bit, bvalid x -> bexec x = Some e -> bit_range e = Some bs ->
  (any bit bs = true <-> In bit (bspec x)).
Proof.
  intros x e bs bit V E B. destruct (bexec_range x e bs V E B) as (F & C & S).
  rewrite any_spec, C by auto. rewrite existsb_exists. split.
  - intros (b & H1 & H2). apply eqb_prop in H2. now subst.
  - intros H. exists bit. split; auto. apply eqb_reflx.
Qed.

(** [all] is true exactly if the bitmap is non-empty and holds only [bit]. *)
Theorem C03_all : forall x e bs bit, bvalid x -> bexec x = Some e -> bit_range e = Some bs ->
  (all_of bit (num_bits e) bs = true <-> bspec x <> [] /\ forall b, In b (bspec x) -> b = bit).
Proof.
  intros x e bs bit V E B. destruct (bexec_range x e bs V E B) as (F & C & S).
  unfold all_of. destruct (N.eqb_spec (num_bits e) 0) as [Z|Z].
  - destruct (bspec x); [|cbn [length] in S; lia]. split; [discriminate|intros [[] _]; auto].
  - rewrite negb_true_iff. split.
    + intros H. split; [destruct (bspec x); [cbn [length] in S; lia|discriminate]|].
      intros b Hb. destruct (bool_dec b bit); auto. assert (b = negb bit) by (destruct b, bit; auto; contradiction). subst b.
      apply (C03_any x e bs (negb bit) V E B) in Hb. congruence.
    + intros [_ H]. destruct (any (negb bit) bs) eqn:Q; auto.
      apply (C03_any x e bs (negb bit) V E B) in Q. specialize (H _ Q). destruct bit; discriminate.
Qed.

(** [is_subset] is exact if one of the bitmaps is non-empty... *)
Theorem C03_is_subset : forall x y ex ey, bvalid x -> bvalid y -> bexec x = Some ex -> bexec y = Some ey ->
  num_bits ex <> 0 \/ num_bits ey <> 0 ->
  exists b, is_subset ex ey = Some b /\
    (b = true <-> forall p, nth p (bspec x) false = true -> nth p (bspec y) false = true).
Proof.
  intros x y ex ey Vx Vy Ex Ey NE.
  assert (V : bvalid (BDiff x y)) by (cbn; auto).
  destruct (bexec_rel _ V) as (d & Ed & Rd). cbn [bexec] in Ed. rewrite Ex, Ey in Ed. cbn [bind2] in Ed.
  unfold is_subset. rewrite Ed. destruct (range_rel d _ Rd) as (bs & B & _). rewrite B. cbn [option_map].
  eexists. split; [reflexivity|].
  assert (Ed' : bexec (BDiff x y) = Some d) by (cbn [bexec]; now rewrite Ex, Ey).
  rewrite (C03_all (BDiff x y) d bs false V Ed' B).
  pose proof (rel_size _ _ (bexec_rel_of x ex Vx Ex)) as Sx.
  pose proof (rel_size _ _ (bexec_rel_of y ey Vy Ey)) as Sy.
  cbn [bspec]. rewrite pointwise_pw. set (f := fun p q => p && negb q).
  assert (L : length (pw f (bspec x) (bspec y)) <> 0%nat) by (rewrite pw_length; lia).
  split.
  - intros [_ H] p Hp. destruct (nth p (bspec y) false) eqn:Q; auto.
    assert (N : nth p (pw f (bspec x) (bspec y)) false = true) by (rewrite pw_nth by auto; unfold f; now rewrite Hp, Q).
    destruct (Nat.lt_ge_cases p (length (pw f (bspec x) (bspec y)))).
    + apply (nth_In _ false) in H0. rewrite N in H0. specialize (H _ H0). discriminate.
    + rewrite nth_overflow in N by auto. discriminate.
  - intros H. split; [destruct (pw f (bspec x) (bspec y)); [now destruct L|discriminate]|].
    intros b Hb. apply (In_nth _ _ false) in Hb as (p & _ & <-). rewrite pw_nth by auto. unfold f.
    destruct (nth p (bspec x) false) eqn:Q; auto. rewrite H; auto.
Qed.

(** ... but the empty bitmap is not reported as a subset of itself. *)
Theorem C03_is_subset_empty_refuted : is_subset ewah_empty ewah_empty = Some false.
Proof. vm_compute. reflexivity. Qed.

(** [select_with] applies the function to exactly the elements whose interval
    contains a set bit, in order, up to and including the first error, for every
    sequence of elements with increasing disjoint intervals. *)
Theorem C03_select_with : forall (A : Type) (f : A -> N * N) (g : A -> bool) x e bs l,
  bvalid x -> bexec x = Some e -> bit_range e = Some bs ->
  StronglySorted (fun a b => snd (f a) <= fst (f b)) l ->
  Forall (fun a => fst (f a) < snd (f a)) l ->
  exists hits, select_with f g bs l = Some (visit g hits) /\
    hits = filter (fun a => existsb (fun p => (fst (f a) <=? p) && (p <? snd (f a)))
                                    (occurrences true (bspec x))) l.
Proof.
  intros A f g x e bs l V E B S W. destruct (bexec_range x e bs V E B) as (F & C & _).
  eexists. split; [|reflexivity]. rewrite (select_with_spec f g bs l F S W). do 2 f_equal.
  apply filter_ext. intros a. unfold hit_from. rewrite C, occurrences_pos.
  induction (occurrences true (bspec x)) as [|p ps IH]; auto. cbn [existsb]. rewrite IH.
  assert (0 <=? p = true) as -> by lia. reflexivity.
Qed.

(** A bitmap with runs and a partial block on which the hypotheses hold and the
    results are not trivial. *)
Definition C03_example_case : option (option N * option (option N) * option (N * N) * option (list (N * N) * bool)) :=
  match bexec C02_example_exp with
  | Some e =>
    match bit_range e with
    | Some bs => Some (rank true (num_bits e) bs, select_nth true bs 65, frame true bs,
        select_with (fun a => a) (fun _ => false) bs [(0, 3); (10, 20); (50, 80); (139, 140); (200, 300)])
    | None => None
    end
  | None => None
  end.
Example C03_example : C03_example_case =
  Some (Some 116, Some (Some 88), Some (0, 139),
        Some ([(0, 3); (10, 20); (50, 80); (139, 140)], false)).
Proof. vm_compute. reflexivity. Qed.

(** * C05 *)

Theorem C05_make_ids : forall ranges min_size bit, Forall (fun r => fst r < snd r) ranges ->
  exists e l, make_ids ranges min_size bit = Some e /\ iterated e = Some l /\
    num_bits e = N.max min_size (fold_right N.max 0 (map snd ranges)) /\
    forall p, p < num_bits e ->
      (nth (N.to_nat p) l false = true <->
       (exists r, In r ranges /\ fst r <= p < snd r) \/
       (bit = true /\ forall r, In r ranges -> snd r <= p)).
Proof.
  intros ranges min_size bit F. destruct (make_ids_spec ranges min_size bit F) as (e & l & E & R & S & H).
  exists e, l. split; auto. split; [now apply iterated_rel|].
  assert (M : fold_left N.max (map snd ranges) 0 = fold_right N.max 0 (map snd ranges)).
  { apply fold_symmetric; intros; lia. }
  rewrite (rel_size _ _ R). rewrite S, M in *. split; [reflexivity|]. intros p Hp.
  rewrite H by lia. rewrite orb_true_iff, andb_true_iff, existsb_exists. rewrite N2Nat.id.
  assert (MX : fold_right N.max 0 (map snd ranges) <= p <-> forall r, In r ranges -> snd r <= p).
  { clear. induction ranges as [|r rs IH]; cbn [map fold_right In].
    - split; [tauto|lia].
    - rewrite N.max_lub_iff, IH. split; [intros [H1 H2] q [<-|Hq]; auto|intros Q; split; auto]. }
  split.
  - intros [(r & H1 & H2)|[-> H2]].
    + left. exists r. split; auto. lia.
    + right. split; auto. apply MX. lia.
  - intros [(r & H1 & H2)|[-> H2]].
    + left. exists r. split; auto. lia.
    + right. split; auto. apply MX in H2. lia.
Qed.

Example C05_example :
  Forall (fun r => fst r < snd r) [(10, 20); (300, 310); (5, 12); (15, 305)] /\
  option_map (fun e => (num_bits e, option_map (occurrences true) (iterated e)))
    (make_ids [(10, 13); (300, 302); (5, 11)] 400 false)
  = Some (400, Some [5; 6; 7; 8; 9; 10; 11; 12; 300; 301]).
Proof. split; [repeat constructor|vm_compute; reflexivity]. Qed.

Print Assumptions C02_expression_exact.
Print Assumptions C02_nary_or.
Print Assumptions C02_nary_and.
Print Assumptions C02_nary_xor.
Print Assumptions C02_nor_refuted.
Print Assumptions C03_rank_at.
Print Assumptions C03_rank.
Print Assumptions C03_select.
Print Assumptions C03_select_last.
Print Assumptions C03_select_last_zero_refuted.
Print Assumptions C03_iterate.
Print Assumptions C03_range_moves.
Print Assumptions C03_select_k_zero_refuted.
Print Assumptions C03_frame.
Print Assumptions C03_any.
Print Assumptions C03_all.
Print Assumptions C03_is_subset.
Print Assumptions C03_is_subset_empty_refuted.
Print Assumptions C03_select_with.
Print Assumptions C05_make_ids.
