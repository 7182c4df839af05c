(** C04: a bitvector holds exactly the bits put into it, and the bit range of
    the uncompressed bitmap yields them. *)
From Coq Require Import List ZArith NArith Lia Bool ZifyBool ZifyNat ZifyN.
From Verif Require Import WordModel WordProofs BitvectorModel BitvectorProofs.
Import ListNotations.
Open Scope N_scope.

(** * Specification *)

(** The modifiers of a bitvector. *)
Inductive op :=
| Push (x : bool) | Pop | Resize (n : N) (x : bool) | AppendBlock (x n : N)
| AppendBlocks (xs : list N) | SetBit (i : N) (x : bool) | Flip | Clear.

(** What each means for a list of bits; [None] where a precondition of the
    interface is violated (bitvector.hpp:173-183, and pop_back of an empty
    vector, access past the end). *)
Definition spec (o : op) (l : list bool) : option (list bool) :=
  match o with
  | Push x => Some (l ++ [x])
  | Pop => match l with [] => None | _ => Some (removelast l) end
  | Resize n x => Some (firstn (N.to_nat n) l ++ repeat x (N.to_nat n - length l))
  | AppendBlock x n => if (n =? 0) || (64 <? n) then None
                       else Some (l ++ map (fun i => N.testbit x (N.of_nat i)) (seq 0 (N.to_nat n)))
  | AppendBlocks xs => Some (l ++ flat_map (fun x => map (fun i => N.testbit x (N.of_nat i)) (seq 0 64)) xs)
  | SetBit i x => if i <? N.of_nat (length l)
                  then Some (firstn (N.to_nat i) l ++ x :: skipn (S (N.to_nat i)) l) else None
  | Flip => Some (map negb l)
  | Clear => Some []
  end.

Definition exec (o : op) (v : bitvec) : option bitvec :=
  match o with
  | Push x => bv_push v x
  | Pop => bv_pop v
  | Resize n x => bv_resize v n x
  | AppendBlock x n => bv_append_block v x n
  | AppendBlocks xs => bv_append_blocks v xs
  | SetBit i x => bv_set v i x
  | Flip => Some (bv_flip v)
  | Clear => Some (bv_clear v)
  end.

Fixpoint run {A} (f : op -> A -> option A) (ops : list op) (a : A) : option A :=
  match ops with
  | [] => Some a
  | o :: r => match f o a with Some a => run f r a | None => None end
  end.

(** Block arguments are 64-bit words. *)
Definition op_wf (o : op) : Prop :=
  match o with
  | AppendBlock x _ => x < 2 ^ 64
  | AppendBlocks xs => Forall (fun x => x < 2 ^ 64) xs
  | _ => True
  end.

Lemma exec_spec : forall o v l, op_wf o -> holds_bits v l ->
  match spec o l with
  | Some l' => exists v', exec o v = Some v' /\ holds_bits v' l'
  | None => exec o v = None
  end.
Proof.
  intros o v l W H. destruct o as [x| |n x|x n|xs|i x| |]; cbn [spec exec op_wf] in *.
  - apply push_holds; auto.
  - pose proof (pop_holds v l H) as G. destruct (bv_pop v) as [v'|].
    + destruct G as [Hn G]. destruct l; [congruence|]. eauto.
    + subst l. reflexivity.
  - apply resize_holds; auto.
  - destruct ((n =? 0) || (64 <? n)) eqn:E.
    + unfold bv_append_block, width. now rewrite E.
    + destruct (append_block_holds v l x (N.to_nat n) H W ltac:(lia)) as (v' & E' & H').
      rewrite N2Nat.id in E'. exists v'. split; auto.
  - apply append_blocks_holds; auto.
  - apply (set_holds v l i x) in H. exact H || (destruct (i <? N.of_nat (length l)); exact H).
  - eexists. split; [reflexivity|]. apply flip_holds; auto.
  - eexists. split; [reflexivity|]. apply hb_nil.
Qed.

Lemma run_spec : forall ops v l, Forall op_wf ops -> holds_bits v l ->
  match run spec ops l with
  | Some l' => exists v', run exec ops v = Some v' /\ holds_bits v' l'
  | None => run exec ops v = None
  end.
Proof.
  induction ops as [|o ops IH]; intros v l W H; cbn [run]; [eauto|].
  inversion_clear W. pose proof (exec_spec o v l H0 H) as G. destruct (spec o l) as [l1|].
  - destruct G as (v1 & E & H2). rewrite E. apply IH; auto.
  - now rewrite G.
Qed.

(** * Content *)

(** Whatever is done to a bitvector that the interface allows, it has the size
    of, and reads as, the list of bits the same operations make; only
    operations that the interface forbids fail. *)
Theorem C04_bitvector : forall ops, Forall op_wf ops ->
  match run spec ops [] with
  | Some l => exists v, run exec ops bv_empty = Some v /\
      bv_size v = N.of_nat (length l) /\ (forall i, bv_get v i = nth_error l (N.to_nat i)) /\
      forall bit, bv_rank bit v = Some (N.of_nat (length (filter (Bool.eqb bit) l)))
  | None => run exec ops bv_empty = None
  end.
Proof.
  intros ops W. pose proof (run_spec ops bv_empty [] W hb_nil) as H.
  destruct (run spec ops []) as [l|]; auto. destruct H as (v & E & H). exists v. split; [auto|].
  split; [apply holds_size; auto|]. split; [intros; apply get_holds; auto|].
  intros bit. apply rank_holds; auto.
Qed.

Definition op_sample : list op :=
  [Resize 60 true; AppendBlock 5 6; Push false; SetBit 3 false; Flip; AppendBlocks [9; 2 ^ 63]; Pop; Resize 130 true].
Example C04_bitvector_example :
  Forall op_wf op_sample /\ option_map (fun l => (length l, nth 3 l false, nth 60 l true)) (run spec op_sample [])
  = Some (130%nat, true, false).
Proof. split; [|vm_compute; reflexivity]. repeat (constructor; [cbn; try exact I; repeat constructor|]). constructor. Qed.

(** The sized constructors. *)
Theorem C04_sized : forall n value i,
  bv_size (bv_new n value) = n /\
  bv_get (bv_new n value) i = if i <? n then Some value else None.
Proof.
  intros n value i. pose proof (new_holds n value) as H. split.
  - rewrite (holds_size _ _ H), repeat_length. lia.
  - rewrite (get_holds _ _ _ H). destruct (i <? n) eqn:E.
    + rewrite (nth_error_nth' _ value) by (rewrite repeat_length; lia). now rewrite nth_repeat_lt by lia.
    + apply nth_error_None. rewrite repeat_length. lia.
Qed.

Example C04_sized_example : bv_get (bv_new 65 true) 64 = Some true /\ bv_get (bv_new 65 true) 65 = None.
Proof. vm_compute. auto. Qed.

(** Assigning to an empty bitvector stores the assigned bits. *)
Theorem C04_assign : forall xs, exists v, bv_assign bv_empty xs = Some v /\
  bv_size v = N.of_nat (length xs) /\ forall i, bv_get v i = nth_error xs (N.to_nat i).
Proof.
  intros xs. destruct (push_all_holds xs bv_empty [] hb_nil) as (v & E & H). exists v.
  split; [exact E|]. split; [apply (holds_size _ _ H)|]. intros. apply (get_holds _ _ _ H).
Qed.

(** Assigning to any other does not: [assign] keeps the old size. *)
Theorem C04_assign_refuted : exists ops v xs, run exec ops bv_empty = Some v /\
  (exists v', bv_assign v xs = Some v' /\ bv_size v' <> N.of_nat (length xs) /\ bv_get v' 64 = None) /\
  exists ops' v, run exec ops' bv_empty = Some v /\ bv_assign v xs = None.
Proof.
  exists [Resize 64 false], (BV [0] 64), [true]. split; [reflexivity|]. split.
  - eexists. split; [vm_compute; reflexivity|]. split; [discriminate|vm_compute; reflexivity].
  - exists [Push false], (BV [0] 1). split; reflexivity.
Qed.

(** * Comparison *)

(** Two bitvectors compare equal exactly when they have the same size and the
    same bits, except for the last 64 bits if the size is a multiple of 64. *)
Theorem C04_equal : forall ops1 v1 l1 ops2 v2 l2, Forall op_wf ops1 -> Forall op_wf ops2 ->
  run exec ops1 bv_empty = Some v1 -> run spec ops1 [] = Some l1 ->
  run exec ops2 bv_empty = Some v2 -> run spec ops2 [] = Some l2 ->
  (bv_eqb v1 v2 = true <->
   length l1 = length l2 /\
   forall i, (i < if length l1 mod 64 =? 0 then length l1 - 64 else length l1)%nat ->
     nth_error l1 i = nth_error l2 i).
Proof.
  intros ops1 v1 l1 ops2 v2 l2 W1 W2 E1 S1 E2 S2.
  pose proof (run_spec ops1 bv_empty [] W1 hb_nil) as H1. rewrite S1 in H1. destruct H1 as (v1' & E1' & H1).
  pose proof (run_spec ops2 bv_empty [] W2 hb_nil) as H2. rewrite S2 in H2. destruct H2 as (v2' & E2' & H2).
  assert (v1' = v1) by congruence. assert (v2' = v2) by congruence. subst v1' v2'.
  rewrite (eqb_holds _ _ _ _ H1 H2). fold (compared (length l1)).
  assert (Hc : (compared (length l1) <= length l1)%nat) by (unfold compared; destruct (_ =? _)%nat; lia).
  assert (Hn : forall (l : list bool) n i, (i < n)%nat -> nth_error (firstn n l) i = nth_error l i).
  { clear. induction l as [|x l IH]; intros [|n] [|i] Hi; cbn; auto; try lia. apply IH. lia. }
  split; intros [Hl H]; split; auto.
  - intros i Hi. rewrite <- (Hn l1 (compared (length l1)) i Hi), H. apply Hn. congruence.
  - rewrite Hl in H, Hc |- *. apply list_ext; [rewrite !firstn_length; lia|].
    intros i Hi. rewrite firstn_length in Hi.
    assert (G : nth_error (firstn (compared (length l2)) l1) i = nth_error (firstn (compared (length l2)) l2) i).
    { rewrite !Hn by lia. apply H. lia. }
    rewrite !(nth_error_nth' _ false) in G by (rewrite firstn_length; lia). congruence.
Qed.

Example C04_equal_example : exists v1 v2, run exec [Resize 66 true; Pop] bv_empty = Some v1 /\
  run exec [AppendBlocks [all]; Push true] bv_empty = Some v2 /\ bv_eqb v1 v2 = true /\ bv_blocks v1 = bv_blocks v2.
Proof. eexists _, _. repeat split. Qed.

(** Two bitvectors of 64 bits always compare equal. *)
Theorem C04_equal_refuted : exists v1 v2, run exec [Resize 64 false] bv_empty = Some v1 /\
  run exec [Resize 64 true] bv_empty = Some v2 /\ bv_get v1 0 <> bv_get v2 0 /\ bv_eqb v1 v2 = true.
Proof. eexists _, _. repeat split. vm_compute. discriminate. Qed.

(** * The uncompressed bitmap's bit range *)

(** The bits that a range of bit sequences yields. *)
Definition range_content (r : list bits) : list bool := flat_map blist r.

Definition same_bits (b : bool) (l : list bool) : Prop := Forall (fun x => x = b) l.
(** The bits after the last multiple of 64, and the 64 bits before them. *)
Definition rest_bits (l : list bool) : list bool := skipn (64 * (length l / 64)) l.
Definition block_before (l : list bool) : list bool := firstn 64 (skipn (64 * (length l / 64) - 64) l).

Lemma uniform_iff : forall b l, uniform b l = true <-> same_bits b l.
Proof.
  intros b l. unfold uniform, same_bits. rewrite forallb_forall, Forall_forall.
  split; intros H x Hx; specialize (H x Hx).
  - symmetry. now apply eqb_prop.
  - subst. apply eqb_reflx.
Qed.

(** The range yields exactly the content if the size is a multiple of 64 or
    less than 64, if the block before the last bits has both 0s and 1s, or if
    the last bits continue a run of equal bits. *)
Theorem C04_range : forall ops v l, Forall op_wf ops ->
  run exec ops bv_empty = Some v -> run spec ops [] = Some l ->
  (length l mod 64 = 0)%nat \/ (length l < 64)%nat \/
  (forall b, ~ same_bits b (block_before l)) \/
  (exists b, same_bits b (block_before l) /\ same_bits b (rest_bits l)) ->
  range_content (nb_range v) = l.
Proof.
  intros ops v l W E S Hc. pose proof (run_spec ops bv_empty [] W hb_nil) as H. rewrite S in H.
  destruct H as (v' & E' & H). assert (v' = v) by congruence. subst v'.
  apply any_range; auto. destruct Hc as [Hc | [Hc | [Hc | [b [H1 H2] ] ] ] ]; auto.
  - right. right. left. intros b. apply not_true_iff_false. intro U. apply uniform_iff in U. apply (Hc b). exact U.
  - right. right. right. exists b. apply andb_true_iff. split; apply uniform_iff; auto.
Qed.

Example C04_range_example : exists v l,
  run exec [AppendBlock 6 64; Push true; Push false] bv_empty = Some v /\
  run spec [AppendBlock 6 64; Push true; Push false] [] = Some l /\
  (forall b, ~ same_bits b (block_before l)) /\ rest_bits l = [true; false].
Proof.
  eexists _, _. split; [reflexivity|]. split; [reflexivity|]. split; [|reflexivity].
  intros b H. unfold same_bits in H. rewrite Forall_forall in H.
  assert (false = b) by (apply H; vm_compute; tauto). assert (true = b) by (apply H; vm_compute; tauto). congruence.
Qed.

(** For bitmaps made by appending bits and runs of bits and by flipping, the
    range is known exactly: if the block before the last bits repeats the
    bitmap's last bit and the last bits do not, the last bits are all read as
    the last one; otherwise the range is right. *)
Inductive nb_op := AppendBit (x : bool) | AppendBits (x : bool) (n : N) | FlipAll.
Definition nb_exec (o : nb_op) (v : bitvec) : option bitvec :=
  match o with
  | AppendBit x => nb_append_bit v x
  | AppendBits x n => nb_append_bits v x n
  | FlipAll => Some (nb_flip v)
  end.
Definition nb_spec (o : nb_op) (l : list bool) : list bool :=
  match o with
  | AppendBit x => l ++ [x]
  | AppendBits x n => l ++ repeat x (N.to_nat n)
  | FlipAll => map negb l
  end.
Fixpoint nb_run (ops : list nb_op) (v : bitvec) : option bitvec :=
  match ops with
  | [] => Some v
  | o :: r => match nb_exec o v with Some v => nb_run r v | None => None end
  end.

Lemma nb_run_spec : forall ops v l, holds_bits v l -> tidy v ->
  exists v', nb_run ops v = Some v' /\ holds_bits v' (fold_left (fun l o => nb_spec o l) ops l) /\ tidy v'.
Proof.
  induction ops as [|o ops IH]; intros v l H T; cbn [nb_run fold_left]; [eauto|].
  assert (G : exists v', nb_exec o v = Some v' /\ holds_bits v' (nb_spec o l) /\ tidy v').
  { destruct o as [x|x n|]; cbn [nb_exec nb_spec]; unfold nb_append_bit, nb_append_bits, nb_flip.
    - destruct (push_holds v l x H) as (v' & E & H'). exists v'. split; [auto|]. split; [auto|]. exact (push_tidy v l x v' H E).
    - destruct (resize_holds v l (bv_size v + n) x H) as (v' & E & H'). exists v'. split; [auto|]. split.
      + rewrite (holds_size v l H) in H'. rewrite firstn_all2 in H' by lia.
        replace (N.to_nat (N.of_nat (length l) + n) - length l)%nat with (N.to_nat n) in H' by lia. exact H'.
      + exact (resize_tidy v l x n v' H T E).
    - eexists. split; [reflexivity|]. split; [apply flip_holds; auto|apply flip_tidy; auto]. }
  destruct G as (v1 & E & H1 & T1). rewrite E. apply IH; auto.
Qed.

Theorem C04_range_exact : forall ops, exists v, nb_run ops bv_empty = Some v /\
  let l := fold_left (fun l o => nb_spec o l) ops [] in
  (forall i, bv_get v i = nth_error l (N.to_nat i)) /\
  ((64 < length l)%nat /\ same_bits (last l false) (block_before l) /\ ~ same_bits (last l false) (rest_bits l) ->
   range_content (nb_range v)
   = firstn (64 * (length l / 64)) l ++ repeat (last l false) (length (rest_bits l))) /\
  (~ ((64 < length l)%nat /\ same_bits (last l false) (block_before l) /\ ~ same_bits (last l false) (rest_bits l)) ->
   range_content (nb_range v) = l).
Proof.
  intros ops. assert (T0 : tidy bv_empty) by (intros bs x p Hb; destruct bs; discriminate).
  destruct (nb_run_spec ops bv_empty [] hb_nil T0) as (v & E & H & T). exists v. split; auto. cbv zeta.
  set (l := fold_left (fun l o => nb_spec o l) ops []) in *.
  split; [intros; apply get_holds; auto|].
  pose proof (tidy_range v l H T) as R. unfold range_content. rewrite R.
  change (rest_bits l) with (tail_of l). change (block_before l) with (before_tail l).
  change (64 * (length l / 64))%nat with (whole l).
  split.
  - intros (H1 & H2 & H3). replace (misread l) with true; auto. symmetry. unfold misread.
    apply uniform_iff in H2. rewrite H2.
    replace (uniform (last l false) (tail_of l)) with false
      by (symmetry; apply not_true_iff_false; intro U; apply uniform_iff in U; auto).
    assert (Hw : (0 < whole l)%nat).
    { unfold whole. pose proof (Nat.div_str_pos (length l) 64). lia. }
    replace (0 <? whole l)%nat with true by (symmetry; apply Nat.ltb_lt; auto).
    replace (length (tail_of l) =? 0)%nat with false; [reflexivity|].
    symmetry. apply Nat.eqb_neq. intro Z. apply H3. apply length_zero_iff_nil in Z. rewrite Z. constructor.
  - intros Hn. destruct (misread l) eqn:M; auto. exfalso. apply Hn. unfold misread in M.
    apply andb_true_iff in M. destruct M as [M M4]. apply andb_true_iff in M. destruct M as [M M3].
    apply andb_true_iff in M. destruct M as [M1 M2]. apply Nat.ltb_lt in M1.
    apply negb_true_iff in M2. apply Nat.eqb_neq in M2. apply negb_true_iff in M4.
    split; [|split].
    + unfold tail_of in M2. rewrite skipn_length in M2. unfold whole in *. lia.
    + apply uniform_iff; auto.
    + intro U. apply uniform_iff in U. congruence.
Qed.

(** A bitmap of 64 zeros, a one and a zero reads as 66 zeros: the one is lost
    to every algorithm that goes through the range. *)
Theorem C04_range_refuted : exists v,
  nb_run [AppendBits false 64; AppendBit true; AppendBit false] bv_empty = Some v /\
  bv_get v 64 = Some true /\ bv_rank true v = Some 1 /\
  range_content (nb_range v) = repeat false 66.
Proof. eexists. repeat split. Qed.

Example C04_range_exact_example : exists v,
  nb_run [AppendBits true 70; FlipAll; AppendBit true; AppendBits false 60] bv_empty = Some v /\
  range_content (nb_range v) = repeat false 70 ++ [true] ++ repeat false 60.
Proof. eexists. split; [reflexivity|vm_compute; reflexivity]. Qed.

Definition assumptions_Bitvector :=
  (C04_bitvector, C04_sized, C04_assign, C04_assign_refuted, C04_equal, C04_equal_refuted,
   C04_range, C04_range_exact, C04_range_refuted).
Print Assumptions assumptions_Bitvector.
