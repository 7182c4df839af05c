(** C01: compressed bitmaps store exactly the bits appended. *)
From Coq Require Import List ZArith NArith Lia Bool ZifyBool ZifyNat ZifyN.
From Verif Require Import NBits WordModel WordProofs EwahModel EwahProofs.
Import ListNotations.
Open Scope N_scope.

(** * Specification: a bitmap is a sequence of booleans *)

(** The mutators of the bitmap API. *)
Inductive bitmap_op :=
| AppendBit (b : bool)
| AppendBits (b : bool) (n : N)
| AppendBlock (value : N) (n : N)
| Flip.

(** Precondition of the API: a block holds between 1 and 64 bits. *)
Definition op_valid (o : bitmap_op) : Prop :=
  match o with AppendBlock _ n => 0 < n <= 64 | _ => True end.

(** Effect on the logical sequence. The lowest bit of a block comes first. *)
Definition spec_op (l : list bool) (o : bitmap_op) : list bool :=
  match o with
  | AppendBit b => l ++ [b]
  | AppendBits b n => l ++ repeat b (N.to_nat n)
  | AppendBlock v n => l ++ map (fun i => N.testbit v (N.of_nat i)) (seq 0 (N.to_nat n))
  | Flip => map negb l
  end.
Definition spec (ops : list bitmap_op) : list bool := fold_left spec_op ops [].

(** Execution in the model, from the empty bitmap. *)
Definition exec_op (e : option ewah) (o : bitmap_op) : option ewah :=
  match e with
  | None => None
  | Some e =>
    match o with
    | AppendBit b => append_bit b e
    | AppendBits b n => append_bits b n e
    | AppendBlock v n => append_block v n e
    | Flip => flip e
    end
  end.
Definition exec (ops : list bitmap_op) : option ewah := fold_left exec_op ops (Some ewah_empty).

(** What a client sees when it iterates over the bit range: the bits of every
    bit sequence, read with [operator[]]. *)
Definition seq_content (b : bits) : list bool :=
  map (fun i => bits_at b (N.of_nat i)) (seq 0 (N.to_nat (bsize b))).
Definition iterated (e : ewah) : option (list bool) :=
  option_map (flat_map seq_content) (bit_range e).

(** * Proofs *)

Lemma seq_content_blist : forall b, seq_content b = blist b.
Proof.
  intros b. apply list_ext.
  - unfold seq_content. rewrite map_length, seq_length, blist_length. reflexivity.
  - unfold seq_content. intros i Hi. rewrite map_length, seq_length in Hi.
    rewrite (nth_indep _ _ (bits_at b (N.of_nat 0))) by (rewrite map_length, seq_length; lia).
    rewrite map_nth with (f := fun i => bits_at b (N.of_nat i)).
    rewrite seq_nth by lia. rewrite bits_at_spec by lia. now rewrite Nat2N.id.
Qed.

Lemma iterated_rel : forall e l, rel e l -> iterated e = Some l.
Proof.
  intros e l R. unfold iterated. destruct (range_rel e l R) as (bs & -> & F & <-).
  cbn [option_map]. f_equal. clear. induction bs as [|b bs IH]; auto.
  cbn [flat_map]. now rewrite IH, seq_content_blist.
Qed.

Lemma exec_op_rel : forall o e l, op_valid o -> rel e l ->
  exists e', exec_op (Some e) o = Some e' /\ rel e' (spec_op l o).
Proof.
  intros [b|b n|v n|] e l V R; cbn [exec_op spec_op op_valid] in *.
  - destruct (append_bit_rel b e l R) as (e' & E & R' & _). exists e'. split; auto. right; auto.
  - destruct (append_bits_rel b n e l R) as (e' & E & R' & _). eauto.
  - destruct (append_block_rel v n e l R V) as (e' & E & R' & _). exists e'. split; auto. right; auto.
  - destruct (flip_rel e l R) as (e' & E & R' & _). eauto.
Qed.

Lemma exec_rel : forall ops, Forall op_valid ops -> exists e, exec ops = Some e /\ rel e (spec ops).
Proof.
  intros ops F. unfold exec, spec.
  assert (H : rel ewah_empty []) by (left; auto).
  revert F H. generalize ewah_empty as e. generalize (@nil bool) as l.
  induction ops as [|o ops IH]; intros l e F H; cbn [fold_left].
  - eauto.
  - apply Forall_cons_iff in F as [F1 F2].
    destruct (exec_op_rel o e l F1 H) as (e1 & E1 & R1).
    cbn [exec_op] in *.
    rewrite E1. now apply IH.
Qed.

(** Every history of API calls succeeds (no assertion fails), the size is the
    number of bits appended, and iteration yields exactly the logical bits. *)
Theorem C01_ewah_exact : forall ops, Forall op_valid ops ->
  exists e, exec ops = Some e /\
    num_bits e = N.of_nat (length (spec ops)) /\
    iterated e = Some (spec ops).
Proof.
  intros ops F. destruct (exec_rel ops F) as (e & E & R). exists e. split; auto.
  split; [now apply rel_size|now apply iterated_rel].
Qed.

(** The bit range never yields an empty sequence. *)
Theorem C01_ewah_range_progress : forall ops e bs, Forall op_valid ops ->
  exec ops = Some e -> bit_range e = Some bs -> Forall (fun b => 0 < bsize b) bs.
Proof.
  intros ops e bs F E B. destruct (exec_rel ops F) as (e' & E' & R).
  assert (e' = e) by congruence. subst e'.
  destruct (range_rel e _ R) as (bs' & B' & F' & _). assert (bs' = bs) by congruence. subst bs'.
  eapply Forall_impl; [|exact F']. now intros b [].
Qed.

(** Random access reads the logical bit at every position below the size. *)
Theorem C01_ewah_at : forall ops e i, Forall op_valid ops -> exec ops = Some e ->
  i < num_bits e -> bitmap_at e i = Some (nth (N.to_nat i) (spec ops) false).
Proof.
  intros ops e i F E Hi. destruct (exec_rel ops F) as (e' & E' & R).
  assert (e' = e) by congruence. subst e'. now apply bitmap_at_rel.
Qed.

(** Appending one bitmap to another concatenates their contents. *)
Theorem C01_ewah_append : forall ops1 ops2 e1 e2, Forall op_valid ops1 -> Forall op_valid ops2 ->
  exec ops1 = Some e1 -> exec ops2 = Some e2 ->
  exists e, append e2 e1 = Some e /\ num_bits e = num_bits e1 + num_bits e2 /\
    iterated e = Some (spec ops1 ++ spec ops2).
Proof.
  intros ops1 ops2 e1 e2 F1 F2 E1 E2.
  destruct (exec_rel ops1 F1) as (e1' & E1' & R1). assert (e1' = e1) by congruence. subst e1'.
  destruct (exec_rel ops2 F2) as (e2' & E2' & R2). assert (e2' = e2) by congruence. subst e2'.
  destruct (append_rel e2 e1 _ _ R2 R1) as (e & E & R). exists e. split; auto. split.
  - rewrite (rel_size _ _ R), (rel_size _ _ R1), (rel_size _ _ R2), app_length. lia.
  - now apply iterated_rel.
Qed.

(** A history mixing runs, partial blocks, block-spanning appends and flips. *)
Definition C01_example_ops : list bitmap_op :=
  [AppendBit true; AppendBits true 200; AppendBlock 5 64; Flip; AppendBits false 63;
   AppendBits false 130; Flip; AppendBlock 11 7; AppendBit false].
Example C01_example_valid : Forall op_valid C01_example_ops.
Proof. repeat constructor; cbn; lia. Qed.
Example C01_example_run :
  option_map (fun e => (num_bits e, length (blocks e), bitmap_at e 203, iterated e))
             (exec C01_example_ops)
  = Some (466, 5%nat, Some true, Some (spec C01_example_ops)).
Proof. vm_compute. reflexivity. Qed.

Print Assumptions C01_ewah_exact.
Print Assumptions C01_ewah_range_progress.
Print Assumptions C01_ewah_at.
Print Assumptions C01_ewah_append.
