(** C15: Bloom filters never forget. *)
From Coq Require Import List ZArith NArith Lia Bool Arith.
From Verif Require Import BloomModel BloomProofs.
Import ListNotations.
Open Scope nat_scope.

(** Whatever the hash function, a filter of any size with any number of hash functions
    and seeds answers true for every value added to it, also after adding more. *)
Theorem C15_never_forgets : forall V (hash : N -> V -> N) part simple m k seeds f xs ys x,
  make_bloom part simple (Some (m, k)) seeds = Some f -> (part = true -> k <= m) -> In x xs ->
  exists g h, bf_add_all hash f xs = Some g /\ bf_add_all hash g ys = Some h /\
    bf_lookup hash g x = Some true /\ bf_lookup hash h x = Some true.
Proof.
  intros V hash part simple m k seeds f xs ys x E B I. assert (U : usable f) by (eapply make_bloom_usable; eassumption).
  destruct (bf_add_all_spec hash xs f U) as (g & Eg & Hg). destruct (bf_add_all_spec hash ys g (proj1 Hg)) as (h & Eh & Hh).
  exists g, h. split; [exact Eg|]. split; [exact Eh|]. pose proof (holds_values_lookup hash f g xs x Hg I) as L.
  split; [exact L|]. exact (holds_values_mono hash g h ys x Hh (proj1 Hg) L).
Qed.

(** A new filter answers true only for values all of whose positions were set by values
    that were added. *)
Theorem C15_exact : forall V (hash : N -> V -> N) part simple m k seeds f xs x,
  make_bloom part simple (Some (m, k)) seeds = Some f -> (part = true -> k <= m) ->
  exists g, bf_add_all hash f xs = Some g /\
    bf_lookup hash g x = Some (forallb (fun p => existsb (fun y => existsb (Nat.eqb p) (value_positions hash f y)) xs) (value_positions hash f x)).
Proof.
  intros V hash part simple m k seeds f xs x E B. assert (U : usable f) by (eapply make_bloom_usable; eassumption).
  destruct (bf_add_all_spec hash xs f U) as (g & Eg & U' & P & H & L & Hb). exists g. split; [exact Eg|].
  rewrite bf_lookup_spec by assumption. f_equal. rewrite (value_positions_same hash f g) by assumption. apply forallb_all_ext. intros p. rewrite Hb.
  assert (Z : bit_set f p = false).
  { assert (F : bf_bits f = repeat false m).
    { cbn [make_bloom] in E. destruct ((m =? 0) || (k =? 0)); [discriminate|].
      destruct (match seeds with [] => false | _ => negb (length seeds =? k) end); [discriminate|].
      destruct simple; [injection E as <-; reflexivity|].
      destruct (match seeds with [] => [0%N; 1%N] | _ => seeds end) as [|a [|b [|c ss]]]; try discriminate. injection E as <-. reflexivity. }
    unfold bit_set. rewrite F. destruct (nth_error (repeat false m) p) as [b|] eqn:Eb; [|reflexivity].
    apply nth_error_In, repeat_spec in Eb. exact Eb. }
  rewrite Z. cbn [orb]. clear - V. induction xs as [|y ys IH]; [reflexivity|]. cbn [flat_map existsb]. now rewrite existsb_app, IH.
Qed.

(** [add] returns false exactly if the filter already answered true for the value. *)
Theorem C15_add_reports : forall V (hash : N -> V -> N) f x, usable f -> exists g b,
  bf_add hash f x = Some (g, b) /\ bf_lookup hash f x = Some (negb b) /\ bf_lookup hash g x = Some true.
Proof.
  intros V hash f x U. destruct (bf_add_spec hash f x U) as (bs & E & L & H). do 2 eexists. split; [exact E|].
  rewrite bf_lookup_spec by assumption. rewrite negb_involutive. split; [reflexivity|].
  rewrite bf_lookup_spec by (now apply usable_with). f_equal. apply forallb_forall. intros p Hp. rewrite H. apply orb_true_iff. right.
  apply existsb_exists. exists p. split; [|apply Nat.eqb_refl].
  rewrite (value_positions_same hash f (with_bits f bs)) in Hp; auto.
Qed.

(** Three values in a filter of 16 bits with 3 digests; a value that was not added is
    rejected. *)
Definition sample_hash (seed x : N) : N := (x * 7 + seed * 3 + 1)%N.
Definition sample_filter : bloom := {| bf_partitioned := false; bf_hasher := double_hasher 3 0 1; bf_bits := repeat false 16 |}.
Definition sample_partitioned : bloom := {| bf_partitioned := true; bf_hasher := simple_hasher 3 [0; 1; 2]%N; bf_bits := repeat false 16 |}.
Example C15_example :
  make_bloom false false (Some (16, 3)) [] = Some sample_filter /\ make_bloom true true (Some (16, 3)) [] = Some sample_partitioned /\
  usable sample_filter /\ usable sample_partitioned /\
  option_map (fun g => map (bf_lookup sample_hash g) [1; 2; 5; 3]%N) (bf_add_all sample_hash sample_filter [1; 2; 5]%N)
    = Some [Some true; Some true; Some true; Some false] /\
  option_map (fun g => map (bf_lookup sample_hash g) [1; 2; 5; 3]%N) (bf_add_all sample_hash sample_partitioned [1; 2; 5]%N)
    = Some [Some true; Some true; Some true; Some false].
Proof. repeat split; cbn; try lia; vm_compute; reflexivity. Qed.

(** ** What does not hold *)

(** A partitioned filter with more hash functions than bits divides by zero. *)
Theorem C15_partition_refuted : exists f, make_bloom true true (Some (2, 3)) [] = Some f /\
  forall hash (x : N), bf_add hash f x = None /\ bf_lookup hash f x = None.
Proof. eexists. split; [reflexivity|]. intros hash x. split; reflexivity. Qed.
(** So does a filter made by the default constructor. *)
Theorem C15_default_refuted : forall hash (x : N),
  bf_lookup hash {| bf_partitioned := false; bf_hasher := double_hasher 2 0 1; bf_bits := [] |} x = None.
Proof. reflexivity. Qed.

Definition assumptions_bloom := (C15_never_forgets, C15_exact, C15_add_reports, C15_partition_refuted, C15_default_refuted).
Print Assumptions assumptions_bloom.
