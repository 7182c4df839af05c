(** Proofs about the index for subnets. *)
From Coq Require Import List ZArith NArith Lia Bool ZifyBool ZifyNat ZifyN.
From Verif Require Import NBits WordProofs OperatorModel BitmapOps CoderModel CoderProofs ValueIndexModel ValueIndexProofs
  SelProofs AddressModel AddressProofs AddressIndexModel AddressIndexProofs.
Import ListNotations.
Open Scope N_scope.

Lemma sn_length_bound : forall x, sn_wf x -> sn_length x <= 128.
Proof. intros x (_ & L & _). unfold sn_length. destruct (is_v4 (sn_net x)); lia. Qed.

Section Index.
  Context {B : Type} (ops : bitmap_ops B) (content : B -> list bool).
  Context (laws : bitmap_laws ops content).
  (** A condition all rows satisfy. *)
  Variable (P : subnet -> Prop).

  Definition net_cells (vals : list (option subnet)) : list (cell address) :=
    map (fun o => match o with Some x => Val (sn_net x) | None => Gap end) vals.

  Definition SNInv (s : sindex B) (vals : list (option subnet)) : Prop :=
    VInv content (AInv content) (si_net s) (net_cells vals) /\
    Inv content false 129 eq_col (si_len s) (map (option_map sn_length) vals) /\
    forall x, In (Some x) vals -> sn_wf x /\ P x.

  Lemma SNInv_new : SNInv (si_new ops) [].
  Proof.
    split; [apply (VInv_new ops content laws), (AInv_new ops content laws)|]. split; [apply (Inv_new ops content laws false 129)|].
    intros x [].
  Qed.

  Lemma subnet_accepts : forall x, sn_wf x -> P x -> accepts (subnet_impl ops) SNInv x.
  Proof.
    intros x W PX s vals pos (VN & VL & WF) L. cbn [i_append subnet_impl]. unfold si_append.
    pose proof (proj1 VL) as SZ. rewrite map_length in SZ.
    pose proof (Inv_skip content false 129 eq_col (si_len s) _ (N.of_nat pos - vsize (si_len s)) ltac:(reflexivity) VL) as VS.
    pose proof (sn_length_bound x W) as LB.
    destruct (eq_encode_inv ops content laws 129 _ _ (sn_length x) 1 VS ltac:(lia)) as (c & -> & VE).
    pose proof (append_spec ops content laws (address_impl ops) (AInv content) (si_net s) (net_cells vals) (Some (sn_net x)) pos VN) as A.
    assert (LC : length (net_cells vals) = length vals) by apply map_length.
    unfold write in A. replace (pos <? length (net_cells vals))%nat with false in A by lia.
    destruct A as (net & -> & VN').
    { intros v E. injection E as <-. apply (address_accepts ops content laws). apply W. }
    eexists. split; [reflexivity|]. split; [|split]; cbn [si_net si_len].
    - unfold net_cells in *. rewrite !map_app, map_repeat. rewrite LC in VN'. exact VN'.
    - rewrite !map_app, map_repeat, app_assoc.
      replace (pos - length vals)%nat with (N.to_nat (N.of_nat pos - vsize (si_len s))) by lia. exact VE.
    - intros y H. rewrite !in_app_iff in H. destruct H as [H|[H|[H|[] ] ] ]; auto.
      + apply repeat_spec in H. discriminate.
      + injection H as <-. auto.
  Qed.

  Section Lookup.
    Variable (s : sindex B) (vals : list (option subnet)) (off : nat).
    Context (SI : SNInv s vals) (OFF : (length vals <= off)%nat).
    Notation sel := (sel content off vals).
    Notation wsel := (wsel content off vals).

    Lemma len_sel : forall op i, comparison op -> i <= 128 ->
      exists r, eq_decode ops (si_len s) op i = Some r /\ sel r (fun v => compare_op op (sn_length v) i).
    Proof.
      intros op i C L. destruct SI as (VN & VL & WF).
      destruct (eq_decode_spec ops content laws 129 (si_len s) _ op i VL) as (r & E & Q); auto; [|lia|].
      { intros o v H ->. apply in_map_iff in H as ([y|] & E & Hy); [|discriminate]. injection E as <-.
        pose proof (sn_length_bound y (proj1 (WF y Hy))). lia. }
      exists r. split; auto. rewrite map_map in Q.
      apply (sel_content content off vals r (fun o => match option_map sn_length o with Some v => compare_op op v i | None => relop_eqb op op_ne end) OFF Q).
    Qed.

    Lemma net_sel : forall op x f, answers content (address_impl ops) (AInv content) op x f ->
      exists r, vi_lookup ops (address_impl ops) (si_net s) op (Some x) = Some r /\ sel r (fun v => f (sn_net v)).
    Proof.
      intros op x f A. destruct SI as (VN & VL & WF).
      destruct (lookup_spec ops content laws (address_impl ops) (AInv content) (si_net s) (net_cells vals) op x f VN A) as (r & E & C).
      exists r. split; auto. unfold net_cells in C. rewrite map_map in C.
      apply (sel_content content off vals r _ OFF C).
    Qed.

    Lemma row_sn_wf : forall v, In (Some v) vals -> sn_wf v /\ P v.
    Proof. apply SI. Qed.

    (** Equality. *)
    Lemma lookup_eq_sel : forall op x, sn_wf x -> op = op_eq \/ op = op_ne ->
      exists r, si_lookup ops s (N.of_nat off) op (Net x) = Some r /\
        sel r (fun v => if relop_eqb op op_eq then sn_eqb v x else negb (sn_eqb v x)).
    Proof.
      intros op x W O.
      destruct (net_sel op_eq (Ip (sn_net x)) _ (address_eq_answers ops content laws op_eq (sn_net x) (proj1 W) (or_introl eq_refl))) as (r & E & S).
      destruct (len_sel op_eq (sn_length x) I (sn_length_bound x W)) as (l & E' & S').
      pose proof (sel_and ops content laws off vals _ _ _ _ S S') as SA.
      assert (SE : sel (b_and ops r l) (fun v => sn_eqb v x)).
      { eapply sel_ext; [|exact SA]. intros v H. cbn [relop_eqb compare_op]. unfold sn_eqb. apply eq_true_iff_eq.
        rewrite !andb_true_iff, !bytes_eqb_spec, !N.eqb_eq. destruct (row_sn_wf v H) as [(_ & _ & _ & V4) _]. destruct W as (_ & _ & _ & X4).
        unfold sn_length. split; intros [Q R]; split; auto; rewrite Q in *; [|now rewrite R].
        destruct (is_v4 (sn_net x)); auto. specialize (V4 eq_refl). specialize (X4 eq_refl). lia. }
      destruct O as [-> | ->]; cbn [si_lookup relop_eqb]; rewrite E, E'; eexists; (split; [reflexivity|]); auto.
      now apply (sel_not ops content laws).
    Qed.

    (** Subset of the operand. *)
    Lemma lookup_in_sel : forall op x, sn_wf x -> sn_length x <> 0 -> op = op_in \/ op = op_not_in ->
      exists r, si_lookup ops s (N.of_nat off) op (Net x) = Some r /\
        sel r (fun v => let b := shareb (N.to_nat (sn_bits x)) (sn_net v) (sn_net x) && (sn_length x <=? sn_length v) in
          if relop_eqb op op_in then b else negb b)%bool.
    Proof.
      intros op x W NZ O.
      destruct (net_sel op_in (Net x) _ (address_in_answers ops content laws op_in x W NZ (or_introl eq_refl))) as (r & E & S).
      destruct (len_sel op_ge (sn_length x) I (sn_length_bound x W)) as (l & E' & S').
      pose proof (sel_and ops content laws off vals _ _ _ _ S S') as SA. cbn [relop_eqb compare_op] in SA.
      destruct O as [-> | ->]; cbn [si_lookup relop_eqb]; rewrite E, E'; eexists; (split; [reflexivity|]); auto.
      now apply (sel_not ops content laws).
    Qed.

    (** Superset of an address. *)
    Lemma ni_address_loop : forall x bits is result f, wf x -> (forall i, In i is -> i <= bits) -> bits <= 128 -> wsel result f ->
      exists r, si_ni_address ops s x bits is result = Some r /\
        let g := fun v => (f v || existsb (fun i => (sn_length v =? i) && bytes_eqb (sn_net v) (addr_mask x (128 - bits + i))) is)%bool in
        wsel r g /\ (is <> [] \/ sel result f -> sel r g).
    Proof.
      intros x bits. induction is as [|i is IH]; intros result f W LE LB WS; cbn [si_ni_address existsb].
      - exists result. split; auto. split.
        + eapply wsel_ext; [|exact WS]. intros v _. now rewrite orb_false_r.
        + intros [N|SS]; [now destruct N|]. eapply sel_ext; [|exact SS]. intros v _. now rewrite orb_false_r.
      - assert (LI : i <= bits) by (apply LE; now left).
        destruct (len_sel op_eq i I ltac:(lia)) as (l & -> & SL).
        destruct (net_sel op_eq (Ip (addr_mask x (128 - bits + i))) _
          (address_eq_answers ops content laws op_eq _ (mask_wf _ _ W) (or_introl eq_refl))) as (r & -> & SR).
        pose proof (sel_and ops content laws off vals _ _ _ _ SL SR) as SA. cbn [relop_eqb compare_op] in SA.
        pose proof (sel_or ops content laws off vals _ _ _ _ WS SA) as SO.
        destruct (IH _ _ W (fun j H => LE j (or_intror H)) LB (sel_wsel _ _ _ _ _ SO)) as (q & EQ & _ & SQ).
        exists q. split; auto. specialize (SQ (or_intror SO)).
        assert (SQ' : sel q (fun v => (f v || ((sn_length v =? i) && bytes_eqb (sn_net v) (addr_mask x (128 - bits + i)) ||
           existsb (fun i => (sn_length v =? i) && bytes_eqb (sn_net v) (addr_mask x (128 - bits + i))) is))%bool)).
        { eapply sel_ext; [|exact SQ]. intros v _. cbn beta. now rewrite orb_assoc. }
        split; [now apply sel_wsel|auto].
    Qed.

    Lemma range_in : forall a n i, In i (range a n) <-> a <= i < a + n.
    Proof.
      intros a n i. unfold range. rewrite in_map_iff. split.
      - intros (k & <- & H). apply in_seq in H. lia.
      - intros H. exists (N.to_nat (i - a)). split; [lia|]. apply in_seq. lia.
    Qed.

    Lemma existsb_length : forall (f : N -> bool) n is, existsb (fun i => (n =? i) && f i)%bool is = (existsb (N.eqb n) is && f n)%bool.
    Proof.
      intros f n is. induction is as [|i is IH]; cbn [existsb]; auto. rewrite IH.
      destruct (N.eqb_spec n i) as [->|]; cbn [andb orb]; auto. now destruct (f i); rewrite ?andb_false_r.
    Qed.

    Lemma existsb_eqb : forall n is, existsb (N.eqb n) is = true <-> In n is.
    Proof. intros n is. rewrite existsb_exists. split; [intros (y & H & E); apply N.eqb_eq in E; now subst|intros H; exists n; split; auto; apply N.eqb_refl]. Qed.

    Lemma lookup_ni_address_sel : forall op x, wf x -> op = op_ni \/ op = op_not_ni ->
      (is_v4 x = true -> forall v, In (Some v) vals -> is_v4 (sn_net v) = true) ->
      exists r, si_lookup ops s (N.of_nat off) op (Ip x) = Some r /\
        sel r (fun v => if relop_eqb op op_ni then shareb (N.to_nat (sn_bits v)) x (sn_net v)
                        else negb (shareb (N.to_nat (sn_bits v)) x (sn_net v))).
    Proof.
      intros op x W O FAM. set (bits := if is_v4 x then 32 else 128).
      destruct (ni_address_loop x bits (range 0 (bits + 1)) (b_new ops (N.of_nat off) false) (fun _ => false) W) as (r & E & _ & SR).
      { intros i H. apply range_in in H. lia. }
      { unfold bits. destruct (is_v4 x); lia. }
      { apply sel_wsel. now apply (sel_new ops content laws). }
      specialize (SR (or_intror (sel_new ops content laws off vals false OFF))).
      assert (S : sel r (fun v => shareb (N.to_nat (sn_bits v)) x (sn_net v))).
      { eapply sel_ext; [|exact SR]. intros v H. cbn beta. cbn [orb]. rewrite existsb_length.
        destruct (row_sn_wf v H) as [SW _]. pose proof (sn_length_bound v SW) as LV. pose proof SW as (WV & BV & MV & V4).
        apply eq_true_iff_eq. rewrite andb_true_iff, existsb_eqb, range_in, bytes_eqb_spec, shareb_spec.
        assert (MS : sn_net v = addr_mask x (sn_bits v) <-> share (N.to_nat (sn_bits v)) x (sn_net v)).
        { pose proof (mask_eq_share (sn_net v) x (N.to_nat (sn_bits v)) WV W ltac:(lia)) as Q.
          rewrite N2Nat.id, MV in Q. rewrite Q. split; apply share_sym. }
        unfold bits, sn_length in *. destruct (is_v4 x) eqn:X4.
        - rewrite (FAM eq_refl v H) in *. specialize (V4 eq_refl).
          replace (128 - 32 + (sn_bits v - 96)) with (sn_bits v) by lia. rewrite MS. intuition lia.
        - destruct (is_v4 (sn_net v)) eqn:N4.
          + specialize (V4 eq_refl). replace (128 - 128 + (sn_bits v - 96)) with (N.of_nat (N.to_nat (sn_bits v - 96))) by lia. split.
            * intros [_ Q]. exfalso. rewrite Q, mask_v6 in N4; auto; [discriminate|lia].
            * intros SH. exfalso. assert (Q : is_v4 x = is_v4 (sn_net v)) by (apply (v4_share _ _ (N.to_nat (sn_bits v))); auto; lia). congruence.
          + replace (128 - 128 + sn_bits v) with (sn_bits v) by lia. rewrite MS. intuition lia. }
      destruct O as [-> | ->]; cbn [si_lookup relop_eqb]; fold bits; rewrite E; eexists; (split; [reflexivity|]); auto.
      now apply (sel_not ops content laws).
    Qed.

    (** Superset of a subnet. *)
    Lemma ni_subnet_loop : forall x is result f, sn_wf x -> (forall i, In i is -> 0 < i <= sn_length x) -> wsel result f ->
      exists r, si_ni_subnet ops s x is result = Some r /\
        let g := fun v => (f v || existsb (fun i => (sn_length v =? i) &&
          shareb (N.to_nat (sn_bits (sn_make (sn_net x) i))) (sn_net v) (sn_net (sn_make (sn_net x) i))) is)%bool in
        wsel r g /\ (is <> [] \/ sel result f -> sel r g).
    Proof.
      intros x is. induction is as [|i is IH]; intros result f W LE WS; cbn [si_ni_subnet existsb].
      - exists result. split; auto. split.
        + eapply wsel_ext; [|exact WS]. intros v _. now rewrite orb_false_r.
        + intros [N|SS]; [now destruct N|]. eapply sel_ext; [|exact SS]. intros v _. now rewrite orb_false_r.
      - assert (LI : 0 < i <= sn_length x) by (apply LE; now left).
        pose proof (sn_length_bound x W) as LX. pose proof W as (WX & BX & MX & X4).
        set (y := sn_make (sn_net x) i).
        assert (WY : sn_wf y) by now apply sn_make_wf.
        assert (LY : sn_length y <> 0).
        { unfold y, sn_make, sn_length in *. destruct (is_v4 (sn_net x)) eqn:F.
          - specialize (X4 eq_refl). replace (32 <? i) with false by lia. cbn [sn_net sn_bits].
            replace (i + 96) with (N.of_nat (N.to_nat (i + 96))) by lia. rewrite mask_v4, F by (auto; lia). lia.
          - replace (128 <? i) with false by lia. cbn [sn_net sn_bits].
            replace i with (N.of_nat (N.to_nat i)) by lia. rewrite mask_v6 by (auto; lia). lia. }
        destruct (net_sel op_in (Net y) _ (address_in_answers ops content laws op_in y WY LY (or_introl eq_refl))) as (r & -> & SR).
        destruct (len_sel op_eq i I ltac:(lia)) as (l & -> & SL).
        pose proof (sel_and ops content laws off vals _ _ _ _ SR SL) as SA. cbn [relop_eqb compare_op] in SA.
        pose proof (sel_or ops content laws off vals _ _ _ _ WS SA) as SO.
        destruct (IH _ _ W (fun j H => LE j (or_intror H)) (sel_wsel _ _ _ _ _ SO)) as (q & EQ & _ & SQ).
        exists q. split; auto. specialize (SQ (or_intror SO)). cbv zeta.
        match goal with |- wsel q ?g /\ _ => assert (SQ' : sel q g) end.
        { eapply sel_ext; [|exact SQ]. intros v _. cbv beta. rewrite <- orb_assoc. f_equal. f_equal. apply andb_comm. }
        split; [now apply sel_wsel|auto].
    Qed.

    Lemma lookup_ni_subnet_sel : forall op x, sn_wf x -> sn_length x <> 0 -> op = op_ni \/ op = op_not_ni ->
      (forall v, In (Some v) vals -> is_v4 (sn_net v) = is_v4 (sn_net x) /\ sn_length v <> 0) ->
      exists r, si_lookup ops s (N.of_nat off) op (Net x) = Some r /\
        sel r (fun v => let b := ((sn_bits v <=? sn_bits x) && shareb (N.to_nat (sn_bits v)) (sn_net x) (sn_net v))%bool in
          if relop_eqb op op_ni then b else negb b).
    Proof.
      intros op x W NZ O FAM.
      destruct (ni_subnet_loop x (range 1 (sn_length x)) (b_empty ops) (fun _ => false) W) as (r & E & _ & SR).
      { intros i H. apply range_in in H. lia. }
      { apply (wsel_empty ops content laws). }
      assert (NE : range 1 (sn_length x) <> []).
      { unfold range. destruct (N.to_nat (sn_length x)) eqn:Q; [lia|]. cbn. discriminate. }
      specialize (SR (or_introl NE)).
      assert (S : sel r (fun v => ((sn_bits v <=? sn_bits x) && shareb (N.to_nat (sn_bits v)) (sn_net x) (sn_net v))%bool)).
      { eapply sel_ext; [|exact SR]. intros v H. cbv beta. cbn [orb]. rewrite existsb_length.
        destruct (FAM v H) as [FV NV]. destruct (row_sn_wf v H) as [SW _]. pose proof SW as (WV & BV & MV & V4).
        pose proof W as (WX & BX & MX & X4).
        apply eq_true_iff_eq. rewrite !andb_true_iff, existsb_eqb, range_in, !shareb_spec.
        assert (Q : sn_bits v <= sn_bits x -> sn_bits (sn_make (sn_net x) (sn_length v)) = sn_bits v /\
                    sn_net (sn_make (sn_net x) (sn_length v)) = addr_mask (sn_net x) (sn_bits v)).
        { intros LE. unfold sn_make, sn_length in *. rewrite FV in *. destruct (is_v4 (sn_net x)) eqn:F.
          - specialize (V4 eq_refl). replace (32 <? sn_bits v - 96) with false by lia. cbn [sn_bits sn_net].
            replace (sn_bits v - 96 + 96) with (sn_bits v) by lia. auto.
          - replace (128 <? sn_bits v) with false by lia. auto. }
        assert (LL : sn_length v < 1 + sn_length x <-> sn_bits v <= sn_bits x).
        { unfold sn_length. rewrite FV in *. destruct (is_v4 (sn_net x)); [|lia].
          specialize (V4 eq_refl). specialize (X4 eq_refl). lia. }
        assert (MS : share (N.to_nat (sn_bits v)) (addr_mask (sn_net x) (sn_bits v)) (sn_net x)).
        { replace (sn_bits v) with (N.of_nat (N.to_nat (sn_bits v))) at 2 by lia. apply mask_share; auto. lia. }
        split.
        - intros [L SH]. assert (LE : sn_bits v <= sn_bits x) by (apply LL; lia). destruct (Q LE) as [Q1 Q2].
          rewrite Q1, Q2 in SH. split; [lia|]. apply share_sym. eapply share_trans; [exact SH|exact MS].
        - intros [L SH]. assert (LE : sn_bits v <= sn_bits x) by lia. destruct (Q LE) as [Q1 Q2]. rewrite Q1, Q2. split; [lia|].
          eapply share_trans; [apply share_sym; exact SH|]. now apply share_sym. }
      destruct O as [-> | ->]; cbn [si_lookup relop_eqb]; rewrite E; eexists; (split; [reflexivity|]); auto.
      now apply (sel_not ops content laws).
    Qed.
  End Lookup.
End Index.
