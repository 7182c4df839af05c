(** Proofs about the indexes for addresses and subnets. *)
From Coq Require Import List ZArith NArith Lia Bool ZifyBool ZifyNat ZifyN.
From Verif Require Import NBits WordProofs OperatorModel BitmapOps CoderModel CoderProofs ValueIndexModel ValueIndexProofs
  SelProofs AddressModel AddressProofs AddressIndexModel.
Import ListNotations.
Open Scope N_scope.

(** The top [k] bits agree, as a function. *)
Definition shareb (k : nat) (a b : address) : bool := forallb (fun i => Bool.eqb (abit a i) (abit b i)) (seq 0 k).

Lemma shareb_spec : forall k a b, shareb k a b = true <-> share k a b.
Proof.
  intros k a b. unfold shareb, share. rewrite forallb_forall. split.
  - intros H i I. apply eqb_prop, H, in_seq. lia.
  - intros H i I. apply in_seq in I. rewrite H by lia. apply eqb_reflx.
Qed.

Lemma shareb_0 : forall a b, shareb 0 a b = true.
Proof. reflexivity. Qed.

Lemma shareb_cons : forall x xs y ys k, x < 256 -> y < 256 -> (8 <= k)%nat ->
  shareb k (x :: xs) (y :: ys) = ((x =? y) && shareb (k - 8) xs ys)%bool.
Proof.
  intros. apply eq_true_iff_eq. rewrite andb_true_iff, N.eqb_eq, !shareb_spec. now apply share_cons.
Qed.

Lemma abit_skipn : forall a j i, abit (skipn j a) i = abit a (8 * j + i).
Proof.
  intros a j i. destruct (abit_split i) as (q & t & T & ->). rewrite abit_8 by auto.
  replace (8 * j + (8 * q + (7 - t)))%nat with (8 * (j + q) + (7 - t))%nat by lia. rewrite abit_8 by auto.
  f_equal. revert a. induction j; intros [|y a]; cbn [skipn Nat.add nth]; auto. now destruct q.
Qed.

Lemma share_skipn : forall a b j k, share (8 * j + k) a b <-> share (8 * j) a b /\ share k (skipn j a) (skipn j b).
Proof.
  intros a b j k. split.
  - intros H. split; [eapply share_le; [|exact H]; lia|]. intros i I. rewrite !abit_skipn. apply H. lia.
  - intros [H H'] i I. destruct (Nat.lt_ge_cases i (8 * j)) as [L|L]; [now apply H|].
    specialize (H' (i - 8 * j)%nat ltac:(lia)). rewrite !abit_skipn in H'.
    now replace (8 * j + (i - 8 * j))%nat with i in H' by lia.
Qed.

Lemma skipn_cons : forall {A} (l : list A) j d, (j < length l)%nat -> skipn j l = nth j l d :: skipn (S j) l.
Proof. induction l; intros [|j] d H; cbn in *; auto; try lia. rewrite (IHl j d) at 1 by lia. reflexivity. Qed.

Section Index.
  Context {B : Type} (ops : bitmap_ops B) (content : B -> list bool).
  Context (laws : bitmap_laws ops content).

  (** Byte [j] of every row. *)
  Definition byte_rows (j : nat) (vals : list (option address)) : list (option N) := map (option_map (fun a => nth j a 0)) vals.

  Definition AInv (s : aindex B) (vals : list (option address)) : Prop :=
    length (ai_bytes s) = 16%nat /\
    (forall j c, nth_error (ai_bytes s) j = Some c -> SInv content 8 c (byte_rows j vals)) /\
    content (ai_v4 s) = map (fun o => match o with Some a => is_v4 a | None => false end) vals /\
    (forall a, In (Some a) vals -> wf a).

  Lemma AInv_new : AInv (ai_new ops) [].
  Proof.
    split; [reflexivity|]. split.
    - intros j c H. cbn [ai_new ai_bytes] in H. apply nth_error_In, repeat_spec in H. subst c.
      apply (SInv_new ops content laws 8).
    - split; [apply (law_empty _ _ laws)|]. intros a [].
  Qed.

  Lemma byte_rows_app : forall j vals n a, byte_rows j (vals ++ repeat None n ++ [Some a]) =
    (byte_rows j vals ++ repeat None n) ++ [Some (nth j a 0)].
  Proof. intros. unfold byte_rows. rewrite !map_app, map_repeat, <- app_assoc. reflexivity. Qed.

  Lemma address_accepts : forall a, wf a -> accepts (address_impl ops) AInv a.
  Proof.
    intros a W s vals pos (L & BS & V4 & WF) P. cbn [i_append address_impl ai_append]. eexists. split; [reflexivity|].
    assert (LA : length a = 16%nat) by apply W.
    split; [cbn [ai_bytes]; rewrite zip_length; congruence|]. cbn [ai_bytes ai_v4]. split; [|split].
    - intros j c H. rewrite nth_error_zip in H by congruence.
      destruct (nth_error (ai_bytes s) j) as [c0|] eqn:E; [|discriminate].
      destruct (nth_error a j) as [x|] eqn:X; [|discriminate]. injection H as <-.
      rewrite byte_rows_app. rewrite (nth_error_nth _ _ 0 X).
      pose proof (BS j c0 E) as SI. pose proof (proj1 (proj1 SI)) as SZ. unfold byte_rows in SZ. rewrite map_length in SZ.
      change [Some x] with (repeat (Some x) (N.to_nat 1)). apply slice_encode_inv; auto.
      assert (SZ' : vsize c0 = N.of_nat (length vals)) by exact SZ.
      replace (pos - length vals)%nat with (N.to_nat (N.of_nat pos - vsize c0)) by lia. now apply SInv_skip.
    - unfold single_encode, single_skip. rewrite !(law_app _ _ laws), (size_len _ _ laws). unfold BitmapOps.len.
      rewrite V4, map_length, !map_app, map_repeat, <- app_assoc. f_equal. f_equal. f_equal. lia.
    - intros b H. rewrite !in_app_iff in H. destruct H as [H|[H|[H|[] ] ] ]; auto.
      + apply repeat_spec in H. discriminate.
      + injection H as <-. exact W.
  Qed.

  Section Lookup.
    Variable (s : aindex B) (vals : list (option address)) (off : nat).
    Context (AI : AInv s vals) (OFF : (length vals <= off)%nat).
    Notation sel := (sel content off vals).

    Lemma byte_sel : forall j c x, nth_error (ai_bytes s) j = Some c -> x < 256 ->
      exists r, slice_decode ops c op_eq x = Some r /\ sel r (fun a => nth j a 0 =? x).
    Proof.
      intros j c x E X. destruct AI as (L & BS & V4 & WF).
      destruct (slice_decode_spec ops content laws 8 c (byte_rows j vals) op_eq x (BS j c E)) as (r & Q & LR & P);
        [lia|exact X|left; exact I|].
      exists r. split; auto. unfold byte_rows in LR. rewrite map_length in LR. split; [lia|].
      intros p v H. assert (NE : nth_error (byte_rows j vals) p = Some (Some (nth j v 0))) by (unfold byte_rows; now rewrite nth_error_map, H).
      apply (P p _ NE). assert (W : wf v) by (apply WF; eapply nth_error_In; eauto). destruct W as [LV F].
      assert (j < 16)%nat by (rewrite <- L; apply nth_error_Some; congruence).
      rewrite Forall_forall in F. change (2 ^ N.of_nat 8) with 256. apply F, nth_In. lia.
    Qed.

    Lemma row_wf : forall v, In (Some v) vals -> wf v.
    Proof. apply AI. Qed.

    Lemma row_cons : forall v j, In (Some v) vals -> (j < 16)%nat ->
      skipn j v = nth j v 0 :: skipn (S j) v /\ nth j v 0 < 256.
    Proof.
      intros v j H J. destruct (row_wf v H) as [L F]. split; [apply skipn_cons; lia|].
      rewrite Forall_forall in F. apply F, nth_In. lia.
    Qed.

    Lemma eq_loop_spec : forall cs xs j result f,
      (forall i c, nth_error cs i = Some c -> nth_error (ai_bytes s) (j + i) = Some c) ->
      length cs = length xs -> (j + length cs = 16)%nat -> Forall (fun b => b < 256) xs -> sel result f ->
      exists o, ai_eq_loop ops cs xs result = Some o /\
      match o with
      | None => forall v, In (Some v) vals -> f v && bytes_eqb (skipn j v) xs = false
      | Some r => sel r (fun v => f v && bytes_eqb (skipn j v) xs)
      end.
    Proof.
      induction cs as [|c cs IH]; intros [|x xs] j result f C L J F S; try discriminate; cbn [ai_eq_loop].
      - exists (Some result). split; auto. eapply sel_ext; [|exact S]. intros v H. cbn in J.
        rewrite skipn_all2 by (destruct (row_wf v H); lia). now rewrite andb_true_r.
      - inversion F as [|? ? X F']; subst. cbn [length] in *.
        destruct (byte_sel j c x) as (bm & -> & SB); auto.
        { rewrite <- (Nat.add_0_r j). apply C. reflexivity. }
        pose proof (sel_and ops content laws off vals _ _ _ _ S SB) as SA.
        assert (ST : forall v, In (Some v) vals ->
          ((f v && (nth j v 0 =? x)) && bytes_eqb (skipn (Datatypes.S j) v) xs = f v && bytes_eqb (skipn j v) (x :: xs))%bool).
        { intros v H. rewrite (proj1 (row_cons v j H ltac:(lia))). cbn [bytes_eqb]. now rewrite andb_assoc. }
        destruct (b_all ops false (b_and ops result bm)) eqn:A.
        + exists None. split; auto. intros v H. rewrite <- ST by auto.
          now rewrite (all_false_sel ops content laws off vals _ _ SA A v H).
        + destruct (IH xs (Datatypes.S j) (b_and ops result bm) (fun v => f v && (nth j v 0 =? x)))%bool as (o & E & O); auto; try lia.
          { intros i c' H. replace (Datatypes.S j + i)%nat with (j + Datatypes.S i)%nat by lia. now apply C. }
          exists o. split; auto. destruct o as [r|].
          * eapply sel_ext; [|exact O]. intros v H. cbn. now apply ST.
          * intros v H. rewrite <- ST by auto. now apply O.
    Qed.

    Lemma start_sel : forall v4, sel (ai_start ops s (N.of_nat off) v4) (fun v => if v4 then is_v4 v else true).
    Proof.
      intros [|]; cbn [ai_start].
      - apply (sel_content content off vals _ (fun o => match o with Some a => is_v4 a | None => false end)); auto. apply AI.
      - now apply (sel_new ops content laws).
    Qed.

    Lemma first_nth : forall v4 i c, nth_error (skipn (ai_first v4) (ai_bytes s)) i = Some c -> nth_error (ai_bytes s) (ai_first v4 + i) = Some c.
    Proof.
      intros v4 i c H. rewrite <- (firstn_skipn (ai_first v4) (ai_bytes s)). rewrite nth_error_app2.
      - rewrite firstn_length. replace (Nat.min _ _) with (ai_first v4) by (destruct AI as [L _]; rewrite L; now destruct v4).
        now replace (ai_first v4 + i - ai_first v4)%nat with i by lia.
      - rewrite firstn_length. destruct AI as [L _]. lia.
    Qed.

    Lemma first_length : forall v4 (x : address), length x = 16%nat ->
      length (skipn (ai_first v4) (ai_bytes s)) = length (skipn (ai_first v4) x) /\
      (ai_first v4 + length (skipn (ai_first v4) (ai_bytes s)) = 16)%nat.
    Proof. intros v4 x L. rewrite !skipn_length. destruct AI as [LB _]. rewrite L, LB. destruct v4; cbn; lia. Qed.

    Lemma skipn_bytes : forall n (x : address), wf x -> Forall (fun b => b < 256) (skipn n x).
    Proof.
      intros n x [_ F]. rewrite Forall_forall in *. intros b H. apply F. rewrite <- (firstn_skipn n x). apply in_app_iff. now right.
    Qed.

    Lemma family_eq : forall x v, wf x -> In (Some v) vals ->
      (if is_v4 x then is_v4 v else true) && bytes_eqb (skipn (ai_first (is_v4 x)) v) (skipn (ai_first (is_v4 x)) x) = bytes_eqb v x.
    Proof.
      intros x v W H. destruct (is_v4 x) eqn:E; cbn [ai_first andb]; [|reflexivity].
      apply eq_true_iff_eq. rewrite andb_true_iff, !bytes_eqb_spec. unfold is_v4 in *. rewrite bytes_eqb_spec in *.
      split.
      - intros [P Q]. rewrite <- (firstn_skipn 12 v), <- (firstn_skipn 12 x). now rewrite P, Q, E.
      - intros ->. auto.
    Qed.

    Lemma lookup_address_sel : forall op x, wf x -> op = op_eq \/ op = op_ne ->
      exists r, ai_lookup_address ops s (N.of_nat off) op x = Some r /\
        sel r (fun v => if relop_eqb op op_eq then bytes_eqb v x else negb (bytes_eqb v x)).
    Proof.
      intros op x W O. destruct (first_length (is_v4 x) x (proj1 W)) as [L1 L2].
      destruct (eq_loop_spec _ _ (ai_first (is_v4 x)) _ _ (first_nth (is_v4 x)) L1 L2 (skipn_bytes _ x W) (start_sel (is_v4 x))) as (o & E & P).
      assert (Q : ai_lookup_address ops s (N.of_nat off) op x = match o with
        | None => Some (b_new ops (N.of_nat off) (relop_eqb op op_ne))
        | Some result => Some (if relop_eqb op op_ne then b_not ops result else result) end).
      { destruct O as [-> | ->]; cbn [ai_lookup_address]; rewrite E; now destruct o. }
      rewrite Q. destruct o as [r|].
      - assert (S : sel r (fun v => bytes_eqb v x)).
        { eapply sel_ext; [|exact P]. intros v H. cbn. now apply family_eq. }
        destruct O as [-> | ->]; cbn [relop_eqb]; eexists; (split; [reflexivity|]); auto. now apply (sel_not ops content laws).
      - eexists. split; [reflexivity|]. eapply sel_ext; [|now apply (sel_new ops content laws)].
        intros v H. specialize (P v H). cbn beta in P. rewrite family_eq in P by auto. rewrite P. destruct O as [-> | ->]; reflexivity.
    Qed.

    (** Bits of a partial byte. *)
    Lemma bits_loop_spec : forall j c x bits result f, nth_error (ai_bytes s) j = Some c -> Forall (fun i => (i < 8)%nat) bits -> sel result f ->
      exists r, ai_bits_loop ops (vmaps c) x bits result = Some r /\
        sel r (fun v => f v && forallb (fun i => Bool.eqb (N.testbit (nth j v 0) (N.of_nat (7 - i))) (N.testbit x (N.of_nat (7 - i)))) bits).
    Proof.
      intros j c x bits. induction bits as [|i bits IH]; intros result f E F S; cbn [ai_bits_loop forallb].
      - exists result. split; auto. eapply sel_ext; [|exact S]. intros v _. now rewrite andb_true_r.
      - inversion F; subst. destruct AI as (L & BS & V4 & WF). pose proof (BS j c E) as SI. pose proof SI as ((SZ & LC & G) & CV).
        destruct (nth_error (vmaps c) (7 - i)) as [bm|] eqn:N.
        2:{ apply nth_error_None in N. lia. }
        assert (SB : sel bm (fun v => negb (N.testbit (nth j v 0) (N.of_nat (7 - i))))).
        { split.
          - pose proof (good_len _ _ _ _ (G _ _ N)) as Q. unfold byte_rows in Q. rewrite !map_length in Q. lia.
          - intros p v H. destruct (slice_bit content 8 c _ (7 - i) bm p (nth j v 0) SI N); auto.
            unfold byte_rows. now rewrite nth_error_map, H. }
        assert (SX : sel (if N.testbit x (N.of_nat (7 - i)) then b_not ops bm else bm)
           (fun v => Bool.eqb (N.testbit (nth j v 0) (N.of_nat (7 - i))) (N.testbit x (N.of_nat (7 - i))))).
        { destruct (N.testbit x (N.of_nat (7 - i))).
          - eapply sel_ext; [|apply (sel_not ops content laws); exact SB]. intros v _. cbv beta. now destruct (N.testbit (nth j v 0) (N.of_nat (7 - i))).
          - eapply sel_ext; [|exact SB]. intros v _. cbv beta. now destruct (N.testbit (nth j v 0) (N.of_nat (7 - i))). }
        pose proof (sel_and ops content laws off vals _ _ _ _ S SX) as SA.
        destruct (IH _ _ E H2 SA) as (r & Q & R). exists r. split; auto. eapply sel_ext; [|exact R].
        intros v _. cbn. now rewrite andb_assoc.
    Qed.

    Lemma prefix_loop_spec : forall cs xs j topk result f,
      (forall i c, nth_error cs i = Some c -> nth_error (ai_bytes s) (j + i) = Some c) ->
      length cs = length xs -> (j + length cs = 16)%nat -> Forall (fun b => b < 256) xs ->
      (topk <= 8 * length cs)%nat -> sel result f ->
      exists r, ai_prefix_loop ops cs xs (N.of_nat topk) result = Some r /\
        sel r (fun v => f v && shareb topk (skipn j v) xs).
    Proof.
      induction cs as [|c cs IH]; intros [|x xs] j topk result f C L J F K S; try discriminate; cbn [ai_prefix_loop length] in *.
      - assert (topk = 0%nat) as -> by lia. exists result. split; auto. eapply sel_ext; [|exact S]. intros v _. now rewrite shareb_0, andb_true_r.
      - inversion F as [|? ? X F']; subst.
        assert (E : nth_error (ai_bytes s) j = Some c) by (rewrite <- (Nat.add_0_r j); now apply C).
        destruct (N.leb_spec 8 (N.of_nat topk)) as [Q|Q].
        + destruct (byte_sel j c x E X) as (bm & -> & SB).
          pose proof (sel_and ops content laws off vals _ _ _ _ S SB) as SA.
          replace (N.of_nat topk - 8) with (N.of_nat (topk - 8)) by lia.
          destruct (IH xs (Datatypes.S j) (topk - 8)%nat (b_and ops result bm) (fun v => f v && (nth j v 0 =? x))%bool) as (r & ER & R); auto; try lia.
          { intros i c' H. replace (Datatypes.S j + i)%nat with (j + Datatypes.S i)%nat by lia. now apply C. }
          exists r. split; auto. eapply sel_ext; [|exact R]. intros v H. cbn beta.
          destruct (row_cons v j H ltac:(lia)) as [-> LT]. rewrite shareb_cons by (auto; lia). now rewrite andb_assoc.
        + rewrite Nat2N.id. destruct (bits_loop_spec j c x (seq 0 topk) result f E) as (r & ER & R); auto.
          { apply Forall_forall. intros i H. apply in_seq in H. lia. }
          exists r. split; auto. eapply sel_ext; [|exact R]. intros v H. cbn beta. f_equal. unfold shareb.
          destruct (row_cons v j H ltac:(lia)) as [-> LT].
          assert (EXT : forall (f g : nat -> bool) l, (forall i, In i l -> f i = g i) -> forallb f l = forallb g l).
          { clear. intros f g l H. induction l; cbn; auto. rewrite (H a) by now left. rewrite IHl; auto. intros. apply H. now right. }
          apply EXT. intros i I. apply in_seq in I. unfold abit. rewrite (Nat.div_small i 8), (Nat.mod_small i 8) by lia. reflexivity.
    Qed.

    Lemma lookup_subnet_sel : forall op x, sn_wf x -> sn_length x <> 0 -> op = op_in \/ op = op_not_in ->
      exists r, ai_lookup_subnet ops s (N.of_nat off) op x = Some r /\
        sel r (fun v => if relop_eqb op op_in then shareb (N.to_nat (sn_bits x)) v (sn_net x)
                        else negb (shareb (N.to_nat (sn_bits x)) v (sn_net x))).
    Proof.
      intros op x SW NZ O. pose proof SW as (W & LB & MK & V4).
      assert (BITS : (if is_v4 (sn_net x) then sn_length x + 96 else sn_length x) = sn_bits x).
      { unfold sn_length. destruct (is_v4 (sn_net x)); auto. specialize (V4 eq_refl). lia. }
      assert (U : ai_lookup_subnet ops s (N.of_nat off) op x =
        if sn_bits x =? 128 then ai_lookup_address ops s (N.of_nat off) (if relop_eqb op op_in then op_eq else op_ne) (sn_net x)
        else option_map (fun result => if relop_eqb op op_not_in then b_not ops result else result)
            (ai_prefix_loop ops (skipn (ai_first (is_v4 (sn_net x))) (ai_bytes s)) (skipn (ai_first (is_v4 (sn_net x))) (sn_net x)) (sn_length x)
               (ai_start ops s (N.of_nat off) (is_v4 (sn_net x))))).
      { rewrite <- BITS. unfold ai_lookup_subnet. destruct O as [-> | ->]; now replace (sn_length x =? 0) with false by lia. }
      rewrite U. destruct (N.eqb_spec (sn_bits x) 128) as [E|E].
      - destruct (lookup_address_sel (if relop_eqb op op_in then op_eq else op_ne) (sn_net x) W) as (r & ER & R).
        { destruct (relop_eqb op op_in); auto. }
        exists r. split; auto. eapply sel_ext; [|exact R]. intros v H. cbn beta. rewrite E.
        assert (Q : bytes_eqb v (sn_net x) = shareb (N.to_nat 128) v (sn_net x)).
        { apply eq_true_iff_eq. rewrite bytes_eqb_spec, shareb_spec. split; [intros ->; apply share_refl|].
          apply addr_ext; auto. now apply row_wf. }
        rewrite Q. destruct O as [-> | ->]; reflexivity.
      - set (fam := is_v4 (sn_net x)) in *. destruct (first_length fam (sn_net x) (proj1 W)) as [L1 L2].
        assert (K : (N.to_nat (sn_length x) <= 8 * length (skipn (ai_first fam) (ai_bytes s)))%nat).
        { assert (A : (8 * length (skipn (ai_first fam) (ai_bytes s)) = 128 - 8 * ai_first fam)%nat) by lia. rewrite A.
          destruct fam; cbn [ai_first]; lia. }
        destruct (prefix_loop_spec _ _ (ai_first fam) (N.to_nat (sn_length x)) _ _ (first_nth fam) L1 L2 (skipn_bytes _ _ W) K (start_sel fam)) as (r & ER & R).
        rewrite N2Nat.id in ER. rewrite ER. cbn [option_map].
        assert (S : sel r (fun v => shareb (N.to_nat (sn_bits x)) v (sn_net x))).
        { eapply sel_ext; [|exact R]. intros v H. cbn beta. apply eq_true_iff_eq. rewrite andb_true_iff, !shareb_spec.
          destruct fam eqn:FM; cbn [ai_first skipn].
          - unfold fam in FM. rewrite is_v4_share in FM by auto. rewrite is_v4_share by now apply row_wf.
            replace (N.to_nat (sn_bits x)) with (8 * 12 + N.to_nat (sn_length x))%nat by lia. rewrite share_skipn.
            change (8 * 12)%nat with 96%nat. split; intros [P Q]; split; auto.
            + eapply share_trans; [exact P|]. now apply share_sym.
            + eapply share_trans; [exact P|exact FM].
          - rewrite <- BITS. tauto. }
        destruct O as [-> | ->]; cbn [relop_eqb]; eexists; (split; [reflexivity|]); auto. now apply (sel_not ops content laws).
    Qed.
  End Lookup.

  Lemma address_eq_answers : forall op x, wf x -> op = op_eq \/ op = op_ne ->
    answers content (address_impl ops) AInv op (Ip x) (fun v => if relop_eqb op op_eq then bytes_eqb v x else negb (bytes_eqb v x)).
  Proof.
    intros op x W O s vals off AI OFF. destruct (lookup_address_sel s vals off AI OFF op x W O) as (r & E & S).
    exists r. split; auto. now apply sel_wsel in S.
  Qed.
  Lemma address_in_answers : forall op x, sn_wf x -> sn_length x <> 0 -> op = op_in \/ op = op_not_in ->
    answers content (address_impl ops) AInv op (Net x)
      (fun v => if relop_eqb op op_in then shareb (N.to_nat (sn_bits x)) v (sn_net x) else negb (shareb (N.to_nat (sn_bits x)) v (sn_net x))).
  Proof.
    intros op x W NZ O s vals off AI OFF. destruct (lookup_subnet_sel s vals off AI OFF op x W NZ O) as (r & E & S).
    exists r. split; auto. now apply sel_wsel in S.
  Qed.
End Index.
