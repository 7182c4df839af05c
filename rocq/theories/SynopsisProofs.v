(** Proofs about column synopses (SynopsisModel.v). *)
From Coq Require Import List ZArith NArith Lia Bool Arith ZifyBool ZifyNat ZifyN.
From Verif Require Import OperatorModel AddressModel AddressProofs DataModel DataProofs TypeModel TypeProofs BloomModel BloomProofs SynopsisModel.
Import ListNotations.
Open Scope nat_scope.

Lemma of_kind_eqb : forall k x y, of_kind k x = true -> view_eqb x y = true -> x = y.
Proof.
  intros k x y K E. destruct k, x; try discriminate; destruct y; try discriminate; cbn [view_eqb] in E; apply bytes_eqb_iff in E; now subst.
Qed.
Lemma of_kind_refl : forall k x, of_kind k x = true -> view_eqb x x = true.
Proof. intros k x K. destruct k, x; try discriminate; cbn [view_eqb]; now apply bytes_eqb_iff. Qed.
Lemma member_of_kind : forall k x vs, of_kind k x = true -> existsb (view_eqb x) vs = true <-> In x vs.
Proof.
  intros k x vs K. rewrite existsb_exists. split.
  - intros (y & I & E). now rewrite (of_kind_eqb k x y K E).
  - intros I. exists x. split; [exact I|]. now apply (of_kind_refl k).
Qed.

  Lemma power_from_pos : forall fuel size n, (0 < n)%N -> (0 < power_from fuel size n)%N.
  Proof. induction fuel as [|fuel IH]; intros size n H; cbn [power_from]; [exact H|]. destruct (n <? size)%N; [apply IH; lia|exact H]. Qed.
  Lemma power_from_covers : forall fuel size n, (size <= n * 2 ^ N.of_nat fuel)%N -> (size <= power_from fuel size n)%N.
  Proof.
    induction fuel as [|fuel IH]; intros size n H; cbn [power_from].
    - change (2 ^ N.of_nat 0)%N with 1%N in H. lia.
    - destruct (N.ltb_spec n size); [|assumption]. apply IH. rewrite Nat2N.inj_succ, N.pow_succ_r' in H. lia.
  Qed.


Section Hash.
  Variable hash : N -> data -> N.

  (** The synopsis knows of the values [xs]. *)
  Definition covers (s : synopsis) (xs : list data) : Prop :=
    match s with
    | SBool t f => forall x, In x xs -> exists b, x = DBool b /\ (if b then t else f) = true
    | STime mn mx => forall x, In x xs -> exists z, x = DTime z /\ (mn <= z <= mx)%Z
    | SBloom k f => usable f /\ forall x, In x xs -> of_kind k x = true /\ bf_lookup hash f x = Some true
    | SBuffered k _ vs => Forall (fun v => of_kind k v = true) vs /\ forall x, In x xs -> of_kind k x = true /\ In x vs
    end.

  (** The new synopses know of nothing. *)
  Lemma covers_nil : forall s, match s with SBloom _ f => usable f | SBuffered k _ vs => Forall (fun v => of_kind k v = true) vs | _ => True end -> covers s [].
  Proof. intros [t f|mn mx|k f|k p vs] H; cbn [covers]; try (intros x []); (split; [exact H|intros x []]). Qed.

  Lemma covers_add : forall s xs x s', covers s xs -> syn_add hash s x = Some s' -> covers s' (x :: xs).
  Proof.
    intros s xs x s' C E. destruct s as [t f|mn mx|k f|k p vs]; cbn [syn_add] in E.
    - destruct x; try discriminate. injection E as <-. cbn [covers] in C.
      assert (G : forall y, In y xs -> exists b', y = DBool b' /\ (if b' then (if b then true else t) else (if b then f else true)) = true).
      { intros y I. destruct (C y I) as (b' & -> & H). exists b'. split; [reflexivity|]. destruct b', b; cbn in *; auto. }
      destruct b; cbn [covers]; intros y [<-|I]; eauto; exists true; auto.
    - destruct x; try discriminate. injection E as <-. cbn [covers] in *. intros y [<-|I].
      + exists z. split; [reflexivity|]. destruct (Z.ltb_spec z mn), (z >? mx)%Z eqn:G; rewrite ?Z.gtb_ltb in G; lia.
      + destruct (C y I) as (z' & -> & H). exists z'. split; [reflexivity|]. destruct (Z.ltb_spec z mn), (z >? mx)%Z eqn:G; rewrite ?Z.gtb_ltb in G; lia.
    - destruct (of_kind k x) eqn:K; [|discriminate]. cbn [covers] in C. destruct C as [U C]. destruct (bf_add_spec hash f x U) as (bs & Ea & L & H).
      rewrite Ea in E. cbn [option_map fst] in E. injection E as <-.
      assert (HV : holds_values hash f (with_bits f bs) [x]).
      { repeat split; try (now apply usable_with); auto. intros q. rewrite H. cbn [flat_map]. now rewrite app_nil_r. }
      cbn [covers]. split; [now apply usable_with|]. intros y [<-|I].
      + split; [exact K|]. eapply holds_values_lookup; [exact HV|now left].
      + destruct (C y I) as [Ky Ly]. split; [exact Ky|]. eapply holds_values_mono; eassumption.
    - destruct (of_kind k x) eqn:K; [|discriminate]. injection E as <-. cbn [covers] in *. destruct C as [F C].
      destruct (existsb (view_eqb x) vs) eqn:M.
      + split; [exact F|]. intros y [<-|I]; [|auto]. split; [exact K|]. now apply (member_of_kind k).
      + split; [now constructor|]. intros y [<-|I]; [split; [exact K|now left]|]. destruct (C y I). split; [assumption|now right].
  Qed.

  (** The values of a column that are added. *)
  Definition present (xs : list data) : list data := filter (fun x => match x with DNone => false | _ => true end) xs.
  Lemma covers_add_all : forall xs s ys s', covers s ys -> syn_add_all hash s xs = Some s' -> covers s' (rev (present xs) ++ ys).
  Proof.
    induction xs as [|x xs IH]; intros s ys s' C E; [injection E as <-; exact C|].
    assert (D : x = DNone \/ x <> DNone /\ present (x :: xs) = x :: present xs /\
      match syn_add hash s x with Some s1 => syn_add_all hash s1 xs | None => None end = Some s').
    { destruct x; [now left|right; split; [discriminate|split; [reflexivity|exact E]]..]. }
    destruct D as [-> | (N & P & E')]; [now apply (IH s ys)|]. destruct (syn_add hash s x) as [s1|] eqn:A; [|discriminate].
    rewrite P. cbn [rev]. rewrite <- app_assoc. cbn [app]. eapply IH; [|exact E']. eapply covers_add; eassumption.
  Qed.
  Lemma covers_sub : forall s xs ys, covers s xs -> (forall x, In x ys -> In x xs) -> covers s ys.
  Proof. intros [t f|mn mx|k f|k p vs] xs ys C H; cbn [covers] in *; auto; destruct C as [U C]; auto. Qed.

  (** * Lookups *)

  (** The lookups that are sound: times cannot be looked up with [!=] and [not in]. *)
  Definition sound_op (s : synopsis) (op : relop) : Prop :=
    match s with STime _ _ => op <> op_ne /\ op <> op_not_in | _ => True end.

  Lemma lookup_sound : forall re s xs x op rhs, covers s xs -> In x xs -> sound_op s op ->
    evaluate_view re x op rhs = Some true -> syn_lookup hash s op rhs <> Some (Some false).
  Proof.
    intros re s xs x op rhs C I S E. destruct s as [t f|mn mx|k f|k p vs]; cbn [syn_lookup covers sound_op] in *.
    - destruct (C x I) as (b & -> & H). unfold bool_lookup. destruct rhs; try discriminate. destruct op; try discriminate; cbn [evaluate_view view_eqb] in E.
      + injection E as E. apply eqb_prop in E as <-. rewrite H. discriminate.
      + injection E as E. apply negb_true_iff in E. destruct b, b0; try discriminate; cbn in *; congruence.
    - destruct (C x I) as (z & -> & H). unfold min_max_lookup.
      destruct op; try discriminate; try (now destruct S as [S1 S2]; contradiction).
      + destruct rhs; cbn [evaluate_view] in E; try (cbn in E; discriminate). cbn [view_in] in E. injection E as E.
        intros Q. injection Q as Q. apply not_true_iff_false in Q. apply Q. apply existsb_exists. apply existsb_exists in E as (e & Ie & He).
        exists e. split; [exact Ie|]. apply andb_true_iff in He as [_ He]. destruct e; try discriminate. cbn [view_eqb] in He. cbn [time_equal]. lia.
      + destruct rhs; try discriminate. cbn [evaluate_view view_eqb] in E. injection E as E. cbn [min_max_impl option_map]. intros Q. injection Q as Q. lia.
      + destruct rhs; try discriminate. cbn [evaluate_view] in E. unfold view_lt in E. cbn [view_cmp lt_Z fst] in E. injection E as E. cbn [min_max_impl option_map]. intros Q. injection Q as Q. lia.
      + destruct rhs; try discriminate. cbn [evaluate_view] in E. unfold view_lt in E. cbn [view_cmp lt_Z fst] in E. injection E as E. cbn [min_max_impl option_map]. intros Q. injection Q as Q. lia.
      + destruct rhs; try discriminate. cbn [evaluate_view] in E. unfold view_lt in E. cbn [view_cmp lt_Z fst] in E. injection E as E. cbn [min_max_impl option_map]. intros Q. injection Q as Q. lia.
      + destruct rhs; try discriminate. cbn [evaluate_view] in E. unfold view_lt in E. cbn [view_cmp lt_Z fst] in E. injection E as E. cbn [min_max_impl option_map]. intros Q. injection Q as Q. lia.
    - destruct C as [U C]. destruct (C x I) as [K L]. unfold bloom_lookup. destruct op; try discriminate.
      + destruct rhs; try discriminate. assert (V : evaluate_view re x op_in (DList xs0) = view_in re x (DList xs0)) by reflexivity. rewrite V in E. clear V.
        assert (E' : existsb (fun e => (d_index e =? d_index x)%N && view_eqb x e) xs0 = true) by (destruct x; injection E as E; exact E). clear E.
        induction xs0 as [|e es IH]; [discriminate|]. cbn [existsb] in E'. cbn [bloom_member].
        destruct (view_eqb x e) eqn:Q.
        * apply (of_kind_eqb k) in Q; [|exact K]. subst e. destruct x; try (destruct k; discriminate); rewrite K, L; discriminate.
        * rewrite andb_false_r in E'. cbn [orb] in E'. specialize (IH E'). destruct e; try discriminate; (match goal with |- context [of_kind k ?e] => destruct (of_kind k e) end; [|exact IH]);
            (match goal with |- context [bf_lookup hash f ?e] => destruct (bf_lookup hash f e) as [ [|]|] end; [discriminate|exact IH|discriminate]).
      + cbn [evaluate_view] in E. injection E as E. apply (of_kind_eqb k) in E; [|exact K]. subst rhs.
        destruct x; try (destruct k; discriminate); rewrite K, L; discriminate.
    - destruct C as [F C]. destruct (C x I) as [K L]. unfold buffered_lookup. destruct op; try discriminate.
      + destruct rhs; try discriminate. assert (V : evaluate_view re x op_in (DList xs0) = view_in re x (DList xs0)) by reflexivity. rewrite V in E. clear V.
        assert (E' : existsb (fun e => (d_index e =? d_index x)%N && view_eqb x e) xs0 = true) by (destruct x; injection E as E; exact E). clear E.
        induction xs0 as [|e es IH]; [discriminate|]. cbn [existsb] in E'. cbn [buffered_member].
        destruct (of_kind k e) eqn:Ke; [|discriminate]. destruct (view_eqb x e) eqn:Q.
        * apply (of_kind_eqb k) in Q; [|exact K]. subst e. rewrite (proj2 (member_of_kind k x vs K) L). discriminate.
        * rewrite andb_false_r in E'. cbn [orb] in E'. destruct (existsb (view_eqb e) vs); [discriminate|now apply IH].
      + cbn [evaluate_view] in E. injection E as E. apply (of_kind_eqb k) in E; [|exact K]. subst rhs. rewrite K, (proj2 (member_of_kind k x vs K) L). discriminate.
  Qed.

  Definition is_buffered (s : synopsis) : bool := match s with SBuffered _ _ _ => true | _ => false end.
  Definition well_formed (s : synopsis) : Prop := match s with SBloom _ f => usable f | _ => True end.
  Lemma lookup_defined : forall s op rhs, well_formed s -> is_buffered s = false -> syn_lookup hash s op rhs <> None.
  Proof.
    intros [t f|mn mx|k f|k p vs] op rhs W B; [discriminate| | |discriminate]; cbn [syn_lookup].
    - unfold min_max_lookup. destruct op, rhs; discriminate.
    - cbn [well_formed] in W. unfold bloom_lookup. destruct op; try discriminate.
      + destruct rhs; try discriminate. induction xs as [|x xs IH]; [discriminate|]. cbn [bloom_member].
        destruct x; try discriminate; (destruct (of_kind k _); [|exact IH]); rewrite bf_lookup_spec by assumption;
          (destruct (forallb _ _); [discriminate|exact IH]).
      + destruct rhs; try discriminate; (destruct (of_kind k _); [|discriminate]); rewrite bf_lookup_spec by assumption; discriminate.
  Qed.

  (** * Shrinking *)

  Variable opts : syn_options.
  Lemma make_filter_usable : forall k params s, make_filter opts k params = Some s -> exists f, s = SBloom k f /\ usable f.
  Proof.
    intros k params s E. unfold make_filter in E. destruct (make_bloom false false (o_evaluate opts params) []) as [f|] eqn:B; [|discriminate].
    injection E as <-. exists f. split; [reflexivity|]. eapply make_bloom_usable; [exact B|discriminate].
  Qed.
  Lemma syn_add_all_bloom : forall k xs f, usable f -> Forall (fun v => of_kind k v = true) xs -> exists g, syn_add_all hash (SBloom k f) xs = Some (SBloom k g) /\ usable g.
  Proof.
    intros k. induction xs as [|x xs IH]; intros f U F; [eexists; split; [reflexivity|exact U]|]. inversion F as [|? ? K F']; subst.
    destruct (bf_add_spec hash f x U) as (bs & Ea & L & H).
    destruct (IH (with_bits f bs) (usable_with _ _ L U) F') as (g & Eg & Ug). exists g. split; [|exact Ug].
    destruct x; try (destruct k; discriminate); cbn [syn_add_all syn_add]; rewrite K, Ea; exact Eg.
  Qed.
  Lemma shrink_covers : forall s xs, covers s xs ->
    exists r, shrink hash opts s = Some r /\ match r with Some s' => covers s' xs /\ is_buffered s' = false | None => True end.
  Proof.
    intros s xs C. destruct s as [t f|mn mx|k f|k p vs]; try (exists None; split; [reflexivity|exact I]). cbn [shrink].
    destruct (make_filter opts k (power_from 64 (N.of_nat (length vs)) 1, p)) as [b|] eqn:E; [|exists None; auto].
    destruct (make_filter_usable _ _ _ E) as (f & -> & U). cbn [covers] in C. destruct C as [F C].
    destruct (syn_add_all_bloom k vs f U F) as (g & Eg & Ug). rewrite Eg. eexists. split; [reflexivity|]. split; [|reflexivity].
    assert (C0 : covers (SBloom k f) []) by (apply covers_nil; exact U).
    pose proof (covers_add_all vs (SBloom k f) [] (SBloom k g) C0 Eg) as Cg. rewrite app_nil_r in Cg.
    eapply covers_sub; [exact Cg|]. intros x Hx. destruct (C x Hx) as [K Hv]. rewrite <- in_rev. apply filter_In. split; [exact Hv|].
    destruct k, x; try discriminate; reflexivity.
  Qed.
  Lemma make_synopsis_covers : forall t s, make_synopsis opts t = Some (Some s) -> covers s [].
  Proof.
    intros t s E. apply covers_nil. unfold make_synopsis in E.
    assert (B : forall k m, make_bloom_synopsis opts k m = Some s -> match s with SBloom _ f => usable f | SBuffered k _ vs => Forall (fun v => of_kind k v = true) vs | _ => True end).
    { intros k m H. unfold make_bloom_synopsis in H. destruct (o_attribute opts m) as [q|].
      - destruct (make_filter_usable _ _ _ H) as (f & -> & U). exact U.
      - destruct (o_default opts k) as [q|]; [|discriminate]. destruct (o_buffered opts); [injection H as <-; constructor|].
        destruct (make_filter_usable _ _ _ H) as (f & -> & U). exact U. }
    destruct (behind_aliases t) as [| |m b| | | | |]; try discriminate. destruct b; try discriminate; destruct t as [| |m' b'| | | | |]; try discriminate;
      try (injection E as <-; exact I); injection E as E; now apply B in E.
  Qed.
  (** Adding values of the right type succeeds. *)
  Definition accepts (s : synopsis) (x : data) : Prop :=
    match s with
    | SBool _ _ => match x with DBool _ => True | _ => False end
    | STime _ _ => match x with DTime _ => True | _ => False end
    | SBloom k _ | SBuffered k _ _ => of_kind k x = true
    end.
  Lemma add_defined : forall s x, well_formed s -> accepts s x -> exists s', syn_add hash s x = Some s' /\ well_formed s' /\ forall y, accepts s y -> accepts s' y.
  Proof.
    intros [t f|mn mx|k f|k p vs] x W A; cbn [accepts syn_add] in *.
    - destruct x; try contradiction. eexists. split; [reflexivity|]. destruct b; split; auto.
    - destruct x; try contradiction. eexists. split; [reflexivity|]. split; auto.
    - rewrite A. destruct (bf_add_spec hash f x W) as (bs & Ea & L & H). rewrite Ea. eexists. split; [reflexivity|]. split; [|auto]. now apply usable_with.
    - rewrite A. eexists. split; [reflexivity|]. split; auto.
  Qed.
End Hash.
