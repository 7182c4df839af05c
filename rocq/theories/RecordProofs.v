(** Proofs about merging, comparing and checking record types. *)
From Coq Require Import List ZArith NArith Lia Bool Arith.
From Verif Require Import OperatorModel AddressModel DataModel TypeModel TypeProofs.
Import ListNotations.
Open Scope nat_scope.

(** * Specification *)

(** The type found by following field names from the root. *)
Fixpoint get (t : ty) (ns : list (list N)) {struct ns} : option ty :=
  match ns with
  | [] => Some t
  | n :: ns' =>
      match t with
      | TRecord _ fs =>
          match List.find (fun f => if list_eq_dec N.eq_dec (fst f) n then true else false) fs with
          | Some f => get (snd f) ns'
          | None => None
          end
      | _ => None
      end
  end.
Definition is_record (t : ty) : bool := match t with TRecord _ _ => true | _ => false end.
(** A leaf: a type that is not a record. *)
Definition leaf_of (t : ty) (ns : list (list N)) (u : ty) : Prop := get t ns = Some u /\ is_record u = false.
(** Field names are distinct in every record that can be reached. *)
Fixpoint distinct (t : ty) : Prop :=
  match t with
  | TRecord _ fs =>
      NoDup (map fst fs) /\
      (fix go (fs : list field) : Prop := match fs with [] => True | f :: fs' => distinct (snd f) /\ go fs' end) fs
  | _ => True
  end.
(** Two types that cannot stand under the same name without losing one of them. *)
Definition clashing (u t : ty) : Prop := u <> t /\ (is_record u = false \/ is_record t = false).
(** [x] and [y] clash on the way to [ns] or there. *)
Definition blocked (x y : ty) (ns : list (list N)) : Prop :=
  exists before after u t, ns = before ++ after /\ get x before = Some u /\ get y before = Some t /\ clashing u t.

(** * Lookup *)

Lemma distinct_record : forall m fs, distinct (TRecord m fs) <-> NoDup (map fst fs) /\ Forall (fun f => distinct (snd f)) fs.
Proof.
  intros m fs. cbn [distinct]. apply and_iff_compat_l. induction fs as [|f fs IH].
  - split; [constructor|trivial].
  - split.
    + intros [A B]. constructor; [exact A|now apply IH].
    + intros Q. inversion Q as [|? ? A B]; subst. split; [exact A|now apply IH].
Qed.

Lemma get_cons : forall m fs n ns, get (TRecord m fs) (n :: ns) =
  match find_field n fs with Some t => get t ns | None => None end.
Proof.
  intros m fs n ns. cbn [get]. induction fs as [|[k t] fs IH]; [reflexivity|]. cbn [List.find find_field fst snd].
  destruct (list_eq_dec N.eq_dec k n) as [E|E].
  - subst. assert (bytes_eqb n n = true) as -> by now apply bytes_eqb_iff. reflexivity.
  - destruct (bytes_eqb k n) eqn:B; [apply bytes_eqb_iff in B; contradiction|exact IH].
Qed.

Lemma find_field_in : forall n fs t, find_field n fs = Some t -> In (n, t) fs.
Proof.
  intros n. induction fs as [|[k u] fs IH]; intros t H; [discriminate|]. cbn [find_field] in H.
  destruct (bytes_eqb k n) eqn:B.
  - apply bytes_eqb_iff in B. injection H as ->. subst. now left.
  - right. now apply IH.
Qed.
Lemma find_field_none : forall n fs, find_field n fs = None <-> ~ In n (map fst fs).
Proof.
  intros n. induction fs as [|[k u] fs IH]; [split; auto|]. cbn [find_field map fst In].
  destruct (bytes_eqb k n) eqn:B.
  - apply bytes_eqb_iff in B. split; [discriminate|intros H; exfalso; apply H; now left].
  - assert (k <> n) by (intros ->; assert (bytes_eqb n n = true) by (now apply bytes_eqb_iff); congruence).
    rewrite IH. intuition.
Qed.
Lemma in_find_field : forall n t fs, NoDup (map fst fs) -> In (n, t) fs -> find_field n fs = Some t.
Proof.
  intros n t. induction fs as [|[k u] fs IH]; intros H I; [destruct I|]. inversion H as [|? ? A B]; subst. cbn [find_field].
  destruct I as [E|I].
  - injection E as -> ->. assert (bytes_eqb n n = true) as -> by now apply bytes_eqb_iff. reflexivity.
  - destruct (bytes_eqb k n) eqn:Q; [|auto]. apply bytes_eqb_iff in Q. subst. exfalso. apply A. now apply (in_map fst) in I.
Qed.
Lemma find_field_app : forall n xs ys, find_field n (xs ++ ys) =
  match find_field n xs with Some t => Some t | None => find_field n ys end.
Proof. intros n. induction xs as [|[k u] xs IH]; intros ys; [reflexivity|]. cbn [app find_field]. now destruct (bytes_eqb k n). Qed.
Lemma find_set_field : forall n k v fs, find_field k fs <> None -> find_field n (set_field k v fs) =
  if list_eq_dec N.eq_dec n k then Some v else find_field n fs.
Proof.
  intros n k v. induction fs as [|[j u] fs IH]; intros H; [now elim H|]. cbn [find_field set_field] in *.
  destruct (bytes_eqb j k) eqn:B.
  - apply bytes_eqb_iff in B. subst j. cbn [find_field]. destruct (list_eq_dec N.eq_dec n k) as [->|E].
    + assert (bytes_eqb k k = true) as -> by now apply bytes_eqb_iff. reflexivity.
    + destruct (bytes_eqb k n) eqn:Q; [apply bytes_eqb_iff in Q; congruence|reflexivity].
  - cbn [find_field]. destruct (bytes_eqb j n) eqn:Q.
    + apply bytes_eqb_iff in Q. subst j. destruct (list_eq_dec N.eq_dec n k) as [->|E]; [|reflexivity].
      assert (bytes_eqb k k = true) by (now apply bytes_eqb_iff). congruence.
    + now apply IH.
Qed.
Lemma names_set_field : forall k v fs, map fst (set_field k v fs) = map fst fs.
Proof.
  intros k v. induction fs as [|[j u] fs IH]; [reflexivity|]. cbn [set_field]. destruct (bytes_eqb j k); [reflexivity|].
  cbn [map fst]. now rewrite IH.
Qed.

(** * The merge loop *)

Section Loop.
  Variable rec : ty -> ty -> option ty.
  Variable clash : ty -> ty -> option ty.
  (** What becomes of a name that both sides have. *)
  Definition join_field (u t : ty) : option ty :=
    if ty_eqb u t then Some u
    else if is_record u && is_record t then rec t u else clash u t.

  Lemma join_field_loop : forall u t (A : Type) (a : A) (k : ty -> A),
    (match (match u, t with TRecord _ _, TRecord _ _ => rec t u | _, _ => clash u t end) with None => a | Some v => k v end) =
    match (if is_record u && is_record t then rec t u else clash u t) with None => a | Some v => k v end.
  Proof. intros u t A a k. destruct u; destruct t; reflexivity. Qed.

  Lemma merge_loop_spec : forall gs left added, NoDup (map fst gs) ->
    (forall n, In n (map fst gs) -> ~ In n (map fst added)) ->
    match merge_loop rec clash gs left added with
    | Some fs =>
        (forall n, find_field n fs =
           match find_field n left, find_field n gs with
           | Some u, Some t => join_field u t
           | Some u, None => Some u
           | None, Some t => Some t
           | None, None => find_field n added
           end) /\
        (forall n u t, find_field n left = Some u -> find_field n gs = Some t -> join_field u t <> None) /\
        map fst fs = map fst left ++ map fst added ++ filter (fun n => match find_field n left with None => true | _ => false end) (map fst gs)
    | None => exists n u t, find_field n left = Some u /\ find_field n gs = Some t /\ join_field u t = None
    end.
  Proof.
    induction gs as [|[k t] gs IH]; intros left added Hd Ha.
    - cbn [merge_loop find_field map filter]. split; [|split].
      + intros n. rewrite find_field_app. destruct (find_field n left); reflexivity.
      + discriminate.
      + now rewrite map_app, app_nil_r.
    - inversion Hd as [|? ? Hk Hd']; subst. cbn [merge_loop]. cbn [map fst] in Ha.
      assert (Kg : find_field k gs = None) by now apply find_field_none.
      destruct (find_field k left) as [u|] eqn:Eu.
      + destruct (ty_eqb u t) eqn:Et.
        * assert (Ha' : forall n, In n (map fst gs) -> ~ In n (map fst added)) by (intros n Hn; apply Ha; now right).
          specialize (IH left added Hd' Ha'). destruct (merge_loop rec clash gs left added) as [fs|].
          -- destruct IH as (IH1 & IH2 & IH3). split; [|split].
             ++ intros n. rewrite IH1. cbn [find_field]. destruct (bytes_eqb k n) eqn:B; [|reflexivity].
                apply bytes_eqb_iff in B. subst n. rewrite Kg, Eu. unfold join_field. now rewrite Et.
             ++ intros n u' t' A B. cbn [find_field] in B. destruct (bytes_eqb k n) eqn:Q; [|eapply IH2; eauto].
                apply bytes_eqb_iff in Q. subst n. injection B as <-. rewrite Eu in A. injection A as <-. unfold join_field. now rewrite Et.
             ++ rewrite IH3. cbn [map fst filter]. now rewrite Eu.
          -- destruct IH as (n & u' & t' & A & B & C). exists n, u', t'. split; [exact A|]. split; [|exact C].
             cbn [find_field]. destruct (bytes_eqb k n) eqn:Q; [|exact B]. apply bytes_eqb_iff in Q. subst. congruence.
        * rewrite join_field_loop. destruct (if is_record u && is_record t then rec t u else clash u t) as [v|] eqn:Ev.
          -- assert (Ha' : forall n, In n (map fst gs) -> ~ In n (map fst added)) by (intros n Hn; apply Ha; now right).
             specialize (IH (set_field k v left) added Hd' Ha').
             assert (Fs : forall n, find_field n (set_field k v left) = if list_eq_dec N.eq_dec n k then Some v else find_field n left).
             { intros n. apply find_set_field. now rewrite Eu. }
             destruct (merge_loop rec clash gs (set_field k v left) added) as [fs|].
             ++ destruct IH as (IH1 & IH2 & IH3). split; [|split].
                ** intros n. rewrite IH1, Fs. cbn [find_field]. destruct (list_eq_dec N.eq_dec n k) as [->|Hn].
                   --- assert (bytes_eqb k k = true) as -> by now apply bytes_eqb_iff. rewrite Kg, Eu. unfold join_field. now rewrite Et, Ev.
                   --- destruct (bytes_eqb k n) eqn:B; [apply bytes_eqb_iff in B; congruence|reflexivity].
                ** intros n u' t' A B. cbn [find_field] in B. destruct (bytes_eqb k n) eqn:Q.
                   --- apply bytes_eqb_iff in Q. subst n. injection B as <-. rewrite Eu in A. injection A as <-. unfold join_field. now rewrite Et, Ev.
                   --- eapply IH2; [|exact B]. rewrite Fs. destruct (list_eq_dec N.eq_dec n k) as [->|Hn]; [|exact A].
                       assert (bytes_eqb k k = true) by (now apply bytes_eqb_iff). congruence.
                ** rewrite IH3, names_set_field. cbn [map fst filter]. rewrite Eu. do 2 f_equal. apply filter_ext. intros n.
                   rewrite Fs. destruct (list_eq_dec N.eq_dec n k) as [->|Hn]; [now rewrite Eu|reflexivity].
             ++ destruct IH as (n & u' & t' & A & B & C). exists n, u', t'. rewrite Fs in A. cbn [find_field].
                destruct (list_eq_dec N.eq_dec n k) as [->|Hn]; [congruence|]. split; [exact A|]. split; [|exact C].
                destruct (bytes_eqb k n) eqn:Q; [apply bytes_eqb_iff in Q; congruence|exact B].
          -- exists k, u, t. split; [exact Eu|]. cbn [find_field]. assert (bytes_eqb k k = true) as -> by now apply bytes_eqb_iff.
             split; [reflexivity|]. unfold join_field. now rewrite Et.
      + assert (Ha' : forall n, In n (map fst gs) -> ~ In n (map fst (added ++ [(k, t)]))).
        { intros n Hn Q. rewrite map_app, in_app_iff in Q. destruct Q as [Q|[Q|[] ] ]; [apply (Ha n); auto; now right|].
          cbn in Q. subst. contradiction. }
        specialize (IH left (added ++ [(k, t)]) Hd' Ha'). destruct (merge_loop rec clash gs left (added ++ [(k, t)])) as [fs|].
        * destruct IH as (IH1 & IH2 & IH3). split; [|split].
          -- intros n. rewrite IH1, find_field_app. cbn [find_field]. destruct (bytes_eqb k n) eqn:B.
             ++ apply bytes_eqb_iff in B. subst n. rewrite Kg, Eu.
                assert (find_field k added = None) as ->; [|reflexivity]. apply find_field_none. apply Ha. now left.
             ++ destruct (find_field n left), (find_field n gs), (find_field n added); reflexivity.
          -- intros n u' t' A B. cbn [find_field] in B. destruct (bytes_eqb k n) eqn:Q; [|eapply IH2; eauto].
             apply bytes_eqb_iff in Q. subst. congruence.
          -- rewrite IH3. cbn [map fst filter]. rewrite Eu, map_app, <- !app_assoc. reflexivity.
        * destruct IH as (n & u' & t' & A & B & C). exists n, u', t'. split; [exact A|]. split; [|exact C].
          cbn [find_field]. destruct (bytes_eqb k n) eqn:Q; [|exact B]. apply bytes_eqb_iff in Q. subst. congruence.
  Qed.
End Loop.

(** * Merging *)

Lemma distinct_field : forall m fs n t, distinct (TRecord m fs) -> find_field n fs = Some t -> distinct t.
Proof.
  intros m fs n t D E. apply distinct_record in D. destruct D as [_ D]. apply find_field_in in E.
  now apply (proj1 (Forall_forall _ _) D (n, t)).
Qed.
Lemma blocked_field : forall m m' fs gs n ns u t, find_field n fs = Some u -> find_field n gs = Some t ->
  blocked u t ns -> blocked (TRecord m fs) (TRecord m' gs) (n :: ns).
Proof.
  intros m m' fs gs n ns u t A B (b & a & u' & t' & E & G1 & G2 & C). exists (n :: b), a, u', t'.
  split; [now rewrite E|]. rewrite !get_cons, A, B. auto.
Qed.
Lemma blocked_here : forall u t ns, clashing u t -> blocked u t ns.
Proof. intros u t ns C. exists [], ns, u, t. repeat split; auto; apply C. Qed.
Lemma ty_eqb_neq : forall u t, ty_eqb u t = false -> u <> t.
Proof. intros u t H ->. assert (ty_eqb t t = true) by now apply ty_eqb_eq. congruence. Qed.
Lemma clashing_types : forall u t, ty_eqb u t = false -> is_record u && is_record t = false -> clashing u t.
Proof. intros u t A B. split; [now apply ty_eqb_neq|]. apply andb_false_iff. exact B. Qed.
Lemma record_ns : forall m fs ns u, leaf_of (TRecord m fs) ns u -> exists n ns', ns = n :: ns'.
Proof. intros m fs [|n ns] u [A B]; [|eauto]. injection A as <-. discriminate. Qed.

Definition preferred (p : policy) (lhs rhs : ty) : ty := match p with prefer_left => lhs | prefer_right => rhs end.
Definition unpreferred (p : policy) (lhs rhs : ty) : ty := match p with prefer_left => rhs | prefer_right => lhs end.

Lemma priority_merge_spec : forall p rhs lhs, is_record lhs = true -> is_record rhs = true -> distinct lhs -> distinct rhs ->
  exists r, priority_merge lhs rhs p = Some r /\ is_record r = true /\
    (forall ns u, leaf_of (preferred p lhs rhs) ns u -> leaf_of r ns u) /\
    (forall ns u, leaf_of (unpreferred p lhs rhs) ns u -> leaf_of r ns u \/ blocked lhs rhs ns) /\
    (forall ns u, leaf_of r ns u -> leaf_of lhs ns u \/ leaf_of rhs ns u).
Proof.
  intros p. unfold priority_merge. induction rhs as [|m|m b|m fs|m t IH|m k v IH1 IH2|m gs IH|m t IH] using ty_rect';
    intros lhs Rl Rr Dl Dr; try discriminate Rr.
  destruct lhs as [| | | | | |m0 fs|]; try discriminate Rl. cbn [priority_merge_into].
  set (clash := fun u t : ty => Some match p with prefer_left => u | prefer_right => t end).
  assert (Dg := proj1 (distinct_record _ _) Dr).
  assert (S := merge_loop_spec (priority_merge_into p) clash gs fs [] (proj1 Dg) (fun _ _ q => q)).
  assert (J : forall n u t, find_field n fs = Some u -> find_field n gs = Some t ->
    exists v, join_field (priority_merge_into p) clash u t = Some v /\
      (forall ns w, leaf_of (preferred p u t) ns w -> leaf_of v ns w) /\
      (forall ns w, leaf_of (unpreferred p u t) ns w -> leaf_of v ns w \/ blocked u t ns) /\
      (forall ns w, leaf_of v ns w -> leaf_of u ns w \/ leaf_of t ns w)).
  { intros n u t Eu Et. unfold join_field. destruct (ty_eqb u t) eqn:Q.
    - apply ty_eqb_eq in Q. subst t. exists u. split; [reflexivity|]. destruct p; cbn [preferred unpreferred]; auto.
    - destruct (is_record u && is_record t) eqn:R.
      + apply andb_true_iff in R. destruct R as [R1 R2].
        destruct (proj1 (Forall_forall _ _) IH (n, t) (find_field_in _ _ _ Et) u R1 R2
          (distinct_field _ _ _ _ Dl Eu) (distinct_field _ _ _ _ Dr Et)) as (r & E & _ & A). exists r. auto.
      + exists (preferred p u t). split; [unfold clash; now destruct p|]. split; [auto|]. split.
        * intros ns w _. right. apply blocked_here. now apply clashing_types.
        * destruct p; cbn [preferred]; auto. }
  destruct (merge_loop (priority_merge_into p) clash gs fs []) as [rs|].
  2:{ destruct S as (n & u & t & A & B & C). destruct (J n u t A B) as (v & V & _). congruence. }
  destruct S as (F & _ & _). cbn [option_map]. eexists. split; [reflexivity|]. split; [reflexivity|]. split; [|split].
  - intros ns w L. assert (exists n ns', ns = n :: ns') as (n & ns' & ->) by (destruct p; now apply record_ns in L).
    unfold leaf_of in *. rewrite get_cons, F. destruct (find_field n fs) as [u|] eqn:Eu, (find_field n gs) as [t|] eqn:Et.
    + destruct (J n u t Eu Et) as (v & -> & A & _). apply A. unfold leaf_of. destruct p; cbn [preferred] in *; rewrite get_cons, ?Eu, ?Et in L; exact L.
    + destruct p; cbn [preferred] in L; rewrite get_cons, ?Eu, ?Et in L; [exact L|now destruct L].
    + destruct p; cbn [preferred] in L; rewrite get_cons, ?Eu, ?Et in L; [now destruct L|exact L].
    + destruct p; cbn [preferred] in L; rewrite get_cons, ?Eu, ?Et in L; now destruct L.
  - intros ns w L. assert (exists n ns', ns = n :: ns') as (n & ns' & ->) by (destruct p; now apply record_ns in L).
    unfold leaf_of in *. rewrite get_cons, F. destruct (find_field n fs) as [u|] eqn:Eu, (find_field n gs) as [t|] eqn:Et.
    + destruct (J n u t Eu Et) as (v & -> & _ & A & _).
      destruct (A ns' w) as [A'|A']; [unfold leaf_of; destruct p; cbn [unpreferred] in *; rewrite get_cons, ?Eu, ?Et in L; exact L|now left|].
      right. eapply blocked_field; eauto.
    + left. destruct p; cbn [unpreferred] in L; rewrite get_cons, ?Eu, ?Et in L; [now destruct L|exact L].
    + left. destruct p; cbn [unpreferred] in L; rewrite get_cons, ?Eu, ?Et in L; [exact L|now destruct L].
    + left. destruct p; cbn [unpreferred] in L; rewrite get_cons, ?Eu, ?Et in L; now destruct L.
  - intros ns w L. destruct (record_ns _ _ _ _ L) as (n & ns' & ->). unfold leaf_of in *. rewrite get_cons, F in L. rewrite !get_cons.
    destruct (find_field n fs) as [u|] eqn:Eu, (find_field n gs) as [t|] eqn:Et; auto.
    destruct (J n u t Eu Et) as (v & V & _ & _ & A). rewrite V in L. exact (A ns' w L).
Qed.

Lemma merge_spec : forall rhs lhs, is_record lhs = true -> is_record rhs = true -> distinct lhs -> distinct rhs ->
  match merge lhs rhs with
  | Some r => is_record r = true /\ (forall ns u, leaf_of r ns u <-> leaf_of lhs ns u \/ leaf_of rhs ns u) /\
              (forall ns, ~ blocked lhs rhs ns)
  | None => exists ns, blocked lhs rhs ns
  end.
Proof.
  unfold merge. induction rhs as [|m|m b|m fs|m t IH|m k v IH1 IH2|m gs IH|m t IH] using ty_rect';
    intros lhs Rl Rr Dl Dr; try discriminate Rr.
  destruct lhs as [| | | | | |m0 fs|]; try discriminate Rl. cbn [merge_into].
  set (clash := fun _ _ : ty => @None ty).
  assert (Dg := proj1 (distinct_record _ _) Dr).
  assert (S := merge_loop_spec merge_into clash gs fs [] (proj1 Dg) (fun _ _ q => q)).
  assert (J : forall n u t, find_field n fs = Some u -> find_field n gs = Some t ->
    match join_field merge_into clash u t with
    | Some v => (forall ns w, leaf_of v ns w <-> leaf_of u ns w \/ leaf_of t ns w) /\ (forall ns, ~ blocked u t ns)
    | None => exists ns, blocked u t ns
    end).
  { intros n u t Eu Et. unfold join_field. destruct (ty_eqb u t) eqn:Q.
    - apply ty_eqb_eq in Q. subst t. split; [intuition|]. intros ns (b & a & x & y & _ & G1 & G2 & C). destruct C as [C _]. congruence.
    - destruct (is_record u && is_record t) eqn:R.
      + apply andb_true_iff in R. destruct R as [R1 R2].
        assert (A := proj1 (Forall_forall _ _) IH (n, t) (find_field_in _ _ _ Et) u R1 R2
          (distinct_field _ _ _ _ Dl Eu) (distinct_field _ _ _ _ Dr Et)). cbn [snd] in A.
        destruct (merge_into t u); [exact (proj2 A)|exact A].
      + exists []. apply blocked_here. now apply clashing_types. }
  destruct (merge_loop merge_into clash gs fs []) as [rs|]; cbn [option_map].
  2:{ destruct S as (n & u & t & A & B & C). specialize (J n u t A B). rewrite C in J. destruct J as [ns J].
      exists (n :: ns). eapply blocked_field; eauto. }
  destruct S as (F & NN & _). split; [reflexivity|]. split.
  - intros ns w. destruct ns as [|n ns].
    { split; [intros [A B]; injection A as <-; discriminate|]. intros [ [A B] | [A B] ]; injection A as <-; discriminate. }
    unfold leaf_of. rewrite !get_cons, F. destruct (find_field n fs) as [u|] eqn:Eu, (find_field n gs) as [t|] eqn:Et.
    + specialize (J n u t Eu Et). assert (Hn := NN n u t Eu Et). destruct (join_field merge_into clash u t) as [v|]; [|now elim Hn].
      exact (proj1 J ns w).
    + split; [auto|]. intros [A|[A _] ]; [exact A|discriminate A].
    + split; [auto|]. intros [ [A _] |A]; [discriminate A|exact A].
    + split; [auto|]. intros [A|A]; exact A.
  - intros ns (b & a & x & y & E & G1 & G2 & C). destruct b as [|n b].
    + injection G1 as <-. injection G2 as <-. destruct C as [_ [C|C] ]; discriminate C.
    + rewrite get_cons in G1, G2. destruct (find_field n fs) as [u|] eqn:Eu; [|discriminate]. destruct (find_field n gs) as [t|] eqn:Et; [|discriminate].
      specialize (J n u t Eu Et). assert (Hn := NN n u t Eu Et). destruct (join_field merge_into clash u t) as [v|]; [|now elim Hn].
      apply (proj2 J b). exists b, [], x, y. rewrite app_nil_r. auto.
Qed.

(** The order of the fields. *)
Lemma merge_names : forall m fs m' gs r, NoDup (map fst gs) ->
  merge (TRecord m fs) (TRecord m' gs) = Some r \/ (exists p, priority_merge (TRecord m fs) (TRecord m' gs) p = Some r) ->
  exists m'' rs, r = TRecord m'' rs /\ m_name m'' = [] /\
    map fst rs = map fst fs ++ filter (fun n => if in_dec (list_eq_dec N.eq_dec) n (map fst fs) then false else true) (map fst gs).
Proof.
  intros m fs m' gs r D H.
  assert (Q : forall rec clash rs, merge_loop rec clash gs fs [] = Some rs ->
    map fst rs = map fst fs ++ filter (fun n => if in_dec (list_eq_dec N.eq_dec) n (map fst fs) then false else true) (map fst gs)).
  { intros rec clash rs E. assert (S := merge_loop_spec rec clash gs fs [] D (fun _ _ q => q)). rewrite E in S.
    destruct S as (_ & _ & ->). cbn [map app]. f_equal. apply filter_ext. intros n. destruct (find_field n fs) eqn:F.
    - apply find_field_in, (in_map fst) in F. destruct (in_dec _ n (map fst fs)); [reflexivity|contradiction].
    - apply find_field_none in F. destruct (in_dec _ n (map fst fs)); [contradiction|reflexivity]. }
  unfold merge, priority_merge in H. cbn [merge_into priority_merge_into] in H. destruct H as [H|[p H] ].
  - destruct (merge_loop _ _ gs fs []) as [rs|] eqn:E; [|discriminate]. cbn [option_map] in H. injection H as <-.
    eexists _, rs. split; [reflexivity|]. split; [reflexivity|]. eapply Q; exact E.
  - destruct (merge_loop _ _ gs fs []) as [rs|] eqn:E; [|discriminate]. cbn [option_map] in H. injection H as <-.
    eexists _, rs. split; [reflexivity|]. split; [reflexivity|]. eapply Q; exact E.
Qed.

(** Attributes. *)
Definition attr_of (key : list N) (attrs : list (list N * option (list N))) : option (option (list N)) :=
  option_map snd (List.find (fun a => if list_eq_dec N.eq_dec (fst a) key then true else false) attrs).
Lemma update_attr_spec : forall attrs x key, attr_of key (update_attr attrs x) =
  if list_eq_dec N.eq_dec (fst x) key then Some (snd x) else attr_of key attrs.
Proof.
  intros attrs [k v] key. unfold attr_of. cbn [fst snd]. induction attrs as [|[a w] attrs IH].
  - cbn [update_attr List.find fst]. now destruct (list_eq_dec N.eq_dec k key).
  - cbn [update_attr fst snd]. destruct (bytes_eqb a k) eqn:B.
    + apply bytes_eqb_iff in B. subst a. cbn [List.find fst]. now destruct (list_eq_dec N.eq_dec k key).
    + cbn [List.find fst]. destruct (list_eq_dec N.eq_dec a key) as [->|E]; [|exact IH].
      destruct (list_eq_dec N.eq_dec k key) as [->|]; [|reflexivity].
      assert (bytes_eqb key key = true) by now apply bytes_eqb_iff. congruence.
Qed.
Lemma update_attrs_spec : forall xs attrs key, NoDup (map fst xs) -> attr_of key (update_attrs attrs xs) =
  match attr_of key xs with Some v => Some v | None => attr_of key attrs end.
Proof.
  unfold update_attrs. induction xs as [|[k v] xs IH]; intros attrs key D; [reflexivity|]. inversion D as [|? ? A B]; subst.
  cbn [fold_left]. rewrite IH by exact B. rewrite update_attr_spec. cbn [fst snd]. unfold attr_of at 3. cbn [List.find fst].
  destruct (list_eq_dec N.eq_dec k key) as [->|E]; [|reflexivity]. cbn [option_map snd].
  assert (attr_of key xs = None) as ->; [|reflexivity]. unfold attr_of. destruct (List.find _ xs) as [[a w]|] eqn:F; [|reflexivity].
  exfalso. apply List.find_some in F. destruct F as [F1 F2]. cbn [fst] in F2. destruct (list_eq_dec N.eq_dec a key) as [->|]; [|discriminate].
  apply A. now apply (in_map fst) in F1.
Qed.

(** * Subsets *)

(** No record of a type is hidden behind aliases. *)
Fixpoint unaliased (t : ty) : bool :=
  match t with
  | TRecord _ fs => forallb (fun f => unaliased (snd f)) fs
  | TAlias _ v => negb (is_record (strip v))
  | _ => true
  end.
Lemma shape_strip : forall t, shape_of t = shape_of (strip t).
Proof. induction t as [| | | | | | |m t IH] using ty_rect'; try reflexivity. exact IH. Qed.
Lemma strip_alias : forall t m v, strip t <> TAlias m v.
Proof. induction t as [| | | | | | |m t IH] using ty_rect'; intros m' v; try discriminate. exact (IH m' v). Qed.

Lemma is_subset_spec : forall x y, distinct x -> unaliased y = true ->
  (is_subset x y = true <->
   forall ns u, get x ns = Some u -> exists t, get y ns = Some t /\ (is_record u = true /\ is_record t = true \/ congruent u t = true)).
Proof.
  induction x as [|m|m b|m es|m t IH|m k v IH1 IH2|m fs IH|m t IH] using ty_rect'; intros y Dx Ny;
    try (cbn [is_subset]; split;
      [intros H [|n ns] u G; [injection G as <-; exists y; split; [reflexivity|now right]|discriminate G]
      |intros H; destruct (H [] _ eq_refl) as (t' & G & [ [Q _] |C]); [discriminate Q|injection G as <-; exact C] ]).
  assert (NR : is_record y = false -> congruent (TRecord m fs) y = false).
  { intros R. destruct y as [| | | | | |m' gs|m' w]; try reflexivity; [discriminate R|].
    destruct (congruent (TRecord m fs) (TAlias m' w)) eqn:C; [|reflexivity]. exfalso.
    apply congruent_shape in C. revert C. cbn [unaliased] in Ny. change (shape_of (TAlias m' w)) with (shape_of w). rewrite (shape_strip w).
    destruct (strip w) eqn:Q; try discriminate. now apply strip_alias in Q. }
  destruct (is_record y) eqn:R.
  2:{ assert (is_subset (TRecord m fs) y = congruent (TRecord m fs) y) as -> by (destruct y; try reflexivity; discriminate R).
      rewrite NR by reflexivity. split; [discriminate|]. intros H. destruct (H [] _ eq_refl) as (t' & G & [ [_ Q] |C]).
      - injection G as <-. congruence.
      - injection G as <-. rewrite NR in C by reflexivity. discriminate C. }
  destruct y as [| | | | | |m' gs|]; try discriminate R. clear R NR. cbn [is_subset]. rewrite forallb_forall.
  assert (D := proj1 (distinct_record _ _) Dx). destruct D as [D1 D2].
  rewrite Forall_forall in IH, D2. cbn [unaliased] in Ny. rewrite forallb_forall in Ny. split.
  - intros H [|n ns] u G.
    + injection G as <-. eexists. split; [reflexivity|]. now left.
    + rewrite get_cons in *. destruct (find_field n fs) as [a|] eqn:Ea; [|discriminate].
      assert (Ia := find_field_in _ _ _ Ea). specialize (H _ Ia). cbn [fst snd] in H.
      destruct (find_field n gs) as [b|] eqn:Eb; [|discriminate].
      exact (proj1 (IH _ Ia b (D2 _ Ia) (Ny _ (find_field_in _ _ _ Eb))) H ns u G).
  - intros H [n a] Ia. cbn [fst snd]. assert (Ea := in_find_field _ _ _ D1 Ia).
    assert (H' : forall ns u, get a ns = Some u -> exists t, get (TRecord m' gs) (n :: ns) = Some t /\
      (is_record u = true /\ is_record t = true \/ congruent u t = true)).
    { intros ns u G. apply H. now rewrite get_cons, Ea. }
    destruct (find_field n gs) as [b|] eqn:Eb.
    + apply (IH _ Ia b (D2 _ Ia) (Ny _ (find_field_in _ _ _ Eb))). intros ns u G. destruct (H' ns u G) as (t & T & C).
      rewrite get_cons, Eb in T. eauto.
    + destruct (H' [] _ eq_refl) as (t & T & _). rewrite get_cons, Eb in T. discriminate.
Qed.

(** * Checking values *)

(** A value conforms to a type: null conforms to everything, elements conform to the
    element types, and records have the fields of the type in order. *)
Inductive conforms : ty -> data -> Prop :=
| conforms_null : forall t, conforms t DNone
| conforms_any : forall t d, t = TNull \/ (exists m, t = TNone m) -> conforms t d
| conforms_bool : forall m b, conforms (TBasic m BBool) (DBool b)
| conforms_int : forall m z, conforms (TBasic m BInteger) (DInt z)
| conforms_count : forall m n, conforms (TBasic m BCount) (DCount n)
| conforms_real : forall m n, conforms (TBasic m BReal) (DReal n)
| conforms_duration : forall m z, conforms (TBasic m BDuration) (DDuration z)
| conforms_time : forall m z, conforms (TBasic m BTime) (DTime z)
| conforms_string : forall m s, conforms (TBasic m BString) (DString s)
| conforms_pattern : forall m s, conforms (TBasic m BPattern) (DPattern s)
| conforms_address : forall m a, conforms (TBasic m BAddress) (DAddress a)
| conforms_subnet : forall m s, conforms (TBasic m BSubnet) (DSubnet s)
| conforms_enum : forall m fs e s, nth_error fs (N.to_nat e) = Some s -> conforms (TEnum m fs) (DEnum e)
| conforms_list : forall m t xs, (forall x, In x xs -> conforms t x) -> conforms (TList m t) (DList xs)
| conforms_map : forall m k v xs, (forall a b, In (a, b) xs -> conforms k a /\ conforms v b) -> conforms (TMap m k v) (DMap xs)
| conforms_record : forall m fs xs, Forall2 (fun f x => fst f = fst x /\ conforms (snd f) (snd x)) fs xs ->
    conforms (TRecord m fs) (DRecord xs)
| conforms_alias : forall m t d, conforms t d -> conforms (TAlias m t) d.

(** A value without the elements of lists and maps after the first. *)
Fixpoint heads (d : data) : data :=
  match d with
  | DList (x :: _) => DList [heads x]
  | DMap ((a, b) :: _) => DMap [(heads a, heads b)]
  | DRecord xs => DRecord (map (fun p => (fst p, heads (snd p))) xs)
  | _ => d
  end.

Lemma type_check_spec : forall t d, type_check t d = true <-> conforms t (heads d).
Proof.
  induction t as [|m|m b|m es|m t IH|m k v IH1 IH2|m fs IH|m t IH] using ty_rect'; intros d.
  - split; [intros _; apply conforms_any; now left|]. now destruct d.
  - split; [intros _; apply conforms_any; right; eauto|]. now destruct d.
  - destruct d as [| | | | | | | | | | | |[|x xs]|[|[x y] xs]|xs]; destruct b; cbn [type_check heads]; split; intros H;
      try reflexivity; try discriminate H; try solve [constructor]; try (inversion H; subst; match goal with Q : _ \/ _ |- _ => destruct Q as [Q|[? Q] ]; discriminate Q end).
  - destruct d as [| | | | | | | | | | |e|[|x xs]|[|[x y] xs]|xs]; cbn [type_check heads]; split; intros H;
      try reflexivity; try discriminate H; try apply conforms_null;
      try (inversion H; subst; match goal with Q : _ \/ _ |- _ => destruct Q as [Q|[? Q] ]; discriminate Q end).
    + apply N.ltb_lt in H. destruct (nth_error es (N.to_nat e)) as [s|] eqn:E; [now apply conforms_enum with s|].
      apply nth_error_None in E. lia.
    + apply N.ltb_lt. inversion H as [|? ? Q| | | | | | | | | | |? ? ? s E| | | |]; subst; [destruct Q as [Q|[? Q] ]; discriminate Q|].
      assert (N.to_nat e < length es) by (apply nth_error_Some; congruence). lia.
  - destruct d as [| | | | | | | | | | |e|[|x xs]|[|[x y] xs]|xs]; cbn [type_check heads]; split; intros H;
      try reflexivity; try discriminate H; try apply conforms_null;
      try (inversion H; subst; match goal with Q : _ \/ _ |- _ => destruct Q as [Q|[? Q] ]; discriminate Q end).
    + apply conforms_list. intros x [].
    + apply conforms_list. intros y [<-|[] ]. now apply IH.
    + inversion H as [|? ? Q| | | | | | | | | | | |? ? ? A| | |]; subst; [destruct Q as [Q|[? Q] ]; discriminate Q|].
      apply IH, A. now left.
  - destruct d as [| | | | | | | | | | |e|[|x xs]|[|[x y] xs]|xs]; cbn [type_check heads]; split; intros H;
      try reflexivity; try discriminate H; try apply conforms_null;
      try (inversion H; subst; match goal with Q : _ \/ _ |- _ => destruct Q as [Q|[? Q] ]; discriminate Q end).
    + apply conforms_map. intros a b [].
    + apply andb_true_iff in H. destruct H as [A B]. apply conforms_map. intros a b [E|[] ]. injection E as <- <-.
      split; [now apply IH1|now apply IH2].
    + apply andb_true_iff. inversion H as [|? ? Q| | | | | | | | | | | | |? ? ? ? A| |]; subst; [destruct Q as [Q|[? Q] ]; discriminate Q|].
      destruct (A _ _ (or_introl eq_refl)) as [A1 A2]. split; [now apply IH1|now apply IH2].
  - destruct d as [| | | | | | | | | | |e|[|x xs]|[|[x y] xs]|xs]; cbn [heads];
      [cbn [type_check]; split; intros H;
      try reflexivity; try discriminate H; try apply conforms_null;
      try (inversion H; subst; match goal with Q : _ \/ _ |- _ => destruct Q as [Q|[? Q] ]; discriminate Q end) .. |].
    assert (G : type_check (TRecord m fs) (DRecord xs) = true <->
      Forall2 (fun f x => fst f = fst x /\ conforms (snd f) (snd x)) fs (map (fun p => (fst p, heads (snd p))) xs)).
    { cbn [type_check]. revert xs. induction IH as [|[n t] fs A _ IHf]; intros [|[k x] xs]; cbn [map fst snd].
      - split; [constructor|reflexivity].
      - split; [discriminate|intros Q; inversion Q].
      - split; [discriminate|intros Q; inversion Q].
      - rewrite !andb_true_iff, bytes_eqb_iff, (IHf xs). cbn [snd] in A. rewrite (A x). split.
        + intros [ [B C] D]. constructor; auto.
        + intros Q. inversion Q as [|? ? ? ? [B C] D]; subst. auto. }
    rewrite G. split; [apply conforms_record|]. intros H.
    inversion H as [|? ? Q| | | | | | | | | | | | | |? ? ? A|]; subst; [destruct Q as [Q|[? Q] ]; discriminate Q|exact A].
  - assert (E : type_check (TAlias m t) d = type_check t d) by (destruct d; try reflexivity; destruct t; reflexivity). rewrite E, IH.
    split; [apply conforms_alias|]. intros H. inversion H as [|? ? Q| | | | | | | | | | | | | | |]; subst; [apply conforms_null|destruct Q as [Q|[? Q] ]; discriminate Q|assumption].
Qed.
