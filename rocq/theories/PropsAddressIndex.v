(** C11: lookups in address and subnet indexes agree with direct evaluation. *)
From Coq Require Import List ZArith NArith Lia Bool ZifyBool ZifyNat ZifyN.
From Verif Require Import NBits WordProofs OperatorModel BitmapOps CoderModel CoderProofs ValueIndexModel ValueIndexProofs PropsIndex
  SelProofs AddressModel AddressProofs PropsAddress AddressIndexModel AddressIndexProofs SubnetIndexProofs.
Import ListNotations.
Open Scope N_scope.

(** Direct evaluation of a predicate on an address or a subnet
    ([evaluate_view], view.cpp:284-325, with [contains_predicate],
    view.cpp:242-281). [None] is a failed assertion or a combination of types
    and operators that this property does not cover. *)
Definition evaluate_address (op : relop) (v : address) (x : ip_operand) : option bool :=
  match op, x with
  | op_eq, Ip a => Some (bytes_eqb v a)
  | op_ne, Ip a => Some (negb (bytes_eqb v a))
  | op_in, Net n => sn_contains n v
  | op_not_in, Net n => option_map negb (sn_contains n v)
  | _, _ => None
  end.
Definition evaluate_subnet (op : relop) (v : subnet) (x : ip_operand) : option bool :=
  match op, x with
  | op_eq, Net n => Some (sn_eqb v n)
  | op_ne, Net n => Some (negb (sn_eqb v n))
  | op_in, Net n => sn_includes n v
  | op_not_in, Net n => option_map negb (sn_includes n v)
  | op_ni, Ip a => sn_contains v a
  | op_not_ni, Ip a => option_map negb (sn_contains v a)
  | op_ni, Net n => sn_includes v n
  | op_not_ni, Net n => option_map negb (sn_includes v n)
  | _, _ => None
  end.

(** A lookup returns exactly the rows for which evaluation yields true; every
    row with a value has an evaluation. *)
Definition agrees {B S V X} (ops : bitmap_ops B) (content : B -> list bool) (impl : index_impl B S V X)
  (evaluate : relop -> V -> X -> option bool) (i : vindex B S) (col : list (cell V)) (op : relop) (x : X) : Prop :=
  (forall v, In (Val v) col -> evaluate op v x <> None) /\
  exists r, vi_lookup ops impl i op (Some x) = Some r /\
    content r = map (cell_matches op (fun v => match evaluate op v x with Some b => b | None => false end)) col.

Lemma agrees_intro : forall {B S V X} (ops : bitmap_ops B) content (impl : index_impl B S V X) evaluate i (col : list (cell V)) op x (f : V -> bool),
  (forall v, In (Val v) col -> evaluate op v x = Some (f v)) ->
  (exists r, vi_lookup ops impl i op (Some x) = Some r /\ content r = map (cell_result op f) col) ->
  agrees ops content impl evaluate i col op x.
Proof.
  intros B S V X ops content impl evaluate i col op x f H (r & E & C). split.
  - intros v Hv. now rewrite (H v Hv).
  - exists r. split; auto. rewrite C. apply map_ext_cells; [reflexivity|now destruct op|].
    intros v Hv. cbn [cell_result cell_matches]. now rewrite (H v Hv).
Qed.

Lemma contains_shareb : forall s a, sn_wf s -> wf a -> 0 < sn_bits s ->
  sn_contains s a = Some (shareb (N.to_nat (sn_bits s)) a (sn_net s)).
Proof.
  intros s a W A L. destruct (sn_contains_spec s a W A L) as (r & -> & R). f_equal.
  apply eq_true_iff_eq. now rewrite R, shareb_spec.
Qed.

Lemma length_bits : forall x, sn_length x <> 0 -> 0 < sn_bits x.
Proof. intros x. unfold sn_length. destruct (is_v4 (sn_net x)); lia. Qed.

Section Columns.
  Context {B : Type} (ops : bitmap_ops B) (content : B -> list bool) (laws : bitmap_laws ops content).

  Lemma address_run : forall h, (forall v, In v (values_of h) -> wf v) ->
    match column [] h with
    | None => vi_run ops (address_impl ops) (vi_new ops (ai_new ops)) h = None
    | Some col => exists i, vi_run ops (address_impl ops) (vi_new ops (ai_new ops)) h = Some i /\ VInv content (AInv content) i col
    end.
  Proof.
    intros h H. apply (run_spec ops content laws).
    - apply (VInv_new ops content laws), (AInv_new ops content laws).
    - intros v pos I. apply (address_accepts ops content laws). apply H. eapply values_of_in; eauto.
  Qed.

  Notation SN := (SNInv content (fun _ => True)).
  Lemma subnet_run : forall h, (forall v, In v (values_of h) -> sn_wf v) ->
    match column [] h with
    | None => vi_run ops (subnet_impl ops) (vi_new ops (si_new ops)) h = None
    | Some col => exists i, vi_run ops (subnet_impl ops) (vi_new ops (si_new ops)) h = Some i /\ VInv content SN i col
    end.
  Proof.
    intros h H. apply (run_spec ops content laws).
    - apply (VInv_new ops content laws), (SNInv_new ops content laws).
    - intros v pos I. apply (subnet_accepts ops content laws); auto. apply H. eapply values_of_in; eauto.
  Qed.
End Columns.

Lemma column_new : forall {V} h (col : list (cell V)) v, column [] h = Some col -> In (Val v) col -> In v (values_of h).
Proof. intros V h col v C I. destruct (column_values h [] col C v I) as [[]|H]; auto. Qed.

(** Addresses: equality, membership in a subnet of non-zero length, and
    membership in a list of addresses. *)
Theorem C11_address : forall B (ops : bitmap_ops B) content, bitmap_laws ops content ->
  forall h, (forall v, In v (values_of h) -> wf v) ->
  match column [] h with
  | None => vi_run ops (address_impl ops) (vi_new ops (ai_new ops)) h = None
  | Some col => exists i, vi_run ops (address_impl ops) (vi_new ops (ai_new ops)) h = Some i /\
      (forall op x, wf x -> In op [op_eq; op_ne] -> agrees ops content (address_impl ops) evaluate_address i col op (Ip x)) /\
      (forall op x, sn_wf x -> sn_length x <> 0 -> In op [op_in; op_not_in] ->
         agrees ops content (address_impl ops) evaluate_address i col op (Net x)) /\
      (forall xs, (forall x, In (Some x) xs -> wf x) ->
         exists r r', vi_lookup_list ops (address_impl ops) i op_in (map (option_map Ip) xs) = Some r /\
           vi_lookup_list ops (address_impl ops) i op_not_in (map (option_map Ip) xs) = Some r' /\
           content r = map (cell_in bytes_eqb xs) col /\ content r' = map (cell_not_in bytes_eqb xs) col)
  end.
Proof.
  intros B ops content laws h H. pose proof (address_run ops content laws h H) as R.
  destruct (column [] h) as [col|] eqn:C; auto. destruct R as (i & E & J). exists i. split; [exact E|].
  assert (WF : forall v, In (Val v) col -> wf v) by (intros v Hv; apply H; eapply column_new; eauto).
  split; [|split].
  - intros op x W O. assert (O' : op = op_eq \/ op = op_ne) by (cbn in O; intuition auto).
    eapply agrees_intro; [|apply (lookup_spec ops content laws _ _ i col op (Ip x) _ J (address_eq_answers ops content laws op x W O'))].
    intros v Hv. destruct O' as [-> | ->]; reflexivity.
  - intros op x W NZ O. assert (O' : op = op_in \/ op = op_not_in) by (cbn in O; intuition auto).
    eapply agrees_intro; [|apply (lookup_spec ops content laws _ _ i col op (Net x) _ J (address_in_answers ops content laws op x W NZ O'))].
    intros v Hv. destruct O' as [-> | ->]; cbn [evaluate_address relop_eqb]; now rewrite contains_shareb by (auto; now apply length_bits).
  - intros xs W.
    destruct (lookup_list_spec ops content laws (address_impl ops) (AInv content) i col
      (fun x v => match x with Ip a => bytes_eqb v a | Net _ => false end) (map (option_map Ip) xs) J) as (r & r' & E1 & E2 & C1 & C2).
    + intros x Hx. apply in_map_iff in Hx as ([a|] & Q & Ha); [|discriminate]. injection Q as <-.
      apply (address_eq_answers ops content laws op_eq a); auto.
    + assert (EX : forall v, existsb (fun x => match x with Some x => match x with Ip a => bytes_eqb v a | Net _ => false end | None => false end) (map (option_map Ip) xs)
         = existsb (fun x => match x with Some x => bytes_eqb v x | None => false end) xs).
      { clear. intros v. induction xs as [|[a|] xs IH]; cbn; auto. now rewrite IH. }
      exists r, r'. split; [exact E1|]. split; [exact E2|]. rewrite C1, C2. split; apply map_ext; intros [| |v]; try reflexivity;
      cbn; f_equal; try apply EX.
Qed.
(** 10.1.2.3, nil, a gap and 2001:db8::1. *)
Definition ip_history : list (option address * nat) := [(Some ip4_a, 0%nat); (None, 1%nat); (Some ip6_a, 3%nat)].
Example C11_address_example : (forall v, In v (values_of ip_history) -> wf v) /\ (exists col, column [] ip_history = Some col /\ length col = 4%nat) /\
  sn_wf (sn_make ip4_b 16) /\ sn_length (sn_make ip4_b 16) <> 0 /\
  exists i, vi_run list_ops (address_impl list_ops) (vi_new list_ops (ai_new list_ops)) ip_history = Some i /\
    vi_lookup list_ops (address_impl list_ops) i op_in (Some (Net (sn_make ip4_b 16))) = Some [true; false; false; false].
Proof.
  split; [intros v [<-|[<-|[] ] ]; [apply ip4_a_wf|apply ip6_a_wf]|]. split; [eexists; split; reflexivity|].
  split; [apply sn_make_wf, ip4_b_wf|]. split; [discriminate|]. eexists. split; [vm_compute; reflexivity|]. reflexivity.
Qed.

(** Membership in a subnet of length zero is an error although evaluation
    succeeds: 10.1.2.3 lies in 0.0.0.0/0. *)
Theorem C11_address_zero_length_refuted : exists h i x v, In v (values_of h) /\
  vi_run list_ops (address_impl list_ops) (vi_new list_ops (ai_new list_ops)) h = Some i /\
  sn_wf x /\ evaluate_address op_in v (Net x) = Some true /\
  vi_lookup list_ops (address_impl list_ops) i op_in (Some (Net x)) = None.
Proof.
  exists [(Some ip4_a, 0%nat)]. eexists. exists (sn_make v4_zero 0), ip4_a. split; [now left|]. split; [vm_compute; reflexivity|].
  split; [apply sn_make_wf, v4_zero_wf|]. split; reflexivity.
Qed.

(** Subnets, provided operands and rows of IPv4 and IPv6 are not mixed in the
    wrong direction and lengths are not zero. *)
Theorem C11_subnet : forall B (ops : bitmap_ops B) content, bitmap_laws ops content ->
  forall h, (forall v, In v (values_of h) -> sn_wf v) ->
  match column [] h with
  | None => vi_run ops (subnet_impl ops) (vi_new ops (si_new ops)) h = None
  | Some col => exists i, vi_run ops (subnet_impl ops) (vi_new ops (si_new ops)) h = Some i /\
      (forall op x, sn_wf x -> In op [op_eq; op_ne] -> agrees ops content (subnet_impl ops) evaluate_subnet i col op (Net x)) /\
      (forall op x, sn_wf x -> sn_length x <> 0 -> In op [op_in; op_not_in] ->
         (is_v4 (sn_net x) = false -> forall v, In (Val v) col -> is_v4 (sn_net v) = false) ->
         agrees ops content (subnet_impl ops) evaluate_subnet i col op (Net x)) /\
      (forall op x, wf x -> In op [op_ni; op_not_ni] ->
         (forall v, In (Val v) col -> 0 < sn_bits v /\ (is_v4 x = true -> is_v4 (sn_net v) = true)) ->
         agrees ops content (subnet_impl ops) evaluate_subnet i col op (Ip x)) /\
      (forall op x, sn_wf x -> sn_length x <> 0 -> In op [op_ni; op_not_ni] ->
         (forall v, In (Val v) col -> sn_length v <> 0 /\ is_v4 (sn_net v) = is_v4 (sn_net x)) ->
         agrees ops content (subnet_impl ops) evaluate_subnet i col op (Net x))
  end.
Proof.
  intros B ops content laws h H. pose proof (subnet_run ops content laws h H) as R.
  destruct (column [] h) as [col|] eqn:C; auto. destruct R as (i & E & J). exists i. split; [exact E|].
  assert (WF : forall v, In (Val v) col -> sn_wf v) by (intros v Hv; apply H; eapply column_new; eauto).
  split; [|split; [|split] ].
  - intros op x W O. assert (O' : op = op_eq \/ op = op_ne) by (cbn in O; intuition auto).
    eapply agrees_intro; [|apply (lookup_sel_spec ops content laws _ _ i col op (Net x) _ J)].
    2:{ intros vals IV L _. destruct (lookup_eq_sel ops content laws _ _ vals (length col) IV L op x W O') as (r & Q & S). exists r. split; [exact Q|]. apply sel_wsel. exact S. }
    intros v Hv. destruct O' as [-> | ->]; reflexivity.
  - intros op x W NZ O FAM. assert (O' : op = op_in \/ op = op_not_in) by (cbn in O; intuition auto).
    eapply agrees_intro; [|apply (lookup_sel_spec ops content laws _ _ i col op (Net x) _ J)].
    2:{ intros vals IV L _. destruct (lookup_in_sel ops content laws _ _ vals (length col) IV L op x W NZ O') as (r & Q & S). exists r. split; [exact Q|]. apply sel_wsel. exact S. }
    intros v Hv. pose proof (WF v Hv) as SW. cbv zeta.
    assert (Q : sn_includes x v = Some (shareb (N.to_nat (sn_bits x)) (sn_net v) (sn_net x) && (sn_length x <=? sn_length v))%bool).
    { unfold sn_includes. pose proof SW as (WV & BV & MV & V4). pose proof W as (WX & BX & MX & X4).
      assert (LE : shareb (N.to_nat (sn_bits x)) (sn_net v) (sn_net x) = true -> (sn_length x <=? sn_length v) = (sn_bits x <=? sn_bits v)).
      { rewrite shareb_spec. intros SH. unfold sn_length. destruct (is_v4 (sn_net x)) eqn:F.
        - specialize (X4 eq_refl). assert (FV : is_v4 (sn_net v) = true) by (rewrite <- F; apply (v4_share _ _ (N.to_nat (sn_bits x))); auto; lia).
          rewrite FV in *. specialize (V4 eq_refl). lia.
        - rewrite (FAM eq_refl v Hv). reflexivity. }
      destruct (N.leb_spec (sn_bits x) (sn_bits v)) as [Q|Q].
      - rewrite contains_shareb; auto; [|now apply length_bits]. f_equal.
        destruct (shareb (N.to_nat (sn_bits x)) (sn_net v) (sn_net x)) eqn:SB; auto. rewrite LE by auto. symmetry. cbn [andb]. lia.
      - f_equal. destruct (shareb (N.to_nat (sn_bits x)) (sn_net v) (sn_net x)) eqn:SB; auto. rewrite LE by auto. cbn [andb]. lia. }
    destruct O' as [-> | ->]; cbn [evaluate_subnet relop_eqb]; now rewrite Q.
  - intros op x W O FAM. assert (O' : op = op_ni \/ op = op_not_ni) by (cbn in O; intuition auto).
    eapply agrees_intro; [|apply (lookup_sel_spec ops content laws _ _ i col op (Ip x) _ J)].
    2:{ intros vals IV L IN. destruct (lookup_ni_address_sel ops content laws _ _ vals (length col) IV L op x W O') as (r & Q & S).
        - intros X4 v Hv. apply (FAM v); auto.
        - exists r. split; [exact Q|]. apply sel_wsel. exact S. }
    intros v Hv. destruct (FAM v Hv) as [P _]. destruct O' as [-> | ->]; cbn [evaluate_subnet relop_eqb]; now rewrite contains_shareb by auto.
  - intros op x W NZ O FAM. assert (O' : op = op_ni \/ op = op_not_ni) by (cbn in O; intuition auto).
    eapply agrees_intro; [|apply (lookup_sel_spec ops content laws _ _ i col op (Net x) _ J)].
    2:{ intros vals IV L IN. destruct (lookup_ni_subnet_sel ops content laws _ _ vals (length col) IV L op x W NZ O') as (r & Q & S).
        - intros v Hv. destruct (FAM v (IN v Hv)). auto.
        - exists r. split; [exact Q|]. apply sel_wsel. exact S. }
    intros v Hv. destruct (FAM v Hv) as [P _]. cbv zeta.
    assert (Q : sn_includes v x = Some ((sn_bits v <=? sn_bits x) && shareb (N.to_nat (sn_bits v)) (sn_net x) (sn_net v))%bool).
    { unfold sn_includes. destruct (sn_bits v <=? sn_bits x); auto. rewrite contains_shareb; auto; [apply W|now apply length_bits]. }
    destruct O' as [-> | ->]; cbn [evaluate_subnet relop_eqb]; now rewrite Q.
Qed.
(** 10.1.0.0/16 and 10.1.255.0/24. *)
Definition sn_history : list (option subnet * nat) := [(Some (sn_make ip4_a 16), 0%nat); (Some (sn_make ip4_b 24), 2%nat)].
Example C11_subnet_example : (forall v, In v (values_of sn_history) -> sn_wf v /\ sn_length v <> 0 /\ is_v4 (sn_net v) = true) /\
  exists i, vi_run list_ops (subnet_impl list_ops) (vi_new list_ops (si_new list_ops)) sn_history = Some i /\
    vi_lookup list_ops (subnet_impl list_ops) i op_ni (Some (Ip ip4_a)) = Some [true; false; false] /\
    vi_lookup list_ops (subnet_impl list_ops) i op_in (Some (Net (sn_make ip4_b 16))) = Some [true; false; true] /\
    vi_lookup list_ops (subnet_impl list_ops) i op_not_ni (Some (Net (sn_make ip4_b 20))) = Some [false; false; true].
Proof.
  split.
  - intros v [<-|[<-|[] ] ]; (split; [apply sn_make_wf; apply ip4_a_wf || apply ip4_b_wf|]; split; [discriminate|reflexivity]).
  - eexists. split; [vm_compute; reflexivity|]. repeat split; vm_compute; reflexivity.
Qed.

(** * Where lookup and evaluation disagree *)

(** A row [v], an operator and an operand for which evaluation says [true] and a
    lookup in the index of just that row does not return it. *)
Definition misses (v : subnet) (op : relop) (x : ip_operand) : Prop :=
  sn_wf v /\ evaluate_subnet op v x = Some true /\
  exists i r, vi_run list_ops (subnet_impl list_ops) (vi_new list_ops (si_new list_ops)) [(Some v, 0%nat)] = Some i /\
    vi_lookup list_ops (subnet_impl list_ops) i op (Some x) = Some r /\ nth 0 r false = false.

(** The IPv4 subnet 10.0.0.0/8 lies in the IPv6 subnet ::/64, but the index
    compares the lengths 8 and 64. *)
Theorem C11_subnet_in_refuted : exists v x, sn_wf x /\ misses v op_in (Net x).
Proof.
  exists (sn_make ip4_a 8), (sn_make zero_address 64). split; [apply sn_make_wf, zero_wf|].
  split; [apply sn_make_wf, ip4_a_wf|]. split; [reflexivity|]. eexists. eexists. split; [vm_compute; reflexivity|].
  split; vm_compute; reflexivity.
Qed.

(** The IPv6 subnet ::/64 contains the address 10.1.2.3. *)
Theorem C11_subnet_ni_address_refuted : exists v x, wf x /\ misses v op_ni (Ip x).
Proof.
  exists (sn_make zero_address 64), ip4_a. split; [apply ip4_a_wf|].
  split; [apply sn_make_wf, zero_wf|]. split; [reflexivity|]. eexists. eexists. split; [vm_compute; reflexivity|].
  split; vm_compute; reflexivity.
Qed.

(** 0.0.0.0/0 contains 10.1.0.0/16, but the loop starts with length one. *)
Theorem C11_subnet_ni_zero_refuted : exists v x, sn_wf x /\ is_v4 (sn_net v) = is_v4 (sn_net x) /\ misses v op_ni (Net x).
Proof.
  exists (sn_make v4_zero 0), (sn_make ip4_a 16). split; [apply sn_make_wf, ip4_a_wf|]. split; [reflexivity|].
  split; [apply sn_make_wf, v4_zero_wf|]. split; [reflexivity|]. eexists. eexists. split; [vm_compute; reflexivity|].
  split; vm_compute; reflexivity.
Qed.

(** 10.1.0.0/16 does not contain 0.0.0.0/0, but the complement of the empty
    result is empty. *)
Theorem C11_subnet_not_ni_zero_refuted : exists v x, sn_wf x /\ is_v4 (sn_net v) = is_v4 (sn_net x) /\ misses v op_not_ni (Net x).
Proof.
  exists (sn_make ip4_a 16), (sn_make v4_zero 0). split; [apply sn_make_wf, v4_zero_wf|]. split; [reflexivity|].
  split; [apply sn_make_wf, ip4_a_wf|]. split; [reflexivity|]. eexists. eexists. split; [vm_compute; reflexivity|].
  split; vm_compute; reflexivity.
Qed.

Definition assumptions_address_index := (C11_address, C11_address_zero_length_refuted, C11_subnet, C11_subnet_in_refuted,
  C11_subnet_ni_address_refuted, C11_subnet_ni_zero_refuted, C11_subnet_not_ni_zero_refuted).
Print Assumptions assumptions_address_index.
