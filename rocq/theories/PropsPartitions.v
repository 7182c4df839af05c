(** Theorems about the life of partitions: what queries see (C29), what survives a restart
    (C49), what erasing does (C50), and how large partitions get (C51). *)
From Coq Require Import List Bool Arith Lia Permutation ZifyBool ZifyNat.
From Verif Require Import IndexModel IndexProofs IndexMore.
Import ListNotations.
Open Scope nat_scope.

(** The synopsis of a partition never denies a partition with a matching slice (C18, C19
    for the code). *)
Definition sound {Q : Type} (hits : Q -> nat * nat -> bool) (look : Q -> list (nat * nat) -> bool) : Prop :=
  forall q c x, In x c -> hits q x = true -> look q c = true.
(** Reachable in any order of imports, deliveries, writes, replies, queries, erasures,
    shutdowns and restarts, where nobody asks to erase a partition twice or before it is
    registered (see [C50_erase_twice_refuted]). *)
Notation reachable look capacity st := (reach look capacity st).

(** * C29: no event is invisible to queries *)

(** No assertion fails. *)
Theorem C29_no_assertion : forall (Q : Type) hits look capacity (st : idx Q) o, sound hits look -> reachable look capacity st -> ok_op st o ->
  istep look capacity st o <> None.
Proof.
  intros Q hits look capacity st o L R O. destruct (inv_step hits look capacity L st o (reach_inv hits look capacity L st R) O) as (st' & E & _). congruence.
Qed.

(** Every slice that came in belongs to exactly one partition. *)
Theorem C29_exactly_once : forall (Q : Type) hits look capacity (st : idx Q), sound hits look -> reachable look capacity st ->
  Permutation (g_in st) (flat_map (assigned st) (seq 0 (x_next st))) /\
  (NoDup (g_in st) -> forall x, In x (g_in st) -> exists! id, In x (assigned st id)) /\
  (forall x id, In x (assigned st id) -> In x (g_in st)).
Proof.
  intros Q hits look capacity st L R. pose proof (reach_inv hits look capacity L st R) as V.
  assert (P : Permutation (g_in st) (flat_map (assigned st) (seq 0 (x_next st)))).
  { eapply Permutation_trans; [apply (i_total hits capacity st V)|]. unfold total. destruct (x_active st) as [[a cap]|] eqn:A.
    - rewrite Permutation_app_comm. symmetry. apply flat_map_change with (a := a); [now apply (next_active hits capacity st a cap)| |].
      + intros i N. unfold assigned. rewrite (not_feeding hits capacity st i V); [now rewrite app_nil_r|]. intros c E. rewrite A in E. injection E as <- <-. contradiction.
      + unfold assigned. destruct (active_feeding hits capacity st a cap V A) as [_ ->]. now rewrite app_assoc.
    - rewrite (i_central hits capacity st V A). cbn [app]. erewrite flat_map_same; [apply Permutation_refl|]. intros i _. unfold assigned. cbn.
      rewrite (not_feeding hits capacity st i V) by (intros c E; congruence). now rewrite app_nil_r. }
  assert (Z : forall x id, In x (assigned st id) -> id < x_next st).
  { intros x id H. destruct (le_lt_dec (x_next st) id) as [G|G]; [|exact G]. apply (progress_fresh hits capacity st id V) in G.
    pose proof (i_views hits capacity st V id) as W. unfold ok_view in W. simpl_view. rewrite G in W. destruct W as (W1 & _ & _ & W2 & W3 & _). unfold assigned in H. rewrite W1, W2, W3 in H. destruct H. }
  split; [exact P|]. split.
  - intros N x H. assert (H' := Permutation_in x P H). apply in_flat_map in H' as (id & H1 & H2). exists id. split; [exact H2|].
    intros j H3. specialize (Z x j H3) as Zj. assert (N' : NoDup (flat_map (assigned st) (seq 0 (x_next st)))) by (eapply Permutation_NoDup; eauto).
    clear - N' H1 H2 H3 Zj. assert (Hj : In j (seq 0 (x_next st))) by (apply in_seq; lia). pose proof (seq_NoDup (x_next st) 0) as M.
    induction (seq 0 (x_next st)) as [|i l IH]; [contradiction|]. cbn [flat_map] in N'. inversion M as [|? ? M1 M2]; subst.
    assert (D : forall y, In y (assigned st i) -> ~ In y (flat_map (assigned st) l)).
    { clear - N'. induction (assigned st i) as [|z zs IHz]; intros y [].
      - subst. cbn in N'. inversion N'; subst. intros K. apply H1. apply in_or_app. now right.
      - apply IHz; [|exact H]. cbn in N'. now inversion N'. }
    assert (N2 : NoDup (flat_map (assigned st) l)).
    { clear - N'. induction (assigned st i) as [|z zs IHz]; [exact N'|]. apply IHz. cbn in N'. now inversion N'. }
    destruct H1 as [<-|H1], Hj as [<-|Hj]; auto.
    + exfalso. apply (D x H2). apply in_flat_map. eauto.
    + exfalso. apply (D x H3). apply in_flat_map. eauto.
  - intros x id H. apply (Permutation_in x (Permutation_sym P)). apply in_flat_map. exists id. split; [|exact H]. apply in_seq. specialize (Z x id H). lia.
Qed.

(** A step other than a restart only adds what is imported to the active partition, and
    leaves present partitions present unless they are erased. *)
Theorem C29_keeps : forall (Q : Type) hits look capacity (st st' : idx Q) o id, sound hits look -> reachable look capacity st -> ok_op st o ->
  istep look capacity st o = Some st' -> o <> Reload ->
  (exists more, assigned st' id = assigned st id ++ more /\ (more <> [] -> exists s cap, o = Import s /\ more = [s] /\ x_active st' = Some (id, cap))) /\
  (o <> Erase id -> present st id -> ~ erasing st id -> present st' id /\ ~ erasing st' id).
Proof.
  intros Q hits look capacity st st' o id L R O E N. pose proof (reach_inv hits look capacity L st R) as V.
  assert (V' : inv hits capacity st') by (apply (reach_inv hits look capacity L); eapply reach_step; eauto).
  split; [now apply (step_assigned hits look capacity st o st' V E N id)|]. intros Ne Pr Er.
  rewrite (present_iff hits capacity st id V) in Pr. rewrite (erasing_iff hits capacity st id V) in Er.
  rewrite (present_iff hits capacity st' id V'), (erasing_iff hits capacity st' id V').
  destruct (step_follows hits look capacity st o st' id V O E N) as [F1 F2]. unfold follows in F1.
  assert (X : p_progress (x_parts st' id) <> Erasing) by (intros X; apply Ne; auto). split; [|exact X].
  destruct F1 as [->|F1]; [exact Pr|]. destruct (p_progress (x_parts st id)), (p_progress (x_parts st' id)); cbn in *; auto; try contradiction; try discriminate; congruence.
Qed.

(** The candidates of a query are distinct, and include each partition that was to hold a
    matching slice when the query started, unless it is being erased. *)
Theorem C29_candidates : forall (Q : Type) hits look capacity (st : idx Q) k q first cands, sound hits look -> reachable look capacity st ->
  nth_error (x_lookups st) k = Some (q, first) -> x_found st k = Some cands ->
  NoDup cands /\
  forall id x, In x (g_then st k id) -> hits q x = true ->
    In x (assigned st id) /\ (present st id -> ~ erasing st id -> In id cands).
Proof.
  intros Q hits look capacity st k q first cands L R K F. pose proof (reach_inv hits look capacity L st R) as V.
  pose proof (i_lookups hits capacity st V k) as O. unfold ok_lookup in O. rewrite K in O. destruct O as [O1 O2]. destruct (O1 cands F) as [N1 N2].
  split; [exact N1|]. intros id x H1 H2. destruct (O2 id x H1) as [O3 O4]. split; [exact O3|]. intros Pr Er.
  rewrite (present_iff hits capacity st id V) in Pr. rewrite (erasing_iff hits capacity st id V) in Er.
  destruct O4 as [O4|[O4|(_ & _ & O4)]]; [|now apply N2|now apply O4].
  destruct (p_progress (x_parts st id)); try discriminate. now destruct Er.
Qed.

(** Each partition with content is present, or it has been erased: nothing else takes it
    away. So what was there when a query started is there when it gets its candidates. *)
Theorem C29_present : forall (Q : Type) hits look capacity (st : idx Q) id, sound hits look -> reachable look capacity st -> assigned st id <> [] ->
  present st id \/ In id (x_unlink st) \/ x_file st id = None.
Proof.
  intros Q hits look capacity st id L R A. pose proof (reach_inv hits look capacity L st R) as V. pose proof (i_views hits capacity st V id) as W.
  rewrite (present_iff hits capacity st id V). unfold ok_view, nowhere in W. simpl_view. rewrite cnt_In.
  destruct (p_progress (x_parts st id)); cbn; auto; try (right; right; intuition; fail).
  - right. left. intuition lia.
  - exfalso. apply A. unfold assigned. destruct W as (W1 & _ & _ & W2 & W3 & _). now rewrite W1, W2, W3.
Qed.

(** A present partition can be loaded. What it misses is on the way to it; a persisted one
    misses nothing. *)
Theorem C29_loads : forall (Q : Type) hits look capacity (st : idx Q) id, sound hits look -> reachable look capacity st -> present st id ->
  exists c way, spin_up st id = Some c /\ assigned st id = c ++ way /\
    (In id (x_persisted st) -> way = []) /\
    (p_queue (x_parts st id) = [] -> x_central st = [] -> way = []).
Proof.
  intros Q hits look capacity st id L R Pr. pose proof (reach_inv hits look capacity L st R) as V. pose proof (i_views hits capacity st V id) as W.
  rewrite (present_iff hits capacity st id V) in Pr. unfold ok_view, nowhere in W. simpl_view.
  exists (p_got (x_parts st id)), (p_queue (x_parts st id) ++ if p_open (x_parts st id) then x_central st else []).
  unfold spin_up, assigned. rewrite !has_cnt, cnt_In.
  destruct W as (W1 & W2 & W3 & W4 & W5). rewrite W2, W1.
  assert (Z : forall b : bool, p_queue (x_parts st id) = [] -> x_central st = [] -> p_queue (x_parts st id) ++ (if b then x_central st else []) = []) by (intros b -> ->; now destruct b).
  destruct (p_progress (x_parts st id)); try discriminate; cbn [orb].
  - split; [reflexivity|]. split; [reflexivity|]. split; [|apply (Z true)]. intros H. exfalso. intuition lia.
  - destruct W5 as (_ & -> & W5 & _). split; [reflexivity|]. split; [reflexivity|]. split; [lia|apply (Z false)].
  - destruct W5 as (_ & -> & W5 & _). split; [reflexivity|]. split; [reflexivity|]. split; [lia|apply (Z false)].
  - destruct W5 as (_ & -> & W5 & _). split; [reflexivity|]. split; [reflexivity|]. split; [lia|apply (Z false)].
  - destruct W5 as (W5 & -> & -> & _). split; [exact W5|]. split; [reflexivity|]. rewrite W4. auto.
  - destruct W5 as (W5 & -> & -> & _). split; [exact W5|]. split; [reflexivity|]. rewrite W4. auto.
Qed.

(** * C49: restarts *)

(** A restart at any time restores exactly the partitions in the state file that have a
    file; what it restores of present partitions is complete. *)
Theorem C49_restores : forall (Q : Type) hits look capacity (st : idx Q) id, sound hits look -> reachable look capacity st ->
  (present (reload st) id <-> In id (x_state_file st) /\ x_file st id <> None) /\
  (present (reload st) id -> spin_up (reload st) id = x_file st id /\ x_file st id = Some (assigned (reload st) id)) /\
  (present st id -> present (reload st) id -> assigned (reload st) id = assigned st id).
Proof.
  intros Q hits look capacity st id L R. pose proof (reach_inv hits look capacity L st R) as V.
  assert (P : present (reload st) id <-> In id (x_state_file st) /\ x_file st id <> None).
  { unfold present, reload, unique. cbn [x_active x_unpersisted x_persisted]. rewrite nodup_In, filter_In. unfold on_disk. split.
    - intros [[cap H]|[[]|[H1 H2]]]; [discriminate|]. split; [exact H1|]. now destruct (x_file st id).
    - intros [H1 H2]. right. right. split; [exact H1|]. now destruct (x_file st id). }
  assert (A : present (reload st) id -> spin_up (reload st) id = x_file st id /\ x_file st id = Some (assigned (reload st) id)).
  { intros H. assert (I1 : In id (x_persisted (reload st))) by (destruct H as [[cap H]|[[]|H]]; [discriminate|exact H]). apply P in H as [_ H]. split.
    - unfold spin_up. change (x_active (reload st)) with (@None (nat * nat)). change (x_unpersisted (reload st)) with (@nil nat). cbn [has existsb orb]. now rewrite (proj2 (has_In _ _) I1).
    - unfold assigned, reload. cbn [x_parts x_central]. cbn [reload x_persisted] in I1. rewrite (proj2 (has_In _ _) I1). cbn [p_got p_queue p_open]. rewrite !app_nil_r. now destruct (x_file st id). }
  split; [exact P|]. split; [exact A|]. intros Pr H. destruct (A H) as [_ E]. apply P in H as [_ H].
  rewrite (present_iff hits capacity st id V) in Pr. pose proof (i_views hits capacity st V id) as W. unfold ok_view, nowhere in W. simpl_view. unfold assigned at 2. destruct W as (W1 & W2 & W3 & W4 & W5). rewrite W1.
  destruct (p_progress (x_parts st id)); try discriminate; try (exfalso; intuition congruence); rewrite W4, !app_nil_r; destruct W5 as [W5 _]; congruence.
Qed.

(** If no write of the state file is outstanding, each partition that is no longer active
    and has a file survives, complete, as does each one that is registered. *)
Theorem C49_crash : forall (Q : Type) hits look capacity (st : idx Q) id, sound hits look -> reachable look capacity st -> x_writes st = [] ->
  (In id (x_persisted st) \/ (In id (x_unpersisted st) /\ x_file st id <> None)) ->
  spin_up (reload st) id = Some (assigned st id).
Proof.
  intros Q hits look capacity st id L R W H. pose proof (reach_inv hits look capacity L st R) as V. destruct (C49_restores Q hits look capacity st id L R) as (P & A & C).
  assert (F : x_file st id <> None).
  { destruct H as [H|[_ H]]; [|exact H]. apply cnt_In in H. pose proof (i_views hits capacity st V id) as X. unfold ok_view, nowhere in X. simpl_view. destruct (p_progress (x_parts st id)); try (exfalso; intuition lia); intuition congruence. }
  assert (I1 : In id (x_state_file st)).
  { assert (K : listed st id) by (apply (i_listed hits capacity st V); intuition). unfold listed in K. rewrite W in K. exact K. }
  assert (X : present (reload st) id) by (apply P; auto). destruct (A X) as [A1 A2]. rewrite A1, A2. f_equal. apply C; [|exact X]. right. intuition.
Qed.

(** An orderly shutdown loses nothing: once the exit handler has run and the files are
    written, a restart restores every present partition, and if nothing was ever erased,
    every slice that came in. *)
Lemma down_inactive : forall (Q : Type) look capacity (st : idx Q), reachable look capacity st -> x_down st = true -> x_active st = None.
Proof.
  intros Q look capacity st R. induction R as [|st o st' R IH O E]; [reflexivity|]. intros D.
  assert (Y : forall st2, Some st2 = Some st' -> x_active st2 = x_active st -> x_down st2 = x_down st -> x_active st' = None) by (intros st2 E2 F G; injection E2 as ->; rewrite F; apply IH; congruence).
  destruct o; cbn [istep] in E; try (destruct (x_down st) eqn:Ds; [injection E as <-; auto; fail|]).
  - exfalso. unfold import in E. revert E D. destruct (x_active st) as [[a c]|] eqn:A; [destruct (c <? rows s)|]; cbn [create_active_partition x_active]; rewrite ?A;
      (destruct (_ && _); [intros E; injection E as <-|destruct (_ <=? _); [intros E; injection E as <-|discriminate]]); cbn; try congruence;
      unfold flush_to_disk, decommission; cbn [x_down]; rewrite A; cbn [x_down]; destruct (fan_out_fields st) as (_ & _ & _ & _ & _ & _ & _ & _ & _ & _ & _ & _ & _ & _ & _ & F & _); congruence.
  - eapply Y; [exact E| |]; apply fan_out_fields.
  - eapply Y; [exact E| |]; unfold deliver; now destruct (p_queue (x_parts st id)).
  - eapply Y; [exact E| |]; unfold persist; destruct (p_progress (x_parts st id)); try reflexivity; destruct (p_open (x_parts st id)); try reflexivity; now destruct (p_queue (x_parts st id)).
  - exfalso. injection E as <-. revert D. unfold registered. destruct (take id (x_replies st)); cbn; congruence.
  - exfalso. injection E as <-. revert D. unfold meta. destruct (x_mbox st) as [|m box]; [congruence|]. destruct m; cbn; congruence.
  - exfalso. unfold from_meta in E. destruct (x_bbox st) as [|m box]; [congruence|]. destruct m; [| |destruct (_ || _); [|discriminate]]; injection E as <-; cbn in D; congruence.
  - exfalso. injection E as <-. cbn in D. congruence.
  - exfalso. injection E as <-. cbn in D. congruence.
  - exfalso. injection E as <-. revert D. unfold erase. destruct (_ || _); [|congruence]. destruct (p_progress (x_parts st id)); cbn; congruence.
  - eapply Y; [exact E| |]; unfold unlink; now destruct (take id (x_unlink st)).
  - eapply Y; [exact E| |]; unfold write_state; now destruct (x_writes st).
  - injection E as <-. unfold exit in *. destruct (x_down st) eqn:Ds; [now apply IH|]. cbn [x_active]. apply retire_active.
  - injection E as <-. reflexivity.
Qed.
Theorem C49_shutdown : forall (Q : Type) hits look capacity (st : idx Q), sound hits look -> reachable look capacity st ->
  x_down st = true -> x_writes st = [] -> (forall id, In id (x_unpersisted st) -> x_file st id <> None) ->
  (forall id, present st id -> spin_up (reload st) id = Some (assigned st id)) /\
  ((forall id, assigned st id <> [] -> present st id) -> forall x, In x (g_in st) -> In x (g_in (reload st))).
Proof.
  intros Q hits look capacity st L R D W F.
  assert (A : forall id, present st id -> spin_up (reload st) id = Some (assigned st id)).
  { intros id [[cap H]|H]; [rewrite (down_inactive Q look capacity st R D) in H; discriminate|]. apply (C49_crash Q hits look capacity st id L R W). destruct H as [H|H]; auto. }
  split; [exact A|]. intros K x H. assert (R' : reachable look capacity (reload st)) by (apply (reach_step look capacity st Reload); [exact R|exact I|reflexivity]).
  destruct (C29_exactly_once Q hits look capacity st L R) as (P & _ & _). apply (Permutation_in x P) in H. apply in_flat_map in H as (id & _ & H).
  assert (Pr : present st id) by (apply K; intros E; rewrite E in H; destruct H).
  destruct (C29_exactly_once Q hits look capacity (reload st) L R') as (_ & _ & P'). apply (P' x id).
  assert (X : present (reload st) id).
  { apply (proj1 (C49_restores Q hits look capacity st id L R)). specialize (A id Pr). pose proof (reach_inv hits look capacity L st R) as V.
    assert (B : In id (x_persisted st) \/ In id (x_unpersisted st)) by (destruct Pr as [[cap H0]|[H0|H0]]; auto; rewrite (down_inactive Q look capacity st R D) in H0; discriminate).
    split; [assert (Y : listed st id) by (now apply (i_listed hits capacity st V)); unfold listed in Y; now rewrite W in Y|].
    destruct B as [B|B]; [|now apply F]. apply cnt_In in B. pose proof (i_views hits capacity st V id) as Z. unfold ok_view, nowhere in Z. simpl_view. destruct (p_progress (x_parts st id)); try (exfalso; intuition lia); intuition congruence. }
  now rewrite (proj2 (proj2 (C49_restores Q hits look capacity st id L R)) Pr X).
Qed.

(** * C50: erasing *)

(** A partition that was created and is not present stays absent until a restart; if its
    file is gone, it stays absent for good. *)
Theorem C50_stays_away : forall (Q : Type) hits look capacity (st st' : idx Q) o id, sound hits look -> reachable look capacity st -> ok_op st o ->
  istep look capacity st o = Some st' -> id < x_next st -> ~ present st id ->
  (o <> Reload -> ~ present st' id /\ id < x_next st') /\
  (x_file st id = None -> ~ present st' id /\ x_file st' id = None /\ id < x_next st').
Proof.
  intros Q hits look capacity st st' o id L R O E N Pr. pose proof (reach_inv hits look capacity L st R) as V.
  assert (V' : inv hits capacity st') by (apply (reach_inv hits look capacity L); eapply reach_step; eauto).
  assert (NF : p_progress (x_parts st id) <> Fresh) by (intros F; apply (progress_fresh hits capacity st id V) in F; lia).
  rewrite (present_iff hits capacity st id V) in Pr.
  assert (A : o <> Reload -> ~ present st' id /\ id < x_next st').
  { intros Ne. destruct (step_follows hits look capacity st o st' id V O E Ne) as [F _]. unfold follows in F. rewrite (present_iff hits capacity st' id V').
    destruct (le_lt_dec (x_next st') id) as [G|G]; [apply (progress_fresh hits capacity st' id V') in G; rewrite G in F; destruct F as [F|F]; [congruence|destruct (p_progress (x_parts st id)); contradiction]|].
    split; [|exact G]. destruct F as [->|F]; [exact Pr|]. destruct (p_progress (x_parts st id)), (p_progress (x_parts st' id)); cbn in *; congruence || contradiction. }
  split; [exact A|]. intros F. assert (K : x_file st' id = None).
  { destruct (x_file st' id) as [c|] eqn:Fc; [|reflexivity]. exfalso.
    assert (X : o = Persist id \/ x_file st' id = x_file st id \/ x_file st' id = None).
    { destruct (match o with Persist i => i =? id | _ => false end) eqn:B; [left; destruct o; try discriminate; apply Nat.eqb_eq in B; congruence|]. right.
      assert (RF : x_file (flush_to_disk (decommission st)) = x_file st) by (unfold flush_to_disk, decommission; destruct (x_active st) as [[a cap]|] eqn:Ac; [cbn [x_file]; unfold fan_out; now rewrite Ac|reflexivity]).
      destruct o; cbn [istep] in E; try (destruct (x_down st); [injection E as <-; now left|]); try (injection E as <-).
      - destruct (import_shape hits capacity st s st' V E) as (st1 & a & cap & cap' & V1 & S1 & Ac & -> & _). left. unfold push. cbn [x_file]. destruct S1 as [->|[->| ->]]; auto. unfold create_active_partition. cbn [x_file]. now rewrite RF.
      - left. unfold fan_out. now destruct (x_active st).
      - left. unfold deliver. now destruct (p_queue (x_parts st id0)).
      - left. unfold persist. destruct (p_progress (x_parts st id0)); try reflexivity. destruct (p_open (x_parts st id0)); try reflexivity. destruct (p_queue (x_parts st id0)); try reflexivity. cbn [x_file]. unfold put. now rewrite Nat.eqb_sym, B.
      - left. unfold registered. now destruct (take id0 (x_replies st)).
      - left. unfold meta. destruct (x_mbox st) as [|m box]; [reflexivity|]. now destruct m.
      - left. unfold from_meta in E. destruct (x_bbox st) as [|m box]; [now injection E as <-|]. destruct m; [| |destruct (_ || _); [|discriminate]]; now injection E as <-.
      - now left.
      - now left.
      - left. unfold erase. destruct (_ || _); [|reflexivity]. now destruct (p_progress (x_parts st id0)).
      - unfold unlink. destruct (take id0 (x_unlink st)); [|now left]. cbn [x_file]. unfold put. destruct (id =? id0); auto.
      - left. unfold write_state. now destruct (x_writes st).
      - left. unfold exit. destruct (x_down st); [reflexivity|]. cbn [x_file]. now rewrite RF.
      - now left. }
    destruct X as [->|[X|X]]; try congruence. cbn [istep] in E. injection E as <-. unfold persist in Fc. destruct (p_progress (x_parts st id)); cbn in Pr; congruence. }
  split; [|split; [exact K|]].
  - destruct (match o with Reload => true | _ => false end) eqn:B; [|apply A; intros ->; discriminate]. destruct o; try discriminate. cbn [istep] in E. injection E as <-.
    intros H. apply (proj1 (C49_restores Q hits look capacity st id L R)) in H as [_ H]. congruence.
  - destruct (match o with Reload => true | _ => false end) eqn:B; [|apply A; intros ->; discriminate]. destruct o; try discriminate. cbn [istep] in E. injection E as <-. exact N.
Qed.

(** Erasing a registered partition takes the synopsis, the registration and the file away,
    in this order, and touches no other partition. *)
Theorem C50_erases : forall (Q : Type) hits look capacity (st : idx Q) id, sound hits look -> reachable look capacity st ->
  In id (x_persisted st) -> ~ erasing st id -> x_down st = false -> x_mbox st = [] -> x_bbox st = [] ->
  exists st', irun look capacity st [Erase id; Meta; FromMeta; Unlink id] = Some st' /\
    ~ present st' id /\ x_file st' id = None /\ (forall c, ~ In (id, c) (x_known st')) /\
    (forall j, j <> id -> (present st' j <-> present st j) /\ x_file st' j = x_file st j /\ assigned st' j = assigned st j /\ (forall c, In (j, c) (x_known st') <-> In (j, c) (x_known st))).
Proof.
  intros Q hits look capacity st id L R H1 H2 D M B. pose proof (reach_inv hits look capacity L st R) as V.
  assert (U : cnt id (x_unpersisted st) = 0 /\ x_unlink st = x_unlink st /\ cnt id (x_persisted st) = 1 /\ cnt id (x_unlink st) = 0 /\ (forall cap, x_active st <> Some (id, cap))).
  { pose proof (i_views hits capacity st V id) as W. apply cnt_In in H1. unfold ok_view, nowhere in W. simpl_view. rewrite (erasing_iff hits capacity st id V) in H2.
    assert (P : p_progress (x_parts st id) = Settled) by (destruct (p_progress (x_parts st id)); try reflexivity; exfalso; intuition lia). rewrite P in W.
    repeat (split; [intuition|]). intros cap Ac. destruct (active_feeding hits capacity st id cap V Ac). congruence. }
  destruct U as (U & _ & Pe & Un & Ac). pose proof H1 as H1'. apply has_In in H1'.
  cbn [irun istep]. rewrite D. unfold erase. rewrite H1'. cbn [orb].
  set (st0 := match p_progress (x_parts st id) with Settled => set_progress st id Erasing | _ => st end).
  assert (S0 : x_active st0 = x_active st /\ x_unpersisted st0 = x_unpersisted st /\ x_persisted st0 = x_persisted st /\ x_cached st0 = x_cached st /\ x_known st0 = x_known st /\ x_mbox st0 = [] /\ x_bbox st0 = [] /\ x_unlink st0 = x_unlink st /\ x_file st0 = x_file st /\ x_down st0 = false /\ x_central st0 = x_central st /\ (forall j, assigned st0 j = assigned st j)).
  { unfold st0. destruct (p_progress (x_parts st id)); repeat (split; [assumption || reflexivity|]); try reflexivity. intros j. eapply set_progress_assigned; reflexivity. }
  clearbody st0. destruct S0 as (S1 & S2 & S3 & S4 & S5 & S6 & S7 & S8 & S9 & S10 & S11 & S12).
  destruct st0 as [a1 a2 a3 a4 a5 a6 a7 a8 a9 a10 a11 a12 a13 a14 a15 a16 a17 a18 a19 a20]. cbn [x_active x_unpersisted x_persisted x_cached x_central x_known x_mbox x_bbox x_unlink x_file x_down] in *. subst.
  cbn [x_active x_unpersisted x_persisted x_cached x_central x_next x_parts x_known x_mbox x_bbox x_replies x_unlink x_file x_state_file x_writes x_lookups x_found x_down g_in g_then app meta from_meta]. rewrite H1', orb_true_r.
  unfold unlink, set_progress, set_part. cbn [x_active x_unpersisted x_persisted x_cached x_central x_next x_parts x_known x_mbox x_bbox x_replies x_unlink x_file x_state_file x_writes x_lookups x_found x_down g_in g_then].
  destruct (take id (x_unlink st ++ [id])) as [r|] eqn:T; [|apply take_none in T; rewrite cnt_app, cnt_one, Nat.eqb_refl in T; lia].
  eexists. split; [reflexivity|]. match goal with |- ~ present ?s _ /\ _ => set (st' := s) end.
  assert (X : forall j, present st' j <-> present st j /\ j <> id).
  { intros j. unfold present, st'. cbn [x_active x_unpersisted x_persisted]. rewrite drop_In. split.
    - intros [[cap K]|[K|[K1 K2]]]; [split; [left; eauto|intros ->; now apply (Ac cap)]|split; [tauto|intros ->; apply cnt_In in K; lia]|split; tauto].
    - intros [[[cap K]|[K|K]] Nj]; [left; eauto|tauto|tauto]. }
  split; [intros K; apply (X id) in K as [_ K]; now apply K|]. split; [apply put_same|]. split.
  - intros c K. apply filter_In in K as [_ K]. cbn in K. rewrite Nat.eqb_refl in K. discriminate.
  - intros j Nj. split; [split; [intros K; apply (X j) in K as [K _]; exact K|intros K; apply (X j); auto]|]. split; [now apply put_other|]. split.
    + rewrite <- (S12 j). unfold assigned, st'. cbn [x_parts x_central]. unfold put. destruct (Nat.eqb_spec j id); [contradiction|reflexivity].
    + intros c. unfold st'. cbn [x_known]. rewrite filter_In. cbn. destruct (Nat.eqb_spec j id); [contradiction|cbn; tauto].
Qed.

(** * C51: sizes *)

(** A partition has at most as many events as configured, or one slice that is too large
    for any partition, apart from slices without events. *)
Theorem C51_capacity : forall (Q : Type) hits look capacity (st : idx Q) id, sound hits look -> reachable look capacity st ->
  fits capacity (assigned st id) /\ forall c, x_file st id = Some c -> fits capacity c.
Proof.
  intros Q hits look capacity st id L R.
  assert (X : sized capacity st).
  { induction R as [|st o st' R IH O E].
    - split; [intros i; left; cbn; lia|]. split; [discriminate|]. discriminate.
    - eapply sized_step; [exact L|apply (reach_inv hits look capacity L st R)|exact IH|exact E]. }
  destruct X as (X1 & X2 & _). split; [apply X1|apply X2].
Qed.

(** * Examples *)

(** A query asks for a slice number; a synopsis knows the numbers of all slices. *)
Definition hits_ex (q : nat) (x : nat * nat) : bool := q =? fst x.
Definition look_ex (q : nat) (c : list (nat * nat)) : bool := existsb (hits_ex q) c.
Lemma sound_ex : sound hits_ex look_ex.
Proof. intros q c x H E. unfold look_ex. apply existsb_exists. eauto. Qed.
(** Partitions of ten events. Partition 0 holds slice 1 and settles; partition 1 holds
    slices 2 and 3 and is decommissioned; partition 2 is active and holds slice 4. *)
Definition ops_ex : list (@iop nat) :=
  [Import (1, 8); FanOut; Import (2, 4); Deliver 0; Persist 0; Registered 0; Meta; FromMeta; Import (3, 6); Import (4, 2); WriteState; WriteState].
Definition reaches (os : list (@iop nat)) (st : idx nat) : Prop := irun look_ex 10 init os = Some st.
Lemma run_reach : forall os st st', reach look_ex 10 st -> Forall (fun o => forall id, o <> Erase id) os -> irun look_ex 10 st os = Some st' -> reach look_ex 10 st'.
Proof.
  induction os as [|o os IH]; intros st st' R F E; [injection E as <-; exact R|]. inversion F as [|? ? F1 F2]; subst. cbn [irun] in E. destruct (istep look_ex 10 st o) as [s|] eqn:Es; [|discriminate].
  apply (IH s st'); auto. apply (reach_step look_ex 10 st o); auto. destruct o; try exact I. now destruct (F1 id).
Qed.
Example C29_example : exists st, reaches (ops_ex ++ [Query 3; Query 1; Meta; Meta; FromMeta; FromMeta]) st /\ reachable look_ex 10 st /\
  x_active st = Some (2, 8) /\ x_unpersisted st = [1] /\ x_persisted st = [0] /\
  assigned st 0 = [(1, 8)] /\ assigned st 1 = [(2, 4); (3, 6)] /\ assigned st 2 = [(4, 2)] /\
  x_found st 0 = Some [2; 1] /\ x_found st 1 = Some [2; 1; 0] /\ In (3, 6) (g_then st 0 1) /\ present st 0 /\ ~ erasing st 0.
Proof.
  assert (R : exists st, reaches (ops_ex ++ [Query 3; Query 1; Meta; Meta; FromMeta; FromMeta]) st) by (eexists; vm_compute; reflexivity).
  destruct R as [st R]. exists st. split; [exact R|]. split.
  - eapply run_reach; [apply reach_init| |exact R]. repeat constructor; discriminate.
  - vm_compute in R. injection R as <-. unfold present, erasing. cbn. repeat split; auto. intros [[]|[]].
Qed.
(** After an orderly shutdown with partition 1 and 2 written, all is restored. *)
Definition ops_down : list (@iop nat) := ops_ex ++ [Exit; Deliver 1; Deliver 1; Persist 1; Deliver 2; Persist 2; WriteState].
Example C49_example : exists st, reaches ops_down st /\ reachable look_ex 10 st /\ x_down st = true /\ x_writes st = [] /\
  x_unpersisted st = [1; 2] /\ x_file st 1 = Some [(2, 4); (3, 6)] /\ x_file st 2 = Some [(4, 2)] /\ x_persisted (reload st) = [0; 1; 2] /\ length (g_in (reload st)) = 4.
Proof.
  assert (R : exists st, reaches ops_down st) by (eexists; vm_compute; reflexivity).
  destruct R as [st R]. exists st. split; [exact R|]. split.
  - eapply run_reach; [apply reach_init| |exact R]. repeat constructor; discriminate.
  - vm_compute in R. injection R as <-. vm_compute. repeat split.
Qed.
Example C50_example : exists st, reaches ops_ex st /\ reachable look_ex 10 st /\ In 0 (x_persisted st) /\ ~ erasing st 0 /\ x_down st = false /\ x_mbox st = [] /\ x_bbox st = [] /\
  exists st', irun look_ex 10 st [Erase 0; Meta; FromMeta; Unlink 0] = Some st' /\ x_persisted st' = [] /\ x_file st' 0 = None /\ 0 < x_next st' /\ ~ present st' 0.
Proof.
  assert (R : exists st, reaches ops_ex st) by (eexists; vm_compute; reflexivity).
  destruct R as [st R]. exists st. split; [exact R|]. split.
  - eapply run_reach; [apply reach_init| |exact R]. repeat constructor; discriminate.
  - vm_compute in R. injection R as <-. unfold erasing. cbn [x_persisted x_mbox x_bbox x_down In]. split; [auto|]. split; [intros [[]|[]]|]. repeat (split; [reflexivity|]).
    eexists. split; [vm_compute; reflexivity|]. unfold present. cbn. repeat split; auto. intros [[cap H]|[[H|[]]|[]]]; congruence.
Qed.
(** A slice that is too large for any partition gets one of its own. *)
Example C51_example : exists st, reaches [Import (1, 8); Import (2, 25); Import (3, 1)] st /\ reachable look_ex 10 st /\
  map (assigned st) [0; 1; 2] = [[(1, 8)]; [(2, 25)]; [(3, 1)]].
Proof.
  assert (R : exists st, reaches [Import (1, 8); Import (2, 25); Import (3, 1)] st) by (eexists; vm_compute; reflexivity).
  destruct R as [st R]. exists st. split; [exact R|]. split.
  - eapply run_reach; [apply reach_init| |exact R]. repeat constructor; discriminate.
  - vm_compute in R. injection R as <-. reflexivity.
Qed.

(** * What does not hold *)

(** A query may start after an import and get the right partition before the slice has
    reached it: the partition that is loaded lacks the slice. *)
Theorem C29_in_flight_refuted : exists st x, reaches [Import (1, 8); Query 1; Meta; FromMeta] st /\ In x (g_in st) /\ hits_ex 1 x = true /\
  x_found st 0 = Some [0] /\ spin_up st 0 = Some [] /\ assigned st 0 = [x].
Proof. eexists. exists (1, 8). split; [vm_compute; reflexivity|]. cbn. auto 10. Qed.
(** Erasing a partition twice before the first request is done, or erasing one whose file
    is written but that is not registered yet, fails an assertion of the index: the code
    takes such a file for a left-over of an unclean erasure. *)
Theorem C50_erase_twice_refuted : irun look_ex 10 init (ops_ex ++ [Erase 0; Erase 0; Meta; Meta; FromMeta]) <> None /\
  irun look_ex 10 init (ops_ex ++ [Erase 0; Erase 0; Meta; Meta; FromMeta; FromMeta]) = None.
Proof. vm_compute. split; [discriminate|reflexivity]. Qed.
Theorem C50_erase_early_refuted : irun look_ex 10 init (ops_ex ++ [Deliver 1; Deliver 1; Persist 1; Erase 1; Meta]) <> None /\
  irun look_ex 10 init (ops_ex ++ [Deliver 1; Deliver 1; Persist 1; Erase 1; Meta; FromMeta]) = None.
Proof. vm_compute. split; [discriminate|reflexivity]. Qed.
(** A left-over of an unclean erasure cannot be erased either: partition 1 has a file but
    is not in the state file when the process is killed. *)
Definition ops_lost : list (@iop nat) :=
  [Import (1, 8); Import (2, 4); FanOut; Deliver 0; Persist 0; Registered 0; Meta; FromMeta; Reload].
Theorem C50_leftover_refuted : exists st, reaches ops_lost st /\ x_file st 0 = Some [(1, 8)] /\ x_persisted st = [] /\
  irun look_ex 10 st [Erase 0; Meta; FromMeta] = None.
Proof. eexists. split; [vm_compute; reflexivity|]. vm_compute. auto. Qed.
(** The same run: a partition that is registered and on disk is lost if the process is
    killed before the write of the state file. *)
Theorem C49_registered_lost_refuted : exists st st', reaches (removelast ops_lost) st /\ In 0 (x_persisted st) /\ x_file st 0 = Some [(1, 8)] /\ x_writes st = [[0]] /\
  reaches ops_lost st' /\ ~ present st' 0 /\ ~ In (1, 8) (g_in st').
Proof.
  eexists. eexists. split; [vm_compute; reflexivity|]. cbn [x_persisted x_file x_writes In]. split; [auto|]. split; [reflexivity|]. split; [reflexivity|].
  split; [vm_compute; reflexivity|]. unfold present. cbn. split; [intros [[cap H]|[[]|[]]]; discriminate|auto].
Qed.
(** An erased partition comes back if the process is killed before its file is removed. *)
Theorem C50_back_refuted : exists st st', reaches ops_ex st /\ irun look_ex 10 st [Erase 0; Meta; FromMeta] = Some st' /\ ~ present st' 0 /\ present (reload st') 0.
Proof.
  eexists. eexists. split; [vm_compute; reflexivity|]. split; [vm_compute; reflexivity|]. unfold present. cbn. split; [intros [[cap H]|[[H|[]]|[]]]; congruence|auto].
Qed.

Definition assumptions_Partitions := (C29_no_assertion, C29_exactly_once, C29_keeps, C29_candidates, C29_present, C29_loads, C29_example, C29_in_flight_refuted,
  C49_restores, C49_crash, C49_shutdown, C49_example, C49_registered_lost_refuted, C50_stays_away, C50_erases, C50_example, C50_erase_twice_refuted, C50_erase_early_refuted,
  C50_leftover_refuted, C50_back_refuted, C51_capacity, C51_example).
Print Assumptions assumptions_Partitions.
