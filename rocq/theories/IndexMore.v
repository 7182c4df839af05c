(** More about the life of partitions: what steps do to the content of partitions, their
    size, erased partitions, and restarts. *)
From Coq Require Import List Bool Arith Lia Permutation ZifyBool ZifyNat.
From Verif Require Import IndexModel IndexProofs.
Import ListNotations.
Open Scope nat_scope.

Section Index.
Context {Q : Type} (hits : Q -> nat * nat -> bool) (look : Q -> list (nat * nat) -> bool) (capacity : nat).
Hypothesis look_sound : forall q c x, In x c -> hits q x = true -> look q c = true.
Notation idx := (idx Q).
Implicit Types st : idx.
Notation inv := (inv hits capacity).
Notation reach := (reach look capacity).
Ltac fields := cbn [x_active x_unpersisted x_persisted x_cached x_central x_next x_parts x_known x_mbox x_bbox x_replies x_unlink x_file x_state_file x_writes x_lookups x_found x_down g_in g_then].

(** * Content *)

Lemma assigned_same : forall st st' id, x_central st' = x_central st -> p_open (x_parts st' id) = p_open (x_parts st id) ->
  p_got (x_parts st' id) ++ p_queue (x_parts st' id) = p_got (x_parts st id) ++ p_queue (x_parts st id) -> assigned st' id = assigned st id.
Proof. intros st st' id C O E. unfold assigned. rewrite C, O, !app_assoc, E. reflexivity. Qed.
Lemma set_progress_part : forall st a g id, x_parts (set_progress st a g) id =
  if id =? a then {| p_open := p_open (x_parts st a); p_queue := p_queue (x_parts st a); p_got := p_got (x_parts st a); p_progress := g |} else x_parts st id.
Proof. reflexivity. Qed.
Lemma set_progress_assigned : forall st st' a g id, x_central st' = x_central st -> x_parts st' = x_parts (set_progress st a g) -> assigned st' id = assigned st id.
Proof.
  intros st st' a g id C P. apply assigned_same; [exact C| |]; rewrite P, set_progress_part; destruct (Nat.eqb_spec id a) as [->|N]; reflexivity.
Qed.
Lemma retire_assigned : forall st id, inv st -> assigned (flush_to_disk (decommission st)) id = assigned st id.
Proof.
  intros st id V. unfold decommission. destruct (x_active st) as [[a cap]|] eqn:A; [|reflexivity].
  rewrite <- (fan_out_assigned hits capacity st id V). unfold assigned, flush_to_disk. fields.
  assert (C : x_central (fan_out st) = []) by (unfold fan_out; rewrite A; reflexivity). rewrite C.
  destruct (Nat.eq_dec id a) as [->|N]; [rewrite put_same; cbn [p_got p_queue p_open]; now destruct (p_open _)|now rewrite put_other].
Qed.
Lemma create_assigned : forall st id, inv st -> x_active st = None -> assigned (create_active_partition capacity st) id = assigned st id.
Proof.
  intros st id V A. unfold assigned, create_active_partition. fields. rewrite (i_central hits capacity st V A). destruct (Nat.eq_dec id (x_next st)) as [->|N]; [|now rewrite put_other].
  assert (P : p_progress (x_parts st (x_next st)) = Fresh) by (apply (progress_fresh hits capacity st); auto).
  pose proof (i_views hits capacity st V (x_next st)) as W. unfold ok_view in W. simpl_view. rewrite P in W. destruct W as (W1 & _ & _ & W2 & W3 & _). rewrite put_same, W1, W2, W3. reflexivity.
Qed.
Lemma push_assigned : forall st s cap' a cap id, inv st -> x_active st = Some (a, cap) -> assigned (push st s cap' a) id = assigned st id ++ if id =? a then [s] else [].
Proof.
  intros st s cap' a cap id V A. unfold assigned, push. fields. destruct (Nat.eqb_spec id a) as [->|N].
  - destruct (active_feeding hits capacity st a cap V A) as [_ ->]. now rewrite <- !app_assoc.
  - rewrite (not_feeding hits capacity st id V); [now rewrite !app_nil_r|]. intros c E. rewrite A in E. injection E as <- <-. contradiction.
Qed.
(** The partition that an import feeds. *)
Lemma import_shape : forall st s st', inv st -> import capacity st s = Some st' -> exists st1 a cap cap', inv st1 /\
  (st1 = st \/ st1 = create_active_partition capacity st \/ st1 = create_active_partition capacity (flush_to_disk (decommission st))) /\
  x_active st1 = Some (a, cap) /\ st' = push st1 s cap' a /\ (forall id, assigned st1 id = assigned st id) /\
  ((cap' + rows s = cap) \/ (cap = capacity /\ capacity < rows s /\ cap' = 0 /\ assigned st1 a = [])) /\
  (st1 <> st -> cap = capacity /\ assigned st1 a = []).
Proof.
  intros st s st' V E. unfold import in E.
  assert (N : forall st0, inv st0 -> x_active st0 = None -> assigned (create_active_partition capacity st0) (x_next st0) = []).
  { intros st0 V0 A0. unfold assigned, create_active_partition. fields. rewrite put_same. cbn [p_got p_queue p_open app]. now apply (i_central hits capacity st0 V0). }
  assert (F : forall st0, inv st0 -> x_active st0 = None -> (st0 = st \/ st0 = flush_to_disk (decommission st)) ->
    (if (capacity =? capacity) && (capacity <? rows s) then Some (push (create_active_partition capacity st0) s 0 (x_next st0))
     else if rows s <=? capacity then Some (push (create_active_partition capacity st0) s (capacity - rows s) (x_next st0)) else None) = Some st' ->
    exists st1 a cap cap', inv st1 /\ (st1 = st \/ st1 = create_active_partition capacity st \/ st1 = create_active_partition capacity (flush_to_disk (decommission st))) /\
      x_active st1 = Some (a, cap) /\ st' = push st1 s cap' a /\ (forall id, assigned st1 id = assigned st id) /\
      ((cap' + rows s = cap) \/ (cap = capacity /\ capacity < rows s /\ cap' = 0 /\ assigned st1 a = [])) /\ (st1 <> st -> cap = capacity /\ assigned st1 a = [])).
  { intros st0 V0 A0 O E0. exists (create_active_partition capacity st0), (x_next st0), capacity. rewrite Nat.eqb_refl in E0. cbn [andb] in E0.
    assert (X : forall id, assigned (create_active_partition capacity st0) id = assigned st id).
    { intros id. rewrite create_assigned; auto. destruct O as [->| ->]; [reflexivity|]. now apply retire_assigned. }
    assert (Y : create_active_partition capacity st0 = st \/ create_active_partition capacity st0 = create_active_partition capacity st \/
      create_active_partition capacity st0 = create_active_partition capacity (flush_to_disk (decommission st))) by (destruct O as [->| ->]; auto).
    destruct (Nat.ltb_spec capacity (rows s)) as [L|L].
    - injection E0 as <-. exists 0. split; [now apply inv_create|]. split; [exact Y|]. split; [reflexivity|]. split; [reflexivity|]. split; [exact X|]. pose proof (N st0 V0 A0). split; [right; auto|]. auto.
    - destruct (Nat.leb_spec (rows s) capacity); [|lia]. injection E0 as <-. exists (capacity - rows s). split; [now apply inv_create|]. split; [exact Y|]. split; [reflexivity|]. split; [reflexivity|]. split; [exact X|]. pose proof (N st0 V0 A0). split; [left; lia|]. auto. }
  destruct (x_active st) as [[a cap]|] eqn:A.
  - destruct (Nat.ltb_spec cap (rows s)) as [L|L].
    + apply (F (flush_to_disk (decommission st))); [now apply inv_retire|apply retire_active|now right|]. exact E.
    + rewrite A in E. destruct (Nat.ltb_spec cap (rows s)); [lia|]. rewrite andb_false_r in E. destruct (Nat.leb_spec (rows s) cap); [|lia]. injection E as <-.
      exists st, a, cap, (cap - rows s). split; [exact V|]. split; [auto|]. split; [exact A|]. split; [reflexivity|]. split; [auto|]. split; [left; lia|]. intros X. now destruct X.
  - apply (F st); auto.
Qed.

(** Steps only add to partitions, and only what is imported. *)
Lemma step_assigned : forall st o st', inv st -> istep look capacity st o = Some st' -> o <> Reload -> forall id, exists more, assigned st' id = assigned st id ++ more /\
  (more <> [] -> exists s cap, o = Import s /\ more = [s] /\ x_active st' = Some (id, cap)).
Proof.
  intros st o st' V E R id.
  assert (X : forall st2, Some st2 = Some st' -> assigned st2 id = assigned st id -> exists more, assigned st' id = assigned st id ++ more /\
    (more <> [] -> exists s cap, o = Import s /\ more = [s] /\ x_active st' = Some (id, cap))).
  { intros st2 E2 Y. injection E2 as ->. exists []. rewrite app_nil_r. split; [exact Y|]. intros N. now destruct N. }
  destruct o; cbn [istep] in E; try congruence.
  - destruct (x_down st); [now apply (X st)|]. destruct (import_shape st s st' V E) as (st1 & a & cap & cap' & V1 & _ & A & -> & S1 & _).
    rewrite (push_assigned st1 s cap' a cap id V1 A), S1. exists (if id =? a then [s] else []). split; [reflexivity|]. intros N.
    destruct (Nat.eqb_spec id a) as [->|D]; [|now destruct N]. exists s, cap'. auto.
  - apply (X (fan_out st) E). now apply (fan_out_assigned hits capacity).
  - apply (X (deliver st id0) E). unfold deliver. destruct (p_queue (x_parts st id0)) as [|s q] eqn:P; [reflexivity|]. apply assigned_same; [reflexivity| |]; unfold set_part; fields; unfold put;
      destruct (Nat.eqb_spec id id0) as [->|N]; try reflexivity. cbn [p_got p_queue]. now rewrite P, <- app_assoc.
  - apply (X (persist st id0) E). unfold persist. destruct (p_progress (x_parts st id0)) eqn:P; try reflexivity. destruct (p_open (x_parts st id0)); try reflexivity. destruct (p_queue (x_parts st id0)); try reflexivity.
    eapply set_progress_assigned; reflexivity.
  - destruct (x_down st); [now apply (X st)|]. apply (X (registered st id0) E). unfold registered. destruct (take id0 (x_replies st)); [|reflexivity]. eapply set_progress_assigned; reflexivity.
  - destruct (x_down st); [now apply (X st)|]. apply (X (meta look st) E). unfold meta. destruct (x_mbox st) as [|m box]; [reflexivity|]. destruct m; reflexivity.
  - destruct (x_down st); [now apply (X st)|]. unfold from_meta in E. destruct (x_bbox st) as [|m box]; [now apply (X st)|]. destruct m; [| |destruct (_ || _); [|discriminate]]; eapply X; try exact E; try reflexivity; eapply set_progress_assigned; reflexivity.
  - destruct (x_down st); [now apply (X st)|]. now apply (X (start_query st q) E).
  - destruct (x_down st); [now apply (X st)|]. now apply (X (cache st ids) E).
  - destruct (x_down st); [now apply (X st)|]. apply (X (erase st id0) E). unfold erase. destruct (_ || _); [|reflexivity]. destruct (p_progress (x_parts st id0)); try reflexivity. eapply set_progress_assigned; reflexivity.
  - apply (X (unlink st id0) E). unfold unlink. destruct (take id0 (x_unlink st)); [|reflexivity]. eapply set_progress_assigned; reflexivity.
  - apply (X (write_state st) E). unfold write_state. now destruct (x_writes st).
  - apply (X (exit st) E). unfold exit. destruct (x_down st); [reflexivity|]. rewrite <- (retire_assigned st id V). reflexivity.
Qed.

(** * Presence *)

(** The index would load this partition for a query. *)
Definition present st (id : nat) : Prop := (exists cap, x_active st = Some (id, cap)) \/ In id (x_unpersisted st) \/ In id (x_persisted st).
(** A request to erase it is on its way. *)
Definition erasing st (id : nat) : Prop := In (MErase id) (x_mbox st) \/ In (BErased id) (x_bbox st).

Definition stays (g : progress) : bool := match g with Feeding | Asked | Written | Merging | Settled | Erasing => true | _ => false end.
Lemma present_iff : forall st id, inv st -> (present st id <-> stays (p_progress (x_parts st id)) = true).
Proof.
  intros st id V. pose proof (i_views hits capacity st V id) as W. unfold ok_view, nowhere in W. simpl_view. unfold present. rewrite !cnt_In. split.
  - intros [[cap H]|H].
    + destruct (active_feeding hits capacity st id cap V H) as [-> _]. reflexivity.
    + destruct (p_progress (x_parts st id)); cbn; auto; exfalso; intuition lia.
  - intros H. destruct (p_progress (x_parts st id)) eqn:P; try discriminate; try (right; intuition lia). left. apply (feeding_active hits capacity st id V). now left.
Qed.
Lemma erasing_iff : forall st id, inv st -> (erasing st id <-> p_progress (x_parts st id) = Erasing).
Proof.
  intros st id V. pose proof (i_views hits capacity st V id) as W. unfold ok_view, nowhere in W. simpl_view.
  assert (M : In (MErase id) (x_mbox st) <-> flat_map (ers id) (x_mbox st) <> []).
  { clear. induction (x_mbox st) as [|m l IH]; [cbn; tauto|]. cbn [flat_map In]. rewrite IH. destruct m; cbn [ers app]; try (intuition congruence). destruct (Nat.eqb_spec id id0) as [->|N]; cbn [app]; intuition congruence. }
  assert (B : In (BErased id) (x_bbox st) <-> flat_map (eds id) (x_bbox st) <> []).
  { clear. induction (x_bbox st) as [|m l IH]; [cbn; tauto|]. cbn [flat_map In]. rewrite IH. destruct m; cbn [eds app]; try (intuition congruence). destruct (Nat.eqb_spec id id0) as [->|N]; cbn [app]; intuition congruence. }
  unfold erasing. rewrite M, B. destruct (p_progress (x_parts st id)); split; intros H; try discriminate; auto; try (exfalso; intuition congruence). intuition congruence.
Qed.

(** How far a partition gets in a step. *)
Definition follows (g g' : progress) : Prop :=
  g' = g \/ match g, g' with
            | Fresh, Feeding | Feeding, Asked | Asked, Written | Written, Merging | Merging, Settled | Settled, Erasing | Erasing, Unlinking | Unlinking, Gone => True
            | _, _ => False
            end.
Lemma set_progress_follows : forall st st' a g id, x_parts st' = x_parts (set_progress st a g) -> follows (p_progress (x_parts st a)) g -> follows (p_progress (x_parts st id)) (p_progress (x_parts st' id)).
Proof. intros st st' a g id E F. rewrite E, set_progress_part. destruct (Nat.eqb_spec id a) as [->|N]; [exact F|now left]. Qed.
Lemma retire_progress : forall st id, inv st -> p_progress (x_parts (flush_to_disk (decommission st)) id) = match x_active st with Some (a, _) => if id =? a then Asked else p_progress (x_parts st id) | None => p_progress (x_parts st id) end.
Proof.
  intros st id V. unfold decommission, flush_to_disk. destruct (x_active st) as [[a cap]|] eqn:A; [|reflexivity]. fields. unfold put. destruct (Nat.eqb_spec id a) as [->|N]; [reflexivity|].
  rewrite (fan_out_part hits capacity st id V), A. now destruct (Nat.eqb_spec id a).
Qed.
Lemma retire_follows : forall st id, inv st -> follows (p_progress (x_parts st id)) (p_progress (x_parts (flush_to_disk (decommission st)) id)).
Proof.
  intros st id V. rewrite (retire_progress st id V). destruct (x_active st) as [[a cap]|] eqn:A; [|now left]. destruct (Nat.eqb_spec id a) as [->|N]; [|now left].
  destruct (active_feeding hits capacity st a cap V A) as [-> _]. right. exact I.
Qed.
Lemma create_follows : forall st id, inv st -> follows (p_progress (x_parts st id)) (p_progress (x_parts (create_active_partition capacity st) id)).
Proof.
  intros st id V. unfold create_active_partition. fields. unfold put. destruct (Nat.eqb_spec id (x_next st)) as [->|N]; [|now left].
  rewrite (proj2 (progress_fresh hits capacity st (x_next st) V)) by lia. right. exact I.
Qed.
Lemma step_follows : forall st o st' id, inv st -> ok_op st o -> istep look capacity st o = Some st' -> o <> Reload ->
  follows (p_progress (x_parts st id)) (p_progress (x_parts st' id)) /\
  (p_progress (x_parts st id) <> Erasing -> p_progress (x_parts st' id) = Erasing -> o = Erase id).
Proof.
  intros st o st' id V Ho E R.
  assert (Y : forall st2, Some st2 = Some st' -> p_progress (x_parts st2 id) = p_progress (x_parts st id) -> follows (p_progress (x_parts st id)) (p_progress (x_parts st' id)) /\
    (p_progress (x_parts st id) <> Erasing -> p_progress (x_parts st' id) = Erasing -> o = Erase id)).
  { intros st2 E2 F. injection E2 as ->. rewrite F. split; [now left|congruence]. }
  assert (Z : forall st2 a g, Some st2 = Some st' -> x_parts st2 = x_parts (set_progress st a g) -> follows (p_progress (x_parts st a)) g -> (g <> Erasing) ->
    follows (p_progress (x_parts st id)) (p_progress (x_parts st' id)) /\ (p_progress (x_parts st id) <> Erasing -> p_progress (x_parts st' id) = Erasing -> o = Erase id)).
  { intros st2 a g E2 F G H. injection E2 as ->. split; [now apply (set_progress_follows st st' a g)|]. rewrite F, set_progress_part. destruct (Nat.eqb_spec id a); [cbn; congruence|congruence]. }
  pose proof (i_views hits capacity st V) as W.
  destruct o; cbn [istep] in E; try congruence.
  - destruct (x_down st); [now apply (Y st)|]. destruct (import_shape st s st' V E) as (st1 & a & cap & cap' & V1 & S1 & A & -> & _). unfold push. fields.
    destruct S1 as [->|[->| ->]].
    + split; [now left|congruence].
    + split; [now apply create_follows|]. unfold create_active_partition. fields. unfold put. destruct (id =? x_next st); [discriminate|congruence].
    + (* retire, then create *) pose proof (inv_retire hits capacity st V) as V2. unfold create_active_partition. fields. unfold put. destruct (Nat.eqb_spec id (x_next (flush_to_disk (decommission st)))) as [->|N].
      * cbn [p_progress]. split; [|discriminate]. pose proof (proj2 (progress_fresh hits capacity _ (x_next (flush_to_disk (decommission st))) V2) (le_n _)) as P.
        pose proof (retire_follows st (x_next (flush_to_disk (decommission st))) V) as F. rewrite P in F. destruct F as [F|F]; [rewrite <- F; right; exact I|]. destruct (p_progress _); contradiction.
      * split; [now apply retire_follows|]. rewrite (retire_progress st id V). destruct (x_active st) as [[b c]|]; [|congruence]. destruct (id =? b); [discriminate|congruence].
  - apply (Y (fan_out st) E). rewrite (fan_out_part hits capacity st id V). destruct (x_active st) as [[b c]|]; [|reflexivity]. now destruct (id =? b).
  - apply (Y (deliver st id0) E). unfold deliver. destruct (p_queue (x_parts st id0)) as [|s q]; [reflexivity|]. unfold set_part. fields. unfold put. destruct (Nat.eqb_spec id id0) as [->|N]; reflexivity.
  - unfold persist in E. destruct (p_progress (x_parts st id0)) eqn:P; try (now apply (Y st E)). destruct (p_open (x_parts st id0)); try (now apply (Y st E)). destruct (p_queue (x_parts st id0)); try (now apply (Y st E)).
    eapply Z; [exact E|reflexivity|rewrite P; right; exact I|discriminate].
  - destruct (x_down st); [now apply (Y st)|]. unfold registered in E. destruct (take id0 (x_replies st)) as [r|] eqn:T; [|now apply (Y st E)]. destruct (take_spec _ _ _ T) as [T1 _].
    eapply Z; [exact E|reflexivity| |discriminate]. specialize (W id0). unfold ok_view, nowhere in W. simpl_view. destruct (p_progress (x_parts st id0)); try (right; exact I); exfalso; intuition lia.
  - destruct (x_down st); [now apply (Y st)|]. apply (Y (meta look st) E). unfold meta. destruct (x_mbox st) as [|m box]; [reflexivity|]. destruct m; reflexivity.
  - destruct (x_down st); [now apply (Y st)|]. unfold from_meta in E. destruct (x_bbox st) as [|m box] eqn:M; [now apply (Y st)|].
    destruct m as [a|k ids|a]; [| |destruct (_ || _); [|discriminate]].
    + eapply Z; [exact E|reflexivity| |discriminate]. specialize (W a). unfold ok_view, nowhere in W. simpl_view. rewrite M in W. cbn [flat_map mds] in W. rewrite Nat.eqb_refl in W.
      destruct (p_progress (x_parts st a)); try (right; exact I); exfalso; cbn [app] in W; intuition congruence.
    + eapply Y; [exact E|reflexivity].
    + eapply Z; [exact E|reflexivity| |discriminate]. specialize (W a). unfold ok_view, nowhere in W. simpl_view. rewrite M in W. cbn [flat_map eds] in W. rewrite Nat.eqb_refl in W.
      destruct (p_progress (x_parts st a)); try (right; exact I); exfalso; cbn [app] in W; intuition congruence.
  - destruct (x_down st); [now apply (Y st)|]. now apply (Y (start_query st q) E).
  - destruct (x_down st); [now apply (Y st)|]. now apply (Y (cache st ids) E).
  - destruct (x_down st); [now apply (Y st)|]. unfold erase in E. destruct (_ || _); [|now apply (Y st E)]. destruct (p_progress (x_parts st id0)) eqn:P; try (eapply Y; [exact E|reflexivity]).
    injection E as <-. unfold set_progress, set_part. fields. unfold put. destruct (Nat.eqb_spec id id0) as [->|N]; [split; [rewrite P; right; exact I|auto]|]. split; [now left|congruence].
  - unfold unlink in E. destruct (take id0 (x_unlink st)) as [r|] eqn:T; [|now apply (Y st E)]. destruct (take_spec _ _ _ T) as [T1 _].
    eapply Z; [exact E|reflexivity| |discriminate]. specialize (W id0). unfold ok_view, nowhere in W. simpl_view. destruct (p_progress (x_parts st id0)); try (right; exact I); exfalso; intuition lia.
  - apply (Y (write_state st) E). unfold write_state. now destruct (x_writes st).
  - unfold exit in E. destruct (x_down st); [now apply (Y st)|]. injection E as <-. fields. split; [now apply retire_follows|]. intros H1 H2. exfalso. change (p_progress (x_parts (flush_to_disk (decommission st)) id) = Erasing) in H2. revert H1 H2. rewrite (retire_progress st id V). destruct (x_active st) as [[b c]|]; [|congruence]. destruct (id =? b); [discriminate|congruence].
Qed.

(** * Sizes *)

Definition weight (l : list (nat * nat)) : nat := list_sum (map rows l).
Lemma weight_app : forall a b, weight (a ++ b) = weight a + weight b.
Proof. intros. unfold weight. rewrite map_app. apply list_sum_app. Qed.
Definition oversize (l : list (nat * nat)) : Prop := exists a x b, l = a ++ x :: b /\ capacity < rows x /\ weight a = 0 /\ weight b = 0.
Definition fits (l : list (nat * nat)) : Prop := weight l <= capacity \/ oversize l.
Definition sized st : Prop :=
  (forall id, fits (assigned st id)) /\ (forall id c, x_file st id = Some c -> fits c) /\
  (forall id cap, x_active st = Some (id, cap) -> cap + weight (assigned st id) = capacity \/ (cap = 0 /\ oversize (assigned st id))).
Lemma step_file : forall st o st' id c, inv st -> istep look capacity st o = Some st' -> x_file st' id = Some c -> x_file st id = Some c \/ c = assigned st id.
Proof.
  intros st o st' id c V E H.
  assert (Y : forall st2, Some st2 = Some st' -> x_file st2 = x_file st -> x_file st id = Some c \/ c = assigned st id) by (intros st2 E2 F; injection E2 as ->; rewrite F in H; auto).
  assert (RF : forall s0 : idx, x_file (flush_to_disk (decommission s0)) = x_file s0).
  { intros s0. unfold flush_to_disk, decommission. destruct (x_active s0) as [[a cap]|] eqn:A; [|reflexivity]. fields. unfold fan_out. now rewrite A. }
  destruct o; cbn [istep] in E.
  - destruct (x_down st); [now apply (Y st)|]. destruct (import_shape st s st' V E) as (st1 & a & cap & cap' & V1 & S1 & A & -> & _).
    left. unfold push in H. revert H. fields. destruct S1 as [->|[->| ->]]; auto. unfold create_active_partition. fields. now rewrite RF.
  - eapply Y; [exact E|]. unfold fan_out. now destruct (x_active st).
  - eapply Y; [exact E|]. unfold deliver. now destruct (p_queue (x_parts st id0)).
  - unfold persist in E. destruct (p_progress (x_parts st id0)) eqn:P; try (now apply (Y st E)). destruct (p_open (x_parts st id0)) eqn:Op; try (now apply (Y st E)). destruct (p_queue (x_parts st id0)) eqn:Qu; try (now apply (Y st E)).
    injection E as <-. revert H. fields. unfold put. destruct (Nat.eqb_spec id id0) as [->|N]; [|auto]. intros H. injection H as <-. right. unfold assigned. rewrite Op, Qu. now rewrite !app_nil_r.
  - destruct (x_down st); [now apply (Y st)|]. eapply Y; [exact E|]. unfold registered. now destruct (take id0 (x_replies st)).
  - destruct (x_down st); [now apply (Y st)|]. eapply Y; [exact E|]. unfold meta. destruct (x_mbox st) as [|m box]; [reflexivity|]. now destruct m.
  - destruct (x_down st); [now apply (Y st)|]. unfold from_meta in E. destruct (x_bbox st) as [|m box]; [now apply (Y st)|]. destruct m; [| |destruct (_ || _); [|discriminate]]; eapply Y; try exact E; reflexivity.
  - destruct (x_down st); eapply Y; try exact E; reflexivity.
  - destruct (x_down st); eapply Y; try exact E; reflexivity.
  - destruct (x_down st); [now apply (Y st)|]. eapply Y; [exact E|]. unfold erase. destruct (_ || _); [|reflexivity]. now destruct (p_progress (x_parts st id0)).
  - unfold unlink in E. destruct (take id0 (x_unlink st)) as [r|]; [|now apply (Y st E)]. injection E as <-. revert H. fields. unfold put. destruct (id =? id0); [discriminate|auto].
  - eapply Y; [exact E|]. unfold write_state. now destruct (x_writes st).
  - eapply Y; [exact E|]. unfold exit. destruct (x_down st); [reflexivity|]. fields. apply RF.
  - eapply Y; [exact E|]. reflexivity.
Qed.
Lemma step_active : forall st o st' a cap, inv st -> istep look capacity st o = Some st' -> x_active st' = Some (a, cap) -> x_active st = Some (a, cap) \/ exists s, o = Import s.
Proof.
  intros st o st' a cap V E H.
  assert (Y : forall st2, Some st2 = Some st' -> x_active st2 = x_active st -> x_active st = Some (a, cap) \/ exists s, o = Import s) by (intros st2 E2 F; injection E2 as ->; rewrite F in H; auto).
  destruct o; cbn [istep] in E.
  - eauto.
  - eapply Y; [exact E|]. apply fan_out_fields.
  - eapply Y; [exact E|]. unfold deliver. now destruct (p_queue (x_parts st id)).
  - eapply Y; [exact E|]. unfold persist. destruct (p_progress (x_parts st id)); try reflexivity. destruct (p_open (x_parts st id)); try reflexivity. now destruct (p_queue (x_parts st id)).
  - destruct (x_down st); [now apply (Y st)|]. eapply Y; [exact E|]. unfold registered. now destruct (take id (x_replies st)).
  - destruct (x_down st); [now apply (Y st)|]. eapply Y; [exact E|]. unfold meta. destruct (x_mbox st) as [|m box]; [reflexivity|]. now destruct m.
  - destruct (x_down st); [now apply (Y st)|]. unfold from_meta in E. destruct (x_bbox st) as [|m box]; [now apply (Y st)|]. destruct m; [| |destruct (_ || _); [|discriminate]]; eapply Y; try exact E; reflexivity.
  - destruct (x_down st); eapply Y; try exact E; reflexivity.
  - destruct (x_down st); eapply Y; try exact E; reflexivity.
  - destruct (x_down st); [now apply (Y st)|]. eapply Y; [exact E|]. unfold erase. destruct (_ || _); [|reflexivity]. now destruct (p_progress (x_parts st id)).
  - eapply Y; [exact E|]. unfold unlink. now destruct (take id (x_unlink st)).
  - eapply Y; [exact E|]. unfold write_state. now destruct (x_writes st).
  - unfold exit in E. destruct (x_down st); [now apply (Y st)|]. injection E as <-. exfalso. change (x_active (flush_to_disk (decommission st)) = Some (a, cap)) in H. rewrite retire_active in H. discriminate.
  - injection E as <-. discriminate.
Qed.
Lemma reload_assigned : forall st id, inv st -> assigned (reload st) id = [] \/ x_file st id = Some (assigned (reload st) id).
Proof.
  intros st id V. unfold assigned, reload. fields. destruct (has id (unique (filter (on_disk st) (x_state_file st)))) eqn:H; cbn [p_got p_queue p_open].
  - rewrite !app_nil_r. apply has_In in H. apply nodup_In in H. apply filter_In in H as [_ H]. unfold on_disk in H. destruct (x_file st id); [now right|discriminate].
  - now left.
Qed.
Lemma sized_step : forall st o st', inv st -> sized st -> istep look capacity st o = Some st' -> sized st'.
Proof.
  intros st o st' V (S1 & S2 & S3) E.
  assert (F : forall id c, x_file st' id = Some c -> fits c).
  { intros id c H. destruct (step_file st o st' id c V E H) as [K| ->]; eauto. }
  assert (R : o = Reload \/ o <> Reload) by (destruct o; auto; right; discriminate). destruct R as [->|R].
  - cbn [istep] in E. injection E as <-. split; [|split; [exact F|discriminate]]. intros id. destruct (reload_assigned st id V) as [->|K]; [left; cbn; lia|]. eapply S2. exact K.
  - destruct (match o with Import s => Some s | _ => None end) as [s|] eqn:Eo.
    + destruct o; try discriminate. injection Eo as ->. cbn [istep] in E. destruct (x_down st); [injection E as <-; now split|].
      destruct (import_shape st s st' V E) as (st1 & a & cap & cap' & V1 & Sh & A & -> & As & Cap & New).
      assert (Act : cap + weight (assigned st a) = capacity \/ (cap = 0 /\ oversize (assigned st a))).
      { destruct Sh as [->|Sh]; [now apply S3|]. left. assert (X : cap = capacity /\ assigned st1 a = []).
        { apply New. intros ->. destruct (x_active st) as [[b c]|] eqn:Ab; [|discriminate]. injection A as -> ->. destruct Sh as [Sh|Sh]; apply (f_equal x_active) in Sh; rewrite Ab in Sh; unfold create_active_partition in Sh; cbn [x_active] in Sh; injection Sh as Sh1 Sh2.
          - pose proof (next_active hits capacity st a cap V Ab). lia.
          - pose proof (next_active hits capacity st a cap V Ab) as L. unfold flush_to_disk, decommission in Sh1. rewrite Ab in Sh1. cbn [x_next] in Sh1. destruct (fan_out_fields st) as (_ & _ & _ & _ & Nx & _). lia. }
        destruct X as [-> X]. rewrite As in X. rewrite X. cbn. lia. }
      assert (NewA : cap' + weight (assigned st a ++ [s]) = capacity \/ (cap' = 0 /\ oversize (assigned st a ++ [s]))).
      { rewrite weight_app. change (weight [s]) with (rows s + 0). destruct Cap as [Cap|(Cap1 & Cap2 & -> & Cap3)].
        - destruct Act as [Act|[-> (u & x & v & E1 & E2 & E3 & E4)]]; [left; lia|]. right. split; [lia|]. exists u, x, (v ++ [s]). rewrite E1, <- app_assoc. split; [reflexivity|]. rewrite weight_app. change (weight [s]) with (rows s + 0). repeat split; auto; lia.
        - right. split; [reflexivity|]. rewrite As in Cap3. exists [], s, []. rewrite Cap3. repeat split; auto. }
      split; [|split; [exact F|]].
      * intros id. rewrite (push_assigned st1 s cap' a cap id V1 A), As. destruct (Nat.eqb_spec id a) as [->|N]; [|rewrite app_nil_r; apply S1].
        destruct NewA as [X|[_ X]]; [left; lia|now right].
      * intros id c H. unfold push in H. cbn [x_active] in H. injection H as <- <-. rewrite (push_assigned st1 s cap' a cap a V1 A), As, Nat.eqb_refl. exact NewA.
    + assert (AE : forall id, assigned st' id = assigned st id).
      { intros id. destruct (step_assigned st o st' V E R id) as (more & -> & M). destruct more as [|y ys]; [apply app_nil_r|]. destruct M as (s & cap & -> & _); [discriminate|]. discriminate Eo. }
      split; [intros id; rewrite AE; apply S1|]. split; [exact F|]. intros id cap H. rewrite AE. destruct (step_active st o st' id cap V E H) as [K|[s ->]]; [now apply S3|discriminate Eo].
Qed.
End Index.
