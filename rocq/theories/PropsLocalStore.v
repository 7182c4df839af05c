(** C32: erasing from the stores of single partitions. *)
From Coq Require Import List Bool Arith Lia Sorted NArith.
From Verif Require Import DataModel TypeModel TableSliceModel TableSliceProofs SegmentStoreModel SegmentStoreProofs SegmentStoreInvariant LocalStoreModel LocalStoreProofs PropsTableSlice.
Import ListNotations.
Open Scope nat_scope.

(** The specification speaks of rows (layout, ID, values): [rows] of slices, [in_set] for a set of
    IDs, [erased_by] for what is left after an erasure, [covered] when nothing would be left,
    [fits] for answers, [expected] and [answers] for what a sequence of requests leads to. *)
Definition on_disk (g : segment) : disk := {| d_store := Some g; d_next := None |}.
Definition stored_segment (g : segment) : Prop := ordered (sg_slices g) /\ sg_slices g <> [].

(** Whatever is asked of a store, in whatever order, with restarts anywhere: its file keeps all
    of its events, unless one request covered all of them; every lookup that is answered returns
    exactly the asked events of the file; and there is no violated assertion. *)
Theorem C32_only_asked : forall rooted g es, stored_segment g ->
  exists d p l, run rooted es (on_disk g) spawn_passive = Some (d, p, l) /\
    (d_store d = Some g \/ d_store d = None /\ exists xs, In (Request (Erase xs)) es /\ covered xs g) /\
    Forall (fits (rows (sg_slices g))) l.
Proof.
  intros rooted g es [G Gne]. destruct (run_spec rooted g G Gne (asked es) es (on_disk g) spawn_passive) as (d & p & l & E & (_ & K) & _ & F).
  - split; [reflexivity|left; reflexivity].
  - split; [cbn; tauto|left; reflexivity].
  - auto.
  - exists d, p, l. auto.
Qed.

Lemma run_app : forall rooted es fs d p, run rooted (es ++ fs) d p = match run rooted es d p with
  | None => None
  | Some (d1, p1, l1) => match run rooted fs d1 p1 with None => None | Some (d2, p2, l2) => Some (d2, p2, l1 ++ l2) end end.
Proof.
  induction es as [|e es IH]; intros fs d p; cbn [app run].
  - destruct (run rooted fs d p) as [ [ [? ?] ?]|]; reflexivity.
  - destruct (step rooted d p e) as [ [ [d1 p1] l1]|]; [|reflexivity]. rewrite IH. destruct (run rooted es d1 p1) as [ [ [d2 p2] l2]|]; [|reflexivity].
    destruct (run rooted fs d2 p2) as [ [ [d3 p3] l3]|]; [|reflexivity]. rewrite app_assoc. reflexivity.
Qed.
Lemma handle_gone : forall rooted g r d p d' p' a, handle rooted d p g r = Some (d', p', a) -> d_store d = None -> d_store d' = None.
Proof.
  intros rooted g r d p d' p' a E D. destruct r as [xs|xs]; cbn [handle] in E.
  - destruct (extract g xs); inversion E; subst; assumption.
  - destruct (seg_ids g) as [ids|]; [|discriminate]. destruct (is_subset ids xs).
    + inversion E; subst. unfold remove_all. destruct (negb rooted); [assumption|]. destruct (p_next p'); [assumption|reflexivity].
    + destruct (remaining g xs); inversion E; subst; assumption.
Qed.
Lemma gone_stays : forall rooted es d p d' p' l, run rooted es d p = Some (d', p', l) -> d_store d = None -> d_store d' = None.
Proof.
  induction es as [|e es IH]; intros d p d' p' l E D; cbn [run] in E; [inversion E; subst; assumption|].
  destruct (step rooted d p e) as [ [ [d1 p1] l1]|] eqn:Es; [|discriminate]. destruct (run rooted es d1 p1) as [ [ [d2 p2] l2]|] eqn:Er; [|discriminate].
  inversion E; subst. eapply IH; [eassumption|]. destruct e as [r| |]; cbn [step] in Es.
  - destruct (p_quit p); [inversion Es; subst; assumption|]. destruct (p_segment p) as [g|]; [|inversion Es; subst; assumption].
    destruct (handle rooted d p g r) as [ [ [d3 p3] a]|] eqn:Eh; [|discriminate]. inversion Es; subst. eapply handle_gone; eassumption.
  - destruct (p_segment p); [inversion Es; subst; assumption|]. rewrite D in Es. inversion Es; subst. assumption.
  - inversion Es; subst. assumption.
Qed.
(** Lookups leave everything as it is. *)
Lemma run_extracts : forall rooted g qs d p, ordered (sg_slices g) -> p_segment p = Some g -> p_quit p = false ->
  exists l, run rooted (map (fun q => Request (Extract q)) qs) d p = Some (d, p, l).
Proof.
  induction qs as [|q qs IH]; intros d p G S Q; [exists []; reflexivity|]. cbn [map run step handle]. rewrite Q, S. cbn [handle].
  destruct (extract_spec g q G) as (ss & -> & _). destruct (IH d p G S Q) as (l & ->). eexists. reflexivity.
Qed.

(** If the process runs in the database directory and the store has just been started, with any
    history before that, a request that covers all events removes the file, and it stays removed
    whatever follows. *)
Theorem C32_whole : forall g es qs xs fs, stored_segment g -> covered xs g ->
  exists d p l, run true (es ++ Restart :: Mapped :: map (fun q => Request (Extract q)) qs ++ Request (Erase xs) :: fs) (on_disk g) spawn_passive = Some (d, p, l) /\
    d_store d = None.
Proof.
  intros g es qs xs fs SG C. pose proof SG as [G Gne].
  set (whole := es ++ Restart :: Mapped :: map (fun q => Request (Extract q)) qs ++ Request (Erase xs) :: fs).
  destruct (C32_only_asked true g whole SG) as (d & p & l & E & _ & _). exists d, p, l. split; [assumption|].
  unfold whole in E. rewrite run_app in E. destruct (C32_only_asked true g es SG) as (d1 & p1 & l1 & E1 & K1 & _). rewrite E1 in E.
  destruct (run true (Restart :: _) d1 p1) as [ [ [d2 p2] l2]|] eqn:E2; [|discriminate]. inversion E; subst d2 p2 l. clear E.
  destruct (d_store d1) as [h|] eqn:D1; [|eapply gone_stays; eassumption].
  assert (h = g) as -> by (destruct K1 as [K|[K _] ]; congruence). clear K1.
  cbn [run step] in E2. cbn [p_segment spawn_passive p_deferred p_next p_quit] in E2. rewrite D1 in E2. cbn [replay] in E2.
  set (p0 := {| p_next := false; p_segment := Some g; p_deferred := []; p_quit := false |}) in *. rewrite run_app in E2.
  destruct (run_extracts true g qs d1 p0 G eq_refl eq_refl) as (lq & Eq). rewrite Eq in E2. cbn [run step] in E2. cbn [p0 p_quit p_segment] in E2. cbn [handle] in E2.
  destruct (subset_spec g xs G Gne) as (ids & Ei & Hi). rewrite Ei in E2. apply Hi in C. rewrite C in E2. cbn [p_next p0] in E2.
  set (d3 := remove_all true false d1) in *. destruct (run true fs d3 p0) as [ [ [d4 p4] l4]|] eqn:E4; [|discriminate]. inversion E2; subst.
  eapply gone_stays; [eassumption|reflexivity].
Qed.

(** The claim for requests that cover only some of the events, "exactly the remaining events are
    left", is false: such a request changes nothing and is never answered. Here for all of them,
    wherever the process runs. *)
Theorem C32_part_refuted : forall rooted g xs, stored_segment g -> ~ covered xs g ->
  exists d p ss, run rooted [Mapped; Request (Erase xs); Request (Extract xs)] (on_disk g) spawn_passive = Some (d, p, [(Erase xs, Silence); (Extract xs, Slices ss)]) /\
    d_store d = Some g /\ rows ss = filter (in_set xs) (rows (sg_slices g)).
Proof.
  intros rooted g xs [G Gne] C. cbn [run step]. cbn [p_segment p_deferred p_next p_quit spawn_passive d_store on_disk replay handle run].
  destruct (subset_spec g xs G Gne) as (ids & -> & Hi). destruct (is_subset ids xs); [exfalso; apply C, Hi; reflexivity|].
  destruct (remaining_spec g xs G) as (ss & -> & _). cbn [p_segment p_deferred p_next p_quit].
  destruct (extract_spec g xs G) as (ss' & -> & R). eexists _, _, _. split; [reflexivity|]. split; [reflexivity|assumption].
Qed.
(** After such a request, a request that covers all events is answered, and has no effect: the
    path of the file has been changed. All events are there after a restart. *)
Theorem C32_part_then_whole_refuted : forall rooted g xs ys, stored_segment g -> ~ covered xs g -> covered ys g ->
  exists d p ss, run rooted [Mapped; Request (Erase xs); Request (Erase ys); Restart; Mapped; Request (Extract ys)] (on_disk g) spawn_passive
      = Some (d, p, [(Erase xs, Silence); (Erase ys, Done); (Extract ys, Slices ss)]) /\
    d_store d = Some g /\ rows ss = rows (sg_slices g).
Proof.
  intros rooted g xs ys [G Gne] C D. cbn [run step]. cbn [p_segment p_deferred p_next p_quit spawn_passive d_store on_disk replay handle run].
  destruct (subset_spec g xs G Gne) as (ids & E & Hi). rewrite E. destruct (is_subset ids xs); [exfalso; apply C, Hi; reflexivity|].
  destruct (remaining_spec g xs G) as (ss & -> & _). cbn [p_segment p_deferred p_next p_quit].
  destruct (subset_spec g ys G Gne) as (ids' & E' & Hj). rewrite E' in E. inversion E; subst ids'. rewrite E'.
  assert (is_subset ids ys = true) as -> by (apply Hj; assumption).
  assert (remove_all rooted true (on_disk g) = on_disk g) as Er by (unfold remove_all; destruct rooted; reflexivity). rewrite Er.
  cbn [run step app]. cbn [p_segment p_deferred p_next p_quit spawn_passive d_store on_disk replay handle run].
  destruct (extract_spec g ys G) as (ss' & -> & R). eexists _, _, _. split; [reflexivity|]. split; [reflexivity|].
  rewrite R. clear -D. unfold covered in D. revert D. generalize (rows (sg_slices g)) as rs. induction rs as [|r rs IH]; intros D; [reflexivity|].
  cbn. rewrite D by (left; reflexivity). f_equal. apply IH. intros. apply D. right. assumption.
Qed.
(** If the process does not run in the database directory, no request removes anything, and
    requests that cover all events are answered as if they did. *)
Theorem C32_whole_elsewhere_refuted : forall g xs, stored_segment g -> covered xs g ->
  exists d p, run false [Mapped; Request (Erase xs); Restart; Mapped] (on_disk g) spawn_passive = Some (d, p, [(Erase xs, Done)]) /\ d_store d = Some g.
Proof.
  intros g xs [G Gne] C. cbn [run step]. cbn [p_segment p_deferred p_next p_quit spawn_passive d_store on_disk replay handle run].
  destruct (subset_spec g xs G Gne) as (ids & -> & Hi). assert (is_subset ids xs = true) as -> by (apply Hi; assumption).
  cbn. eexists _, _. split; reflexivity.
Qed.
(** A request that arrives before the file is loaded is carried out and never answered. *)
Theorem C32_early_refuted : forall g xs, stored_segment g -> covered xs g ->
  exists d p, run true [Request (Erase xs); Mapped] (on_disk g) spawn_passive = Some (d, p, [(Erase xs, Silence)]) /\ d_store d = None.
Proof.
  intros g xs [G Gne] C. cbn [run step]. cbn [p_segment p_deferred p_next p_quit spawn_passive d_store on_disk replay handle run app].
  destruct (subset_spec g xs G Gne) as (ids & -> & Hi). assert (is_subset ids xs = true) as -> by (apply Hi; assumption).
  cbn. eexists _, _. split; reflexivity.
Qed.

(** * Active stores *)

(** Until its stream ends a store does what it should: for all sequences of slices with
    increasing IDs and of requests, every lookup finds the events that were added and not erased
    since, every request is answered, and the file then written has exactly the events left. *)
Theorem C32_active : forall is u, ~ In Persist is -> ordered (added is) ->
  exists a l g, feed (is ++ [Persist]) (spawn_active u) = Some (a, l) /\ map replied l = map Some (answers is []) /\
    a_file a = Some g /\ rows (sg_slices g) = expected is [] /\ ordered (sg_slices g).
Proof.
  intros is u P O. destruct (feed_spec is (spawn_active u)) as (a & l & E & H1 & H2 & H3 & H4).
  - assumption.
  - split; constructor.
  - assumption.
  - intros r q [].
  - eexists _, _, _. rewrite feed_app, E. cbn [feed take]. split; [reflexivity|]. rewrite app_nil_r. split; [exact H4|]. split; [reflexivity|]. split; [exact H3|assumption].
Qed.
(** The file, read by a passive store: lookups find the events that were added and not erased. *)
Theorem C32_handover : forall rooted is u xs, ~ In Persist is -> ordered (added is) -> expected is [] <> [] ->
  exists a l g d p ss, feed (is ++ [Persist]) (spawn_active u) = Some (a, l) /\ a_file a = Some g /\
    run rooted [Mapped; Request (Extract xs)] (on_disk g) spawn_passive = Some (d, p, [(Extract xs, Slices ss)]) /\
    rows ss = filter (in_set xs) (expected is []).
Proof.
  intros rooted is u xs P O Hne. destruct (C32_active is u P O) as (a & l & g & E & _ & F & R & G).
  destruct (extract_spec g xs G) as (ss & Es & Rs). eexists a, l, g, _, _, ss. split; [assumption|]. split; [assumption|]. split.
  - cbn [run step]. cbn [p_segment p_deferred p_next p_quit spawn_passive d_store on_disk replay handle run]. rewrite Es. reflexivity.
  - rewrite Rs, R. reflexivity.
Qed.
(** After that, "lookups find the events that were added and not erased" is false of a store that
    is still running: whatever was added, nothing is found. Erasures are answered, and the file
    still has the events. *)
Theorem C32_active_after_refuted : forall is u xs ys, ~ In Persist is -> ordered (added is) ->
  exists a l g, feed (is ++ [Persist; Ask (Extract xs); Ask (Erase ys)]) (spawn_active u) = Some (a, l ++ [(Extract xs, Slices []); (Erase ys, Done)]) /\
    a_file a = Some g /\ rows (sg_slices g) = expected is [].
Proof.
  intros is u xs ys P O. destruct (feed_spec is (spawn_active u)) as (a & l & E & H1 & H2 & H3 & H4).
  - assumption.
  - split; constructor.
  - assumption.
  - intros r q [].
  - rewrite feed_app, E. cbn [feed take a_builder a_file sg_slices sg_id].
    unfold extract, remaining. rewrite seg_lookup_spec by (split; constructor). cbn.
    eexists _, _, _. split; [reflexivity|]. split; [reflexivity|exact H3].
Qed.

(** * The hypotheses are met *)

Definition small_slice (o n : nat) : slice :=
  {| s_layout := two_columns; s_offset := Some o; s_rows := map (fun i => [DCount (N.of_nat (o + i)); DString [97%N]]) (seq 0 n) |}.
Definition small_segment : segment := Seg 7 [small_slice 2 3; small_slice 5 2].
Definition low_ids : list bool := [false; false; false; true; true; true].
Definition many_ids : list bool := repeat true 9.
Lemma small_segment_stored : stored_segment small_segment.
Proof.
  split; [|discriminate]. split.
  - repeat apply Forall_cons; try apply Forall_nil; split; discriminate.
  - repeat (constructor; [|repeat (apply Forall_cons; [cbn; lia|]); apply Forall_nil]). constructor.
Qed.
Lemma low_not_covered : ~ covered low_ids small_segment.
Proof. intros H. specialize (H (two_columns, 2, [DCount 2%N; DString [97%N]])). discriminate H. left. reflexivity. Qed.
Lemma many_covered : covered many_ids small_segment.
Proof. intros r H. cbn in H. repeat (destruct H as [<-|H]; [reflexivity|]). destruct H. Qed.
(** Five events, a request that covers three of them and one that covers all. *)
Example C32_example : stored_segment small_segment /\ ~ covered low_ids small_segment /\ covered many_ids small_segment /\
  map row_id (filter (in_set low_ids) (rows (sg_slices small_segment))) = [3; 4; 5].
Proof. split; [apply small_segment_stored|]. split; [apply low_not_covered|]. split; [apply many_covered|]. vm_compute. reflexivity. Qed.
(** A history with erasures before and after restarts, and what becomes of the file. *)
Example C32_only_asked_example :
  let es := [Request (Extract low_ids); Mapped; Request (Erase low_ids); Restart; Request (Erase [true]); Mapped; Request (Extract many_ids)] in
  match run true es (on_disk small_segment) spawn_passive with
  | Some (d, _, l) => d_store d = Some small_segment /\
      map (fun x => match snd x with Slices ss => map row_id (rows ss) | _ => [] end) l = [[3; 4; 5]; []; []; [2; 3; 4; 5; 6]]
  | None => False
  end.
Proof. vm_compute. auto. Qed.
Example C32_whole_example :
  match run true ([Mapped; Request (Erase low_ids)] ++ Restart :: Mapped :: [Request (Extract low_ids)] ++ Request (Erase many_ids) :: [Restart; Mapped; Request (Extract low_ids)])
    (on_disk small_segment) spawn_passive with
  | Some (d, p, l) => d_store d = None /\ p_quit p = true /\ map (fun x => match snd x with Done => true | _ => false end) l = [false; false; true; false]
  | None => False
  end.
Proof. vm_compute. auto. Qed.
(** Two slices, an erasure between them and one after, and lookups. *)
Definition small_stream : list incoming :=
  [Add (small_slice 2 3); Ask (Erase low_ids); Ask (Extract many_ids); Add (small_slice 5 2); Ask (Erase [false; false; true]); Ask (Extract many_ids)].
Example C32_active_example : ~ In Persist small_stream /\ ordered (added small_stream) /\ map row_id (expected small_stream []) = [5; 6] /\
  map (fun x => map row_id (snd x)) (answers small_stream []) = [[]; [2]; []; [5; 6]].
Proof.
  split; [cbn; intuition discriminate|]. split; [apply small_segment_stored|]. vm_compute. auto.
Qed.

Definition assumptions_local_store := (C32_only_asked, C32_whole, C32_part_refuted, C32_part_then_whole_refuted, C32_whole_elsewhere_refuted,
  C32_early_refuted, C32_active, C32_handover, C32_active_after_refuted).
Print Assumptions assumptions_local_store.
