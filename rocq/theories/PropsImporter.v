(** C23: event IDs are never reused across restarts and crashes. *)
From Coq Require Import List NArith Lia Bool Sorted.
From Verif Require Import ImporterModel ImporterProofs.
Import ListNotations.
Open Scope N_scope.

(** Specification, independent of the model: a list of half-open ranges is
    increasing and disjoint. *)
Definition increasing_disjoint (rs : list (N * N)) : Prop :=
  forall i j a b c d, (i < j)%nat ->
    nth_error rs i = Some (a, b) -> nth_error rs j = Some (c, d) ->
    a <= b /\ b <= c.

Lemma sorted_increasing : forall rs hw,
  Forall (fun r => hw <= fst r /\ fst r <= snd r) rs ->
  StronglySorted before rs -> increasing_disjoint rs.
Proof.
  induction rs as [|r rs IH]; intros hw F S i j a b c d Hij Hi Hj.
  - destruct i; discriminate.
  - apply Forall_cons_iff in F as [F1 F2]. apply StronglySorted_inv in S as [S1 S2].
    destruct j as [|j]; [lia|]. cbn in Hj.
    destruct i as [|i]; cbn in Hi.
    + injection Hi as ->. split; [cbn [fst snd] in F1; lia|].
      apply nth_error_In in Hj. rewrite Forall_forall in S2.
      apply (S2 _ Hj).
    + eapply (IH hw F2 S1 i j); eauto. lia.
Qed.

(** C23. Any history of starts, imports, shutdowns and crashes (also crashes
    immediately before or after a write of the state file), with writes that
    take effect completely or not at all, hands out pairwise disjoint,
    increasing ID ranges. *)
Theorem C23_ids_unique_across_crashes : forall os,
  Forall atomic_op os -> increasing_disjoint (snd (irun init_istate os)).
Proof.
  intros os H. destruct (irun_ids os 0 init_istate Inv_init H).
  eapply sorted_increasing; eauto.
Qed.
Print Assumptions C23_ids_unique_across_crashes.

(** A slice of [n] rows gets exactly [n] consecutive IDs. *)
Theorem C23_range_length : forall s n w a b s',
  istep s (NextId n w) = (s', Some (a, b)) -> b = a + n.
Proof.
  intros [pr f] n w a b s' H. cbn in H. destruct pr as [bl|]; [|discriminate].
  destruct (b_end bl <=? b_next bl + n).
  - destruct (write_file w _ f) as [f' alive]. destruct alive; inversion H; auto.
  - inversion H; auto.
Qed.
Print Assumptions C23_range_length.

(** Liveness side: under the same hypotheses a start from the reached state
    never fails because of the state file, and the running process can always
    hand out the next range. *)
Theorem C23_start_succeeds : forall os,
  Forall atomic_op os -> proc (fst (irun init_istate os)) = None ->
  forall g, exists b, proc (fst (istep (fst (irun init_istate os)) (Start g Wok))) = Some b.
Proof.
  intros os H Hn g. destruct (irun_inv os 0 init_istate Inv_init H) as (hw & _ & I').
  destruct I' as [(b & L & _) _].
  destruct (fst (irun init_istate os)) as [pr f]. cbn in *. subst pr.
  rewrite L. cbn. eexists; reflexivity.
Qed.
Print Assumptions C23_start_succeeds.

(** Non-vacuity: a history with a crash and a clean restart. *)
Definition g0 : block := {| b_next := 0; b_end := 0 |}.
Definition example_history : list iop :=
  [Start g0 Wok; NextId 100 Wok; Crash; Start g0 Wok; NextId 7 Wok;
   Shutdown Wok; Start g0 Wok; NextId 3 Wok; NextId 9000000 Wcrash_before;
   Start g0 Wok; NextId 1 Wok].
Example C23_example :
  Forall atomic_op example_history /\
  snd (irun init_istate example_history) =
    [(0, 100); (8388608, 8388615); (8388615, 8388618); (16777216, 16777217)].
Proof.
  split; [|vm_compute; reflexivity].
  unfold example_history, atomic_op, atomic. repeat (apply Forall_cons || apply Forall_nil); auto.
Qed.

(** Without atomic writes the property fails: a crash in the middle of writing
    the state file (the file is truncated first) leaves a prefix of the number,
    and IDs are handed out twice. *)
Theorem C23_torn_write_refuted : exists os,
  ~ increasing_disjoint (snd (irun init_istate os)).
Proof.
  exists [Start g0 Wok; NextId 100 Wok; NextId 8388608 (Wtorn 1);
          Start g0 Wok; NextId 100 Wok].
  intro H. specialize (H 0%nat 1%nat 0 100 1 101). 
  assert (E : snd (irun init_istate [Start g0 Wok; NextId 100 Wok; NextId 8388608 (Wtorn 1);
          Start g0 Wok; NextId 100 Wok]) = [(0, 100); (1, 101)]) by (vm_compute; reflexivity).
  rewrite E in H. destruct (H ltac:(lia) eq_refl eq_refl). lia.
Qed.
Print Assumptions C23_torn_write_refuted.

(** [next_id] ignores the error returned by [get_next_block]: if the state
    cannot be written and the process crashes later, IDs are reused. *)
Theorem C23_ignored_write_error_refuted : exists os,
  Forall (fun o => match o with NextId _ w => w = Wok \/ w = Wfail
                           | Start _ w | Shutdown w => w = Wok | Crash => True end) os /\
  ~ increasing_disjoint (snd (irun init_istate os)).
Proof.
  exists [Start g0 Wok; NextId 8388608 Wfail; NextId 100 Wok; Crash;
          Start g0 Wok; NextId 100 Wok].
  split. { repeat (apply Forall_cons || apply Forall_nil); auto. }
  intro H. 
  assert (E : snd (irun init_istate [Start g0 Wok; NextId 8388608 Wfail; NextId 100 Wok; Crash;
          Start g0 Wok; NextId 100 Wok]) = [(0, 8388608); (8388608, 8388708); (8388608, 8388708)])
    by (vm_compute; reflexivity).
  rewrite E in H. destruct (H 1%nat 2%nat _ _ _ _ ltac:(lia) eq_refl eq_refl). lia.
Qed.
Print Assumptions C23_ignored_write_error_refuted.

(** After a failed start (unreadable state file) the destructor overwrites the
    file with the uninitialised block; a later start then reuses IDs. *)
Theorem C23_failed_start_overwrites_refuted : exists os s,
  (* [s] is a state reached by atomic writes, with its file then emptied *)
  s = {| proc := None; file := Some [] |} /\
  fst (irun init_istate [Start g0 Wok; NextId 100 Wok; Crash]) =
    {| proc := None; file := Some (state_text false {| b_next := 0; b_end := 8388608 |}) |} /\
  snd (irun s os) = [(0, 100)] /\ Forall atomic_op os.
Proof.
  exists [Start g0 Wok; Start g0 Wok; NextId 100 Wok], {| proc := None; file := Some [] |}.
  repeat split; try (vm_compute; reflexivity).
  unfold atomic_op, atomic. repeat (apply Forall_cons || apply Forall_nil); auto.
Qed.
Print Assumptions C23_failed_start_overwrites_refuted.
