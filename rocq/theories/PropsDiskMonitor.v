(** * C33: the disk monitor *)

From Coq Require Import Arith NArith ZArith List Bool Lia ZifyBool ZifyNat ZifyN.
From Verif Require Import DiskMonitorModel DiskMonitorProofs.
Import ListNotations.

(** ** Every run of the monitor, whatever happens in between *)

(** A run of the erase handler asks for partitions that are in the directory, each
    once, no more than the step size, and none that is younger than one it keeps. *)
Theorem C33_oldest_first : forall c s ask s',
  step c s (Erase ask) s' ->
  exists kept, Permutation (ask ++ kept) (dir s) /\
    (forall p q, In p ask -> In q kept -> (p_mtime p <= p_mtime q)%N) /\
    (length ask <= step_size c)%nat.
Proof. exact step_erase_asks. Qed.

(** Partitions are asked for only as often as the directory was found too large,
    above the high mark by a scan or above the low mark after an erasure, and at
    most a step's worth each time. *)
Theorem C33_bounded : forall c ps n l s,
  history c (initial ps n) l s ->
  (length (flat_map asks l) <= step_size c * length (filter (too_large c) l))%nat.
Proof.
  intros c ps n l s H. pose proof (erases_history _ _ _ _ H) as E.
  pose proof (asks_history _ _ _ _ H) as A. cbn [initial erases] in E.
  eapply Nat.le_trans; [exact A|]. apply Nat.mul_le_mono_l. lia.
Qed.

(** While no scan finds the directory above the high mark, nothing is erased, not
    even when it is above the low mark. *)
Theorem C33_below_high_nothing_happens : forall c ps n l s,
  history c (initial ps n) l s ->
  (forall t, In (t, Ping true) l -> (db_size t <= high c)%N) ->
  flat_map asks l = [] /\ erases s = 0%nat /\ flight s = [].
Proof.
  intros c ps n l s H.
  assert (G : forall s0 l s, history c s0 l s ->
    erases s0 = 0%nat -> flight s0 = [] ->
    (forall t, In (t, Ping true) l -> (db_size t <= high c)%N) ->
    flat_map asks l = [] /\ erases s = 0%nat /\ flight s = []).
  { clear. intros s0 l s H. induction H as [|s e s1 l s2 S1 H IH]; intros E F P; [auto|].
    assert (K : asks (s, e) = [] /\ erases s1 = 0%nat /\ flight s1 = []).
    { inversion S1; subst; try lia; try (rewrite F in *; destruct i; discriminate).
      - unfold on_ping. destruct (purging s); [auto|]. destruct b; cbn [negb]; [|auto].
        specialize (P s (or_introl eq_refl)).
        replace (high c <? db_size s)%N with false by lia. auto.
      - auto. }
    destruct K as (K1 & K2 & K3). cbn [flat_map]. rewrite K1. cbn [app].
    apply IH; auto. intros t I. apply P. now right. }
  intros P. now apply (G _ _ _ H).
Qed.

(** The monitor does not get stuck: whenever a purge counts as in progress, an
    erase message is waiting or the index owes an answer. So once all answers
    have arrived, the next scan that finds the directory above the high mark
    starts a purge. *)
Theorem C33_not_stuck : forall c ps n l s,
  valid c = true -> history c (initial ps n) l s ->
  (purging s = true -> (0 < erases s)%nat \/ flight s <> []) /\
  (erases s = 0%nat -> flight s = [] -> (high c < db_size s)%N ->
   exists s', step c s (Ping true) s' /\ erases s' = 1%nat).
Proof.
  intros c ps n l s V H.
  assert (L : live s).
  { eapply (history_ind c live); [|exact H|discriminate].
    intros. eapply live_step; eauto. }
  split; [exact L|]. intros E F A.
  exists (on_ping c true s). split; [constructor|]. unfold on_ping.
  destruct (purging s) eqn:P.
  - destruct (L P) as [K|K]; [lia|congruence].
  - cbn [negb]. replace (high c <? db_size s)%N with true by lia.
    cbn [erases]. lia.
Qed.

(** ** A purge in steps of one that no scan interrupts *)

(** The state after a scan has started a purge. *)
Definition started (c : config) (s : state) : Prop :=
  erases s = 1%nat /\ flight s = [] /\ (low c < db_size s)%N.

(** Whatever fails or succeeds, the index is asked to erase, and erases, a
    partition only while the directory is above the low mark, and then the
    oldest one. *)
Theorem C33_stops_at_low_mark : forall c s l s',
  step_size c = 1%nat -> started c s -> history c s l s' ->
  Forall (fun x => undisturbed (snd x)) l ->
  (forall t ask, In (t, Erase ask) l -> (low c < db_size t)%N) /\
  (forall t id ok removed, In (t, Answer id ok removed) l ->
     (low c < db_size t)%N /\ oldest id (dir t)).
Proof.
  intros c s l s' One (E & F & A) H U.
  pose proof (shape_passed c s l s' One H U (shape_due c s E F A)) as P.
  pose proof (history_steps c s l s' H) as St.
  split.
  - intros t ask I. specialize (P t _ I). destruct (St _ _ I) as [t' S1].
    inversion S1; subst; inversion P; try lia; assumption.
  - intros t id ok removed I. specialize (P t _ I). destruct (St _ _ I) as [t' S1].
    inversion S1 as [| | |? i g ? ? ? N| |]; subst.
    inversion P as [E' F'|E' F' A'|g' id' E' F' A' O|g' id' ok' E' F'];
      rewrite F' in N; try (destruct i; discriminate);
      (destruct i as [|i]; [|destruct i; discriminate]); cbn [nth_error] in N; [|discriminate].
    injection N as <- <-. split; [exact A'|exact O].
Qed.

(** If nothing fails, the purge ends, after a number of events bounded by the
    number of partitions, and when it has ended the directory is at or below the
    low mark or no partition is left. *)
Theorem C33_reaches_low_mark : forall c s l s',
  step_size c = 1%nat -> started c s -> history c s l s' -> Forall smooth l ->
  (length l <= 3 * length (dir s) + 1)%nat /\
  (erases s' = 0%nat -> flight s' = [] -> (db_size s' <= low c)%N \/ dir s' = []).
Proof.
  intros c s l s' One (E & F & A) H.
  assert (G : forall s l s', history c s l s' -> shape c s -> pursuing c s ->
    Forall smooth l -> (length l + measure s' <= measure s)%nat /\ pursuing c s').
  { clear -One. intros s l s' H.
    induction H as [|s e s1 l s2 S1 H IH]; intros Sh P Sm; [split; [cbn; lia|exact P]|].
    inversion Sm as [|? ? Sm1 Sml]; subst.
    assert (Sh1 : shape c s1).
    { eapply shape_step; eauto. exact (smooth_undisturbed _ Sm1). }
    pose proof (pursuing_step c s e s1 One Sm1 S1 Sh P) as P1.
    pose proof (measure_step c s e s1 One Sm1 S1 Sh) as M1.
    destruct (IH Sh1 P1 Sml) as [IH1 IH2]. split; [cbn [length]; lia|exact IH2]. }
  intros Sm. destruct (G s l s' H) as [G1 [G2 _] ]; auto.
  - now apply shape_due.
  - split; [intros; lia|]. intros g id ok K. rewrite F in K. discriminate.
  - split; [|exact G2]. unfold measure in G1. rewrite E, F in G1. lia.
Qed.

(** While the purge has not ended, something can happen: the next event does not
    depend on a scan. *)
Theorem C33_purge_proceeds : forall c s l s',
  step_size c = 1%nat -> started c s -> history c s l s' ->
  Forall (fun x => undisturbed (snd x)) l ->
  erases s' <> 0%nat \/ flight s' <> [] ->
  exists e s'', undisturbed e /\ step c s' e s''.
Proof.
  intros c s l s' One (E & F & A) H U B.
  pose proof (shape_history c s l s' One H U (shape_due c s E F A)) as P.
  inversion P as [E' F'|E' F' A'|g' id' E' F' A' O|g' id' ok' E' F'].
  - destruct B; congruence.
  - exists (Erase []), (on_erase c None s'). split; [exact Logic.I|].
    apply step_erase_unreadable. lia.
  - exists (Answer id' true true), (on_index 0 true true s'). split; [exact Logic.I|].
    eapply step_index. rewrite F'. reflexivity.
  - exists (Response true ok'), (on_response c 0 true s'). split; [exact Logic.I|].
    eapply step_response. rewrite F'. reflexivity.
Qed.

(** ** What does not hold *)

Definition p1 := Part 1 10 100.
Definition p2 := Part 2 10 200.
Definition p3 := Part 3 10 300.

(** With a step size above one, every single answer starts a further step: three
    partitions of ten are deleted although deleting two was enough, and the last
    one goes when the directory is already below the low mark. *)
Theorem C33_batch_overshoot_refuted : exists c ps n l s t id,
  valid c = true /\ step_size c = 2%nat /\ history c (initial ps n) l s /\
  length (filter (fun x => match snd x with Ping _ | Change _ _ => true | _ => false end) l)
    = 1%nat /\
  In (t, Answer id true true) l /\ In id (map p_id (dir t)) /\ (db_size t <= low c)%N /\
  dir s = [].
Proof.
  pose (c := Config 25 15 2).
  pose (s0 := initial [p1; p2; p3] 0).
  pose (s1 := on_ping c true s0).
  pose (s2 := on_erase c (Some [p1; p2; p3]) s1).
  pose (s3 := on_index 0 true true s2).
  pose (s4 := on_response c 0 true s3).
  pose (s5 := on_erase c (Some [p2; p3]) s4).
  pose (s6 := on_index 0 true true s5).
  pose (s7 := on_index 2 true true s6).
  exists c, [p1; p2; p3], 0%N,
    [(s0, Ping true); (s1, Erase [p1; p2]); (s2, Answer 1 true true);
     (s3, Response true true); (s4, Erase [p2; p3]); (s5, Answer 2 true true);
     (s6, Answer 3 true true)], s7, s6, 3%nat.
  split; [reflexivity|]. split; [reflexivity|]. split.
  - eapply history_cons; [apply (step_ping c s0 true)|].
    eapply history_cons.
    { apply (step_erase c s1 [p1; p2; p3]); [vm_compute; auto|reflexivity|].
      repeat constructor; vm_compute; discriminate. }
    eapply history_cons; [apply (step_index c s2 0 0 1 true true); reflexivity|].
    eapply history_cons; [apply (step_response c s3 0 0 1 true true); reflexivity|].
    eapply history_cons.
    { apply (step_erase c s4 [p2; p3]); [vm_compute; auto|reflexivity|].
      repeat constructor; vm_compute; discriminate. }
    eapply history_cons; [apply (step_index c s5 0 0 2 true true); reflexivity|].
    eapply history_cons; [apply (step_index c s6 2 1 3 true true); reflexivity|].
    apply history_nil.
  - vm_compute. repeat split; auto 10; discriminate.
Qed.

(** Even in steps of one, a scan that comes between an answer and the erase message
    it causes starts a second purge next to the first: a partition is deleted
    although the directory is at the low mark. *)
Theorem C33_overlap_overshoot_refuted : exists c ps n l s t id,
  valid c = true /\ step_size c = 1%nat /\ history c (initial ps n) l s /\
  Forall (fun x => match snd x with Change _ _ => False | _ => True end) l /\
  In (t, Answer id true true) l /\ In id (map p_id (dir t)) /\ (db_size t <= low c)%N.
Proof.
  pose (c := Config 15 10 1).
  pose (s0 := initial [p1; p2; p3] 0).
  pose (s1 := on_ping c true s0).
  pose (s2 := on_erase c (Some [p1; p2; p3]) s1).
  pose (s3 := on_index 0 true true s2).
  pose (s4 := on_response c 0 true s3).
  pose (s5 := on_ping c true s4).
  pose (s6 := on_erase c (Some [p2; p3]) s5).
  pose (s7 := on_index 0 true true s6).
  pose (s8 := on_erase c (Some [p3]) s7).
  pose (s9 := on_index 1 true true s8).
  exists c, [p1; p2; p3], 0%N,
    [(s0, Ping true); (s1, Erase [p1]); (s2, Answer 1 true true);
     (s3, Response true true); (s4, Ping true); (s5, Erase [p2]);
     (s6, Answer 2 true true); (s7, Erase [p3]); (s8, Answer 3 true true)],
    s9, s8, 3%nat.
  split; [reflexivity|]. split; [reflexivity|]. split.
  - eapply history_cons; [apply (step_ping c s0 true)|].
    eapply history_cons.
    { apply (step_erase c s1 [p1; p2; p3]); [vm_compute; auto|reflexivity|].
      repeat constructor; vm_compute; discriminate. }
    eapply history_cons; [apply (step_index c s2 0 0 1 true true); reflexivity|].
    eapply history_cons; [apply (step_response c s3 0 0 1 true true); reflexivity|].
    eapply history_cons; [apply (step_ping c s4 true)|].
    eapply history_cons.
    { apply (step_erase c s5 [p2; p3]); [vm_compute; auto|reflexivity|].
      repeat constructor; vm_compute; discriminate. }
    eapply history_cons; [apply (step_index c s6 0 1 2 true true); reflexivity|].
    eapply history_cons.
    { apply (step_erase c s7 [p3]); [vm_compute; auto|reflexivity|].
      repeat constructor; vm_compute; discriminate. }
    eapply history_cons; [apply (step_index c s8 1 2 3 true true); reflexivity|].
    apply history_nil.
  - split; [repeat constructor|]. vm_compute. repeat split; auto 12; discriminate.
Qed.

(** In the same situation the index may be asked to erase a partition that it is
    already erasing. *)
Theorem C33_asked_twice_refuted : exists c ps n l s,
  valid c = true /\ history c (initial ps n) l s /\
  NoDup (map p_id ps) /\
  Forall (fun x => match snd x with Change _ _ => False | _ => True end) l /\
  exists g1 g2 id, g1 <> g2 /\ flight s = [Request g1 id None; Request g2 id None].
Proof.
  pose (c := Config 15 10 1).
  pose (s0 := initial [p1; p2; p3] 0).
  pose (s1 := on_ping c true s0).
  pose (s2 := on_erase c (Some [p1; p2; p3]) s1).
  pose (s3 := on_index 0 true true s2).
  pose (s4 := on_response c 0 true s3).
  pose (s5 := on_ping c true s4).
  pose (s6 := on_erase c (Some [p2; p3]) s5).
  pose (s7 := on_erase c (Some [p2; p3]) s6).
  exists c, [p1; p2; p3], 0%N,
    [(s0, Ping true); (s1, Erase [p1]); (s2, Answer 1 true true);
     (s3, Response true true); (s4, Ping true); (s5, Erase [p2]); (s6, Erase [p2])], s7.
  split; [reflexivity|]. split.
  - eapply history_cons; [apply (step_ping c s0 true)|].
    eapply history_cons.
    { apply (step_erase c s1 [p1; p2; p3]); [vm_compute; auto|reflexivity|].
      repeat constructor; vm_compute; discriminate. }
    eapply history_cons; [apply (step_index c s2 0 0 1 true true); reflexivity|].
    eapply history_cons; [apply (step_response c s3 0 0 1 true true); reflexivity|].
    eapply history_cons; [apply (step_ping c s4 true)|].
    eapply history_cons.
    { apply (step_erase c s5 [p2; p3]); [vm_compute; auto|reflexivity|].
      repeat constructor; vm_compute; discriminate. }
    eapply history_cons.
    { apply (step_erase c s6 [p2; p3]); [vm_compute; auto|reflexivity|].
      repeat constructor; vm_compute; discriminate. }
    apply history_nil.
  - split; [vm_compute; repeat constructor; cbn; intuition discriminate|].
    split; [repeat constructor|].
    exists 1%nat, 2%nat, 2%nat. split; [discriminate|reflexivity].
Qed.

(** ** Examples *)

(** A purge of two partitions out of three. *)
Example C33_purge_example : exists s l s',
  started (Config 25 10 1) s /\ history (Config 25 10 1) s l s' /\ Forall smooth l /\
  Forall (fun x => undisturbed (snd x)) l /\
  valid (Config 25 10 1) = true /\
  flat_map asks l = [p1; p2] /\ dir s' = [p3] /\
  erases s' = 0%nat /\ flight s' = [] /\ purging s' = false.
Proof.
  pose (c := Config 25 10 1).
  pose (s1 := on_ping c true (initial [p3; p1; p2] 0)).
  pose (s2 := on_erase c (Some [p1; p2; p3]) s1).
  pose (s3 := on_index 0 true true s2).
  pose (s4 := on_response c 0 true s3).
  pose (s5 := on_erase c (Some [p2; p3]) s4).
  pose (s6 := on_index 0 true true s5).
  pose (s7 := on_response c 0 true s6).
  exists s1, [(s1, Erase [p1]); (s2, Answer 1 true true); (s3, Response true true);
              (s4, Erase [p2]); (s5, Answer 2 true true); (s6, Response true true)], s7.
  split; [vm_compute; auto|]. split.
  - eapply history_cons.
    { apply (step_erase c s1 [p1; p2; p3]); [vm_compute; auto| |].
      - apply Permutation_sym. apply (Permutation_cons_append [p1; p2] p3).
      - repeat constructor; vm_compute; discriminate. }
    eapply history_cons; [apply (step_index c s2 0 0 1 true true); reflexivity|].
    eapply history_cons; [apply (step_response c s3 0 0 1 true true); reflexivity|].
    eapply history_cons.
    { apply (step_erase c s4 [p2; p3]); [vm_compute; auto| |].
      - apply (perm_swap p3 p2 []).
      - repeat constructor; vm_compute; discriminate. }
    eapply history_cons; [apply (step_index c s5 0 1 2 true true); reflexivity|].
    eapply history_cons; [apply (step_response c s6 0 1 2 true true); reflexivity|].
    apply history_nil.
  - split; [repeat (apply Forall_cons; [first [left; discriminate | vm_compute; auto]|]); apply Forall_nil|].
    split; [repeat constructor|]. vm_compute. auto 10.
Qed.

(** Scans below the high mark and above the low mark. *)
Example C33_below_high_example :
  history (Config 35 10 1) (initial [p1; p2; p3] 0)
    [(initial [p1; p2; p3] 0, Ping true)] (initial [p1; p2; p3] 0) /\
  (10 < db_size (initial [p1; p2; p3] 0) <= 35)%N.
Proof.
  split; [|vm_compute; split; [reflexivity|discriminate] ].
  eapply history_cons; [apply (step_ping _ (initial [p1; p2; p3] 0) true)|].
  apply history_nil.
Qed.

Definition assumptions_DiskMonitor :=
  (C33_oldest_first, C33_bounded, C33_below_high_nothing_happens, C33_not_stuck,
   C33_stops_at_low_mark, C33_reaches_low_mark, C33_purge_proceeds,
   C33_batch_overshoot_refuted, C33_overlap_overshoot_refuted,
   C33_asked_twice_refuted).
Print Assumptions assumptions_DiskMonitor.
