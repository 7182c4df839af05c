(** C62: termination waits for all actors and keeps their order. *)
From Coq Require Import List Bool Arith Lia Permutation.
From Verif Require Import TerminatorModel TerminatorProofs.
Import ListNotations.
Open Scope nat_scope.

(** In both modes, with or without a grace period, for all lists of actors, whenever and in whatever
    order the actors end and messages are handled: *)

(** success is reported only after each of the actors was told to exit or was killed, and has
    ended; *)
Theorem C62_done : forall p grace xs t l1 l2, reach p grace xs t -> t_log t = l1 ++ Done :: l2 ->
  forall a, In (Some a) xs -> In (Ended a) l1 /\ (In (Exit a) l1 \/ In (Kill a) l1).
Proof.
  intros p grace xs t l1 l2 R E a H. pose proof (l_done _ _ _ (i_log _ _ _ (reach_inv p grace xs t R)) l1 tt l2 E a) as X. apply X. unfold present. apply in_flat_map. exists (Some a). split; [exact H|now left].
Qed.
(** failure is reported only if each of the actors has ended or was killed; *)
Theorem C62_failed : forall p grace xs t l1 n l2, reach p grace xs t -> t_log t = l1 ++ Failed n :: l2 ->
  forall a, In (Some a) xs -> In (Ended a) l1 \/ In (Kill a) l1.
Proof.
  intros p grace xs t l1 n l2 R E a H. destruct (l_failed _ _ _ (i_log _ _ _ (reach_inv p grace xs t R)) l1 n l2 E a) as [[X _]|X]; auto. unfold present. apply in_flat_map. exists (Some a). split; [exact H|now left].
Qed.
(** in sequential mode, an actor is told to exit only after all that come before it have ended; *)
Theorem C62_order : forall grace xs t l1 a l2 pre post, reach Sequential grace xs t -> t_log t = l1 ++ Exit a :: l2 ->
  present xs = pre ++ a :: post -> ~ In a pre -> forall b, In b pre -> In (Ended b) l1.
Proof. intros grace xs t l1 a l2 pre post R E. exact (l_order _ _ _ (i_log _ _ _ (reach_inv _ grace xs t R)) eq_refl l1 a l2 E pre post). Qed.
(** in parallel mode, all are told to exit as soon as the request is handled; *)
Theorem C62_all : forall grace xs t a, reach Parallel grace xs t -> t_requested t = true -> In (Some a) xs -> In (Exit a) (t_log t).
Proof.
  intros grace xs t a R Q H. pose proof (i_state _ _ _ (reach_inv _ grace xs t R)) as S. rewrite Q in S. destruct S as (_ & _ & _ & S & _). apply S; [reflexivity|]. unfold present. apply in_flat_map. exists (Some a). split; [exact H|now left].
Qed.
(** no other actors are told to exit or killed; *)
Theorem C62_only : forall p grace xs t a, reach p grace xs t -> In (Exit a) (t_log t) \/ In (Kill a) (t_log t) -> In (Some a) xs.
Proof.
  intros p grace xs t a R H. pose proof (l_only _ _ _ (i_log _ _ _ (reach_inv _ grace xs t R)) a H) as X. unfold present in X. apply in_flat_map in X as (x & X & E). destruct x as [b|]; [|contradiction]. destruct E as [->|[]]. exact X.
Qed.
(** there is at most one answer, and none before the request; *)
Theorem C62_once : forall p grace xs t, reach p grace xs t -> length (answers (t_log t)) <= 1 /\ (answers (t_log t) <> [] -> t_requested t = true).
Proof.
  intros p grace xs t R. pose proof (i_state _ _ _ (reach_inv _ grace xs t R)) as S. destruct (t_requested t).
  - destruct S as (_ & S & _). rewrite S. split; [destruct (t_quit t); lia|reflexivity].
  - destruct S as (_ & _ & _ & _ & _ & _ & _ & S & _). rewrite S. split; [cbn; lia|congruence].
Qed.
(** and no assertion fails. *)
Theorem C62_safe : forall p grace xs t i, reach p grace xs t -> enabled i t -> exists t', step p grace i t = Some t'.
Proof. intros p grace xs t i R. apply (step_some p grace xs). exact (reach_inv _ grace xs t R). Qed.

(** As long as there is no answer, the terminator waits for an actor that it has told to exit or
    killed, and that has not ended; or a message about one that has ended is there. *)
Theorem C62_waits : forall p grace xs t, reach p grace xs t -> t_requested t = true -> answers (t_log t) = [] -> t_downs t = [] ->
  exists a, In (Some a) xs /\ In a (t_monitors t) /\ ~ In (Ended a) (t_log t) /\ (In (Exit a) (t_log t) \/ In (Kill a) (t_log t)).
Proof.
  intros p grace xs t R Q N D. pose proof (reach_inv _ grace xs t R) as [L A DD S]. rewrite Q in S. destruct S as (S1 & S2 & S3 & S4 & S5 & S6 & S7). rewrite N in S2. destruct (t_quit t); [discriminate|]. specialize (S3 eq_refl). specialize (S7 eq_refl). rewrite D, app_nil_r in S7.
  assert (X : exists a, In a (t_remaining t) /\ In a (t_monitors t) /\ (In (Exit a) (t_log t) \/ In (Kill a) (t_log t))).
  { destruct (t_killing t).
    - destruct S7 as (extra & S7). destruct (t_remaining t) as [|a r] eqn:E; [contradiction|]. exists a. split; [now left|]. split; [eapply Permutation_in; [apply Permutation_sym; exact S7|now left]|]. right. apply S6; [reflexivity|now left].
    - destruct p.
      + destruct S7 as (a & B1 & B2 & B3). destruct (back_some _ S3) as (l & b & C1 & C2). rewrite B1 in C2. injection C2 as <-. exists a. rewrite C1, B2, in_app_iff. split; [right; now left|]. split; [now left|auto].
      + destruct (t_remaining t) as [|a r] eqn:E; [contradiction|]. exists a. split; [now left|]. split; [eapply Permutation_in; [apply Permutation_sym; exact S7|now left]|]. left. apply S4; [reflexivity|]. apply in_rev. eapply rests_in; [exact S1|now left]. }
  destruct X as (a & X1 & X2 & X3). exists a. split; [eapply (C62_only p grace xs t); eassumption|]. auto.
Qed.

(** Messages about actors that have ended are handled, in some order, until the terminator quits. *)
Fixpoint handle_downs (p : policy) (as_ : list actor) (t : state) : option state :=
  match as_ with
  | [] => Some t
  | a :: r => if t_quit t || negb (existsb (Nat.eqb a) (t_downs t)) then None else match on_down p a t with Some t' => handle_downs p r t' | None => None end
  end.
Lemma erase_length : forall a xs ys, erase a xs = Some ys -> length xs = S (length ys).
Proof. intros a xs ys E. pose proof (erase_spec a xs) as H. rewrite E in H. destruct H as (l & r & -> & ->). rewrite !app_length. cbn. lia. Qed.
Lemma down_less : forall p a t t', on_down p a t = Some t' -> length (t_remaining t') + length (t_downs t') < length (t_remaining t) + length (t_downs t) /\ (forall b, In (Ended b) (t_log t) -> In (Ended b) (t_log t')) /\
  t_requested t' = t_requested t /\ (t_quit t = false -> t_quit t' = true -> In Done (t_log t')).
Proof.
  intros p a t t' H. unfold on_down in H. destruct (erase a (t_downs t)) as [ds|] eqn:E1; [|discriminate]. apply erase_length in E1. cbn [drop_down t_remaining t_killing] in H. destruct (erase a (t_remaining t)) as [ys|] eqn:E2.
  - apply erase_length in E2. destruct ys as [|y ys].
    + injection H as <-. cbn [finish set_remaining drop_down t_remaining t_downs t_log t_requested t_quit length]. split; [cbn in E2; lia|]. split; [intros b X; rewrite in_app_iff; auto|]. split; [reflexivity|]. intros _ _. rewrite in_app_iff. right. now left.
    + injection H as <-. cbn [set_remaining drop_down t_killing]. destruct (t_killing t); [cbn [set_remaining drop_down t_remaining t_downs t_log t_requested t_quit]; repeat split; auto; [lia|congruence]|].
      destruct p; [|cbn [set_remaining drop_down t_remaining t_downs t_log t_requested t_quit]; repeat split; auto; [lia|congruence]].
      unfold tell_next. cbn [set_remaining t_remaining]. destruct (back (y :: ys)) as [b|]; cbn [tell log monitor set_remaining drop_down t_remaining t_downs t_log t_requested t_quit]; [|repeat split; auto; [lia|congruence]].
      split; [destruct (ended b (t_log t)); cbn [length] in *; lia|]. split; [intros c X; rewrite in_app_iff; auto|]. split; [reflexivity|congruence].
  - destruct (t_killing t); [|discriminate]. injection H as <-. cbn [drop_down t_remaining t_downs t_log t_requested t_quit]. repeat split; auto; [lia|congruence].
Qed.
(** Once all the actors have ended, success is reported after a bounded number of these messages,
    in whatever order they are handled. *)
Theorem C62_ends : forall p grace xs as_ t t', reach p grace xs t -> t_requested t = true -> t_quit t = false -> (forall a, In (Some a) xs -> In (Ended a) (t_log t)) ->
  handle_downs p as_ t = Some t' -> length as_ <= length (t_remaining t) + length (t_downs t) /\ (t_downs t' = [] \/ t_quit t' = true -> In Done (t_log t')).
Proof.
  intros p grace xs. induction as_ as [|a as_ IH]; intros t t' R Q NQ E H; cbn [handle_downs] in H.
  - injection H as <-. split; [cbn; lia|]. intros [D|D]; [|congruence]. exfalso. destruct (answers (t_log t)) as [|e l] eqn:AN.
    + destruct (C62_waits p grace xs t R Q AN D) as (a & X1 & _ & X2 & _). apply X2. now apply E.
    + pose proof (i_state _ _ _ (reach_inv _ grace xs t R)) as S. rewrite Q in S. destruct S as (_ & S & _). rewrite AN, NQ in S. discriminate.
  - rewrite NQ in H. cbn [orb] in H. destruct (existsb (Nat.eqb a) (t_downs t)) eqn:X; [|discriminate]. cbn [negb] in H. destruct (on_down p a t) as [u|] eqn:S; [|discriminate]. apply existsb_exists in X as (b & B & EQ). apply Nat.eqb_eq in EQ. subst b.
    assert (RU : reach p grace xs u) by (eapply (reach_step _ _ _ t (IDown a)); [exact R|split; [exact NQ|exact B]|discriminate|exact S]).
    destruct (down_less p a t u S) as (D1 & D2 & D3 & D4). destruct (t_quit u) eqn:QU.
    + destruct as_ as [|b as_]; cbn [handle_downs] in H; [|rewrite QU in H; discriminate]. injection H as <-. split; [cbn; lia|auto].
    + destruct (IH u t' RU ltac:(congruence) QU ltac:(auto) H) as [I1 I2]. split; [cbn [length]; lia|exact I2].
Qed.

(** * A run *)

Fixpoint run (p : policy) (grace : bool) (xs : list (option actor)) (is : list input) (t : state) : option state :=
  match is with
  | [] => Some t
  | i :: r =>
      if match i with
         | IEnd a => negb (ended a (t_log t))
         | IRequest ys => negb (t_quit t) && negb (t_requested t) && if list_eq_dec (fun x y : option actor => ltac:(decide equality; apply Nat.eq_dec)) ys xs then true else false
         | IDown a => negb (t_quit t) && existsb (Nat.eqb a) (t_downs t)
         | IReminder => negb (t_quit t) && t_reminder t
         | ILast => negb (t_quit t) && t_last t
         end
      then match step p grace i t with Some t' => run p grace xs r t' | None => None end else None
  end.
Lemma run_reach : forall p grace xs is t t', reach p grace xs t -> run p grace xs is t = Some t' -> reach p grace xs t'.
Proof.
  intros p grace xs. induction is as [|i is IH]; intros t t' R H; cbn [run] in H; [injection H as <-; exact R|].
  match type of H with (if ?c then _ else _) = _ => destruct c eqn:C; [|discriminate] end. destruct (step p grace i t) as [u|] eqn:S; [|discriminate]. apply (IH u t'); [|exact H].
  eapply reach_step; [exact R| | |exact S]; destruct i as [ys|a| | |a]; cbn [enabled]; try discriminate; try (apply andb_true_iff in C as [C1 C2]; apply negb_true_iff in C1); auto.
  - apply andb_true_iff in C as [C1 _]. apply andb_true_iff in C1 as [C1 C2]. apply negb_true_iff in C1, C2. auto.
  - split; [exact C1|]. apply existsb_exists in C2 as (b & B & E). apply Nat.eqb_eq in E. now subst.
  - now apply negb_true_iff.
  - apply andb_true_iff in C as [_ C]. intros zs Z. injection Z as <-. destruct (list_eq_dec _ ys xs) in C; [assumption|discriminate].
Qed.
(** Three actors in sequence, one handle without an actor; the second ends by itself, the third is
    killed. *)
Example C62_example : exists t, run Sequential true [Some 1; None; Some 2; Some 3] [IRequest [Some 1; None; Some 2; Some 3]; IEnd 2; IEnd 1; IDown 1; IDown 2; IReminder; IEnd 3; IDown 3] init = Some t /\
  reach Sequential true [Some 1; None; Some 2; Some 3] t /\ t_log t = [Exit 1; Ended 2; Ended 1; Exit 2; Exit 3; Kill 3; Ended 3; Done].
Proof.
  match goal with |- exists t, ?r = Some t /\ _ => destruct r as [t|] eqn:E; [|vm_compute in E; discriminate] end.
  exists t. split; [reflexivity|]. split; [eapply run_reach; [apply reach_init|exact E]|]. vm_compute in E. injection E as <-. reflexivity.
Qed.

(** ** What does not hold *)

(** Failure may be reported although all actors have ended: the last reminder may be handled before
    the messages about them. Without a kill timeout it is sent at once (terminator.cpp:139). *)
Theorem C62_late_refuted : exists p grace xs t l1 n, reach p grace xs t /\ t_log t = l1 ++ [Failed n] /\ forall a, In (Some a) xs -> In (Ended a) l1.
Proof.
  exists Parallel, true, [Some 1; Some 2]. destruct (run Parallel true [Some 1; Some 2] [IRequest [Some 1; Some 2]; IReminder; IEnd 1; IEnd 2; ILast] init) as [t|] eqn:E; [|vm_compute in E; discriminate].
  exists t, [Exit 1; Exit 2; Kill 2; Kill 1; Ended 1; Ended 2], 2. split; [eapply run_reach; [apply reach_init|exact E]|]. vm_compute in E. injection E as <-. split; [reflexivity|]. intros a H. cbn in H. destruct H as [H|[H|[]]]; injection H as <-; cbn; auto 10.
Qed.

Definition assumptions_terminator := (C62_done, C62_failed, C62_order, C62_all, C62_only, C62_once, C62_safe, C62_waits, C62_ends, C62_late_refuted).
Print Assumptions assumptions_terminator.
