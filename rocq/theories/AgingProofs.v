(** Specifications and lemmas for [AgingModel]. *)
From Coq Require Import List NArith Arith Bool Lia.
From Coq Require Import ZArith ZifyBool ZifyNat ZifyN.
From Verif Require Import AgingModel.
Import ListNotations.

(** ** Specification *)

(** How often something happened. *)
Definition sum_list (l : list nat) : nat := fold_right Nat.add 0 l.
Definition tally {A} (f : A -> nat) (l : list A) : nat := sum_list (map f l).
Definition is_query (o : out) : nat := match o with Query => 1 | _ => 0 end.
Definition is_refusal (o : out) : nat := match o with Refuse _ => 1 | _ => 0 end.
Definition is_answer (i : nat) (o : out) : nat := match o with Respond j | Refuse j => if i =? j then 1 else 0 | _ => 0 end.
Definition is_response (i : nat) (o : out) : nat := match o with Respond j => if i =? j then 1 else 0 | _ => 0 end.
Definition is_request (i : nat) (x : input) : nat := match x with Run j => if i =? j then 1 else 0 | _ => 0 end.
(** Partitions that the index told of, those of them that it schedules by itself, and those that it
    was asked for. *)
Definition found (x : input) : nat := match x with Reply t => t | _ => 0 end.
Definition tasted (taste : nat) (x : input) : nat := match x with Reply t => Nat.min t taste | _ => 0 end.
Definition asked_for (o : out) : nat := match o with More n => n | _ => 0 end.
(** The eraser waits for its timer or for requests. *)
Definition at_rest (e : eraser) : Prop := ph (e_proc e) = Idle.
(** No delayed message arrives before the run that is under way has ended. *)
Fixpoint calm (taste : nat) (e : eraser) (is : list input) : Prop :=
  match is with
  | [] => True
  | i :: r => (i = Tick -> at_rest e) /\ match e_step taste true e i with Some (e', _) => calm taste e' r | None => True end
  end.

Lemma tally_app : forall A (f : A -> nat) a b, tally f (a ++ b) = tally f a + tally f b.
Proof. intros A f a b. unfold tally, sum_list. rewrite map_app. induction (map f a) as [|x l IH]; [reflexivity|]. cbn [app fold_right]. rewrite IH. lia. Qed.

(** ** The eraser *)

Definition inv (e : eraser) : Prop :=
  timers e <= 1 /\
  match ph (e_proc e) with
  | Idle => asked e = false /\ running e = false /\ promise e = None
  | AwaitId => asked e = true /\ running e = false /\ (promise e = None -> timers e = 0)
  | Await => asked e = false /\ running e = true /\ (promise e = None -> timers e = 0) /\
             received (e_proc e) + scheduled (e_proc e) <= total (e_proc e) /\ (total (e_proc e) = 0 \/ 0 < scheduled (e_proc e))
  end.
Definition armed (e : eraser) : Prop :=
  match ph (e_proc e), promise e with Idle, _ | _, Some _ => timers e = 1 | _, None => timers e = 0 end.
(** Partitions that were found and not asked for. *)
Definition left (e : eraser) : nat := match ph (e_proc e) with Await => total (e_proc e) - (received (e_proc e) + scheduled (e_proc e)) | _ => 0 end.
Definition rank (T : nat) (e : eraser) : nat :=
  match ph (e_proc e) with Idle => 0 | AwaitId => T + 2 | Await => S (left e) end.
Definition pending (i : nat) (e : eraser) : nat := match promise e with Some j => if i =? j then 1 else 0 | None => 0 end.

Ltac crush :=
  repeat match goal with
  | H : Some _ = Some _ |- _ => injection H as <- <-
  | H : None = Some _ |- _ => discriminate
  | H : _ /\ _ |- _ => destruct H
  | H : context [match ?x with _ => _ end] |- _ => destruct x eqn:?
  end.
Ltac facts := unfold inv, armed, left, rank, pending, e_run, to_idle, idle_proc, got_id, got_done, ask, more, starts, taste_of, tally, sum_list in *.
Lemma e_step_inv : forall taste e i e' o, 0 < taste -> inv e -> e_step taste true e i = Some (e', o) -> inv e'.
Proof.
  intros taste [ [p re sc to] pr tm a r] i e' o T I H. unfold e_step in H. facts. cbn in *.
  destruct i as [|n|t|]; destruct p; cbn in *; destruct I as [I1 I2]; destruct tm as [|tm]; cbn in *; crush; cbn in *; subst; try discriminate; repeat split; try lia; try congruence; try discriminate; try (intros; congruence).
Qed.
Lemma e_step_armed : forall taste e i e' o, 0 < taste -> inv e -> armed e -> (i = Tick -> at_rest e) -> e_step taste true e i = Some (e', o) -> armed e'.
Proof.
  intros taste [ [p re sc to] pr tm a r] i e' o T I A C H. unfold e_step in H. unfold at_rest in C. facts. cbn in *.
  destruct i as [|n|t|]; destruct p; cbn in *; destruct I as [I1 I2]; destruct tm as [|tm]; cbn in *; crush; cbn in *; subst; try discriminate; try reflexivity; try lia; try (specialize (C eq_refl); discriminate); repeat match goal with |- context [match ?x with _ => _ end] => destruct x end; try discriminate; try lia.
Qed.
Lemma e_step_rank : forall taste T e i e' o, 0 < taste -> inv e -> (i = Tick -> at_rest e) -> found i <= T -> e_step taste true e i = Some (e', o) ->
  1 + rank T e' <= rank T e + tally is_query o * (T + 3) + tally is_refusal o.
Proof.
  intros taste T [ [p re sc to] pr tm a r] i e' o T0 I C F H. unfold e_step in H. unfold at_rest in C. unfold found in F. facts. cbn in *.
  destruct i as [|n|t|]; destruct p; cbn in *; destruct I as [I1 I2]; destruct tm as [|tm]; cbn in *; crush; cbn in *; subst; try discriminate; try lia; try (specialize (C eq_refl); discriminate).
Qed.
Lemma e_step_left : forall taste e i e' o, 0 < taste -> inv e -> e_step taste true e i = Some (e', o) ->
  left e + found i = left e' + tasted taste i + tally asked_for o.
Proof.
  intros taste [ [p re sc to] pr tm a r] i e' o T0 I H. unfold e_step in H. unfold found, tasted. facts. cbn in *.
  destruct i as [|n|t|]; destruct p; cbn in *; destruct I as [I1 I2]; destruct tm as [|tm]; cbn in *; crush; cbn in *; subst; try discriminate; try lia.
Qed.
Lemma e_step_answers : forall taste e i e' o n, 0 < taste -> inv e -> e_step taste true e i = Some (e', o) ->
  pending n e + is_request n i = pending n e' + tally (is_answer n) o.
Proof.
  intros taste [ [p re sc to] pr tm a r] i e' o n T0 I H. unfold e_step in H. unfold is_request, is_answer. facts. cbn in *.
  destruct i as [|m|t|]; destruct p; cbn in *; destruct I as [I1 I2]; destruct tm as [|tm]; cbn in *; crush; cbn in *; subst; try discriminate; try lia; repeat match goal with |- context [?x =? ?y] => destruct (x =? y) end; lia.
Qed.
Lemma e_start_inv : inv e_start /\ armed e_start.
Proof. repeat split; cbn; lia. Qed.
Lemma e_steps_facts : forall taste T, 0 < taste -> forall is e e' o, inv e -> e_steps taste true e is = Some (e', o) ->
  inv e' /\
  left e + tally found is = left e' + tally (tasted taste) is + tally asked_for o /\
  (forall n, pending n e + tally (is_request n) is = pending n e' + tally (is_answer n) o) /\
  (calm taste e is -> armed e -> armed e') /\
  (calm taste e is -> Forall (fun i => found i <= T) is -> length is + rank T e' <= rank T e + tally is_query o * (T + 3) + tally is_refusal o).
Proof.
  intros taste T T0. induction is as [|i is IH]; intros e e' o I H.
  - cbn in H. injection H as <- <-. split; [exact I|]. repeat split; try (cbn; lia); try (intros; assumption). 
  - cbn [e_steps] in H. destruct (e_step taste true e i) as [ [e1 o1]|] eqn:E; [|discriminate]. destruct (e_steps taste true e1 is) as [ [e2 o2]|] eqn:E2; [|discriminate]. cbn in H. injection H as <- <-.
    pose proof (e_step_inv _ _ _ _ _ T0 I E) as I1. destruct (IH _ _ _ I1 E2) as (J1 & J2 & J3 & J4 & J5). change (i :: is) with ([i] ++ is). rewrite !tally_app. split; [exact J1|]. split; [|split; [|split] ].
    + pose proof (e_step_left _ _ _ _ _ T0 I E). assert (tally found [i] = found i) by (unfold tally, sum_list; cbn; lia). assert (tally (tasted taste) [i] = tasted taste i) by (unfold tally, sum_list; cbn; lia). lia.
    + intros n. rewrite !tally_app. pose proof (e_step_answers _ _ _ _ _ n T0 I E). assert (tally (is_request n) [i] = is_request n i) by (unfold tally, sum_list; cbn; lia). specialize (J3 n). lia.
    + cbn [app calm]. rewrite E. intros [C1 C2] A. apply J4; [exact C2|]. exact (e_step_armed _ _ _ _ _ T0 I A C1 E).
    + cbn [app calm length]. rewrite E. intros [C1 C2] F. pose proof (e_step_rank _ T _ _ _ _ T0 I C1 (Forall_inv F) E). specialize (J5 C2 (Forall_inv_tail F)). lia.
Qed.

(** ** The counter *)

Definition total_of (l : list (list N)) : N := fold_right N.add 0%N (concat l).
Definition numbers (l : list (list N)) : nat := length (concat l).
Definition kinv (all : list (list N)) (k : counter) : Prop :=
  if quit k then ended k = true /\ sum k = N.modulo (total_of all) (2 ^ 64) /\ k_running k = false /\ opened k = [] /\ k_asked k = false /\ ph (k_proc k) = Await
  else ended k = false /\
    match ph (k_proc k) with
    | Idle => k_asked k = false /\ k_running k = false /\ opened k = [] /\ rest k = all /\ sum k = 0%N
    | AwaitId => k_asked k = true /\ k_running k = false /\ opened k = [] /\ rest k = all /\ sum k = 0%N
    | Await => k_asked k = false /\ k_running k = true /\ N.modulo (sum k + total_of (opened k) + total_of (rest k)) (2 ^ 64) = N.modulo (total_of all) (2 ^ 64) /\ (sum k < 2 ^ 64)%N /\
        received (k_proc k) + scheduled (k_proc k) + length (rest k) = total (k_proc k) /\ (total (k_proc k) = 0 \/ 0 < scheduled (k_proc k))
    end.
Lemma total_app : forall a b, total_of (a ++ b) = (total_of a + total_of b)%N.
Proof. intros a b. unfold total_of. rewrite concat_app. induction (concat a) as [|x l IH]; [reflexivity|]. cbn [app fold_right]. rewrite IH. lia. Qed.
Lemma total_split : forall n l, (total_of (firstn n l) + total_of (skipn n l))%N = total_of l.
Proof. intros n l. rewrite <- total_app. now rewrite firstn_skipn. Qed.
Lemma total_set : forall l j n ns, nth_error l j = Some (n :: ns) -> total_of l = (n + total_of (set_at j ns l))%N /\ numbers l = S (numbers (set_at j ns l)).
Proof.
  unfold total_of, numbers. induction l as [|x l IH]; intros [|j] n ns H; try discriminate.
  - cbn in H. injection H as ->. cbn [set_at concat app fold_right length]. split; [reflexivity|reflexivity].
  - cbn in H. destruct (IH j n ns H) as [I1 I2]. cbn [set_at concat]. assert (G : forall u v, fold_right N.add 0%N (u ++ v) = (fold_right N.add 0%N u + fold_right N.add 0%N v)%N).
    { induction u as [|y u IHu]; intros v; [reflexivity|]. cbn [app fold_right]. rewrite IHu. lia. }
    rewrite !G, !app_length. split; lia.
Qed.
Lemma total_empty : forall l, forallb (fun l => match l with [] => true | _ => false end) l = true -> total_of l = 0%N /\ numbers l = 0.
Proof. induction l as [|[|] l IH]; intros H; [now split| |discriminate]. exact (IH H). Qed.
Definition krank (k : counter) : nat :=
  if quit k then 0
  else match ph (k_proc k) with
       | Idle => 3 + length (rest k) + numbers (rest k)
       | AwaitId => 2 + length (rest k) + numbers (rest k)
       | Await => 1 + numbers (opened k) + length (rest k) + numbers (rest k)
       end.
Lemma numbers_app : forall a b, numbers (a ++ b) = numbers a + numbers b.
Proof. intros a b. unfold numbers. now rewrite concat_app, app_length. Qed.
Lemma numbers_split : forall n l, numbers (firstn n l) + numbers (skipn n l) = numbers l.
Proof. intros n l. rewrite <- numbers_app. now rewrite firstn_skipn. Qed.
Local Arguments total_of : simpl never.
Local Arguments numbers : simpl never.
Lemma k_step_inv : forall taste all k i k', 0 < taste -> kinv all k -> (forall j, i <> Fail j) -> k_step taste k i = Some k' -> kinv all k' /\ krank k' < krank k.
Proof.
  intros taste all [ [p re sc to] q sm en a op r rs] i k' T I NF H. destruct i as [| |j|j|]; [| | |exfalso; now apply (NF j)|]; unfold k_step, kinv, krank in *; cbn in *.
  - destruct p; try discriminate. destruct q; [discriminate|]. injection H as <-. cbn. destruct I as (I1 & I2 & I3 & I4 & I5 & I6). repeat split; try assumption; lia.
  - destruct a; [|discriminate]. destruct q; [destruct I as (_ & _ & _ & _ & X & _); discriminate|]. destruct p; try (destruct I as (_ & X & _); discriminate). injection H as <-. cbn. destruct I as (I1 & _ & I3 & -> & -> & ->).
    pose proof (total_split (taste_of taste (length all)) all). pose proof (numbers_split (taste_of taste (length all)) all). pose proof (skipn_length (taste_of taste (length all)) all) as SK. unfold starts, taste_of in *. repeat split; try assumption; try lia.
    all: unfold total_of, numbers in *; first [lia|f_equal; lia].
  - destruct (nth_error op j) as [ [|n ns]|] eqn:E; try discriminate. injection H as <-. cbn. destruct (total_set _ _ _ _ E) as [S1 S2]. destruct q.
    { destruct I as (_ & _ & _ & -> & _). destruct j; discriminate. }
    destruct p; try (destruct I as (_ & _ & _ & -> & _); destruct j; discriminate). destruct I as (I1 & I2 & I3 & I4 & I5 & I6 & I7). split; [|lia]. repeat split; try assumption.
    + rewrite <- I4, S1. rewrite <- N.add_assoc. rewrite N.add_mod_idemp_l by discriminate. f_equal. lia.
    + apply N.mod_lt. discriminate.
  - destruct r; [|discriminate]. cbn [andb] in H. destruct (forallb _ op) eqn:E; [|discriminate]. destruct (total_empty _ E) as [E1 E2]. destruct q; [destruct I as (_ & _ & X & _); discriminate|]. destruct p; try (destruct I as (_ & _ & X & _); discriminate).
    destruct I as (I1 & I2 & I3 & I4 & I5 & I6 & I7). unfold more, got_done, ask in H. cbn in H. destruct (Nat.min (to - (re + sc)) sc =? 0) eqn:M; injection H as <-; cbn.
    + assert (rs = []) as -> by (destruct rs; [reflexivity|cbn in *; lia]). rewrite E1 in I4. change (total_of []) with 0%N in I4. rewrite !N.add_0_r in I4. rewrite N.mod_small in I4 by exact I5. split; [|lia]. repeat split; assumption.
    + pose proof (total_split (Nat.min (to - (re + sc)) sc) rs). pose proof (numbers_split (Nat.min (to - (re + sc)) sc) rs). pose proof (skipn_length (Nat.min (to - (re + sc)) sc) rs). unfold more. cbn. split; [|lia]. repeat split; try assumption; try lia. 
Qed.
Lemma k_steps_inv : forall taste all, 0 < taste -> forall is k k', kinv all k -> Forall (fun i => forall j, i <> Fail j) is -> k_steps taste k is = Some k' -> kinv all k' /\ length is + krank k' <= krank k.
Proof.
  intros taste all T. induction is as [|i is IH]; intros k k' I F H; cbn [k_steps] in H; [injection H as <-; split; [exact I|cbn; lia]|]. destruct (k_step taste k i) as [k1|] eqn:E; [|discriminate]. destruct (k_step_inv _ _ _ _ _ T I (Forall_inv F) E) as [I1 R]. destruct (IH _ _ I1 (Forall_inv_tail F) H) as [I2 R2]. split; [exact I2|]. cbn [length]. lia.
Qed.
Lemma k_start_inv : forall all, kinv all (k_start all).
Proof. intros all. cbn. repeat split. Qed.
Lemma k_progress : forall taste all k, 0 < taste -> kinv all k -> ended k = false -> exists i, (forall j, i <> Fail j) /\ k_step taste k i <> None.
Proof.
  intros taste all [ [p re sc to] q sm en a op r rs] T I E. unfold kinv in I. cbn in *. destruct q; [destruct I; congruence|]. destruct I as [_ I]. destruct p.
  - exists Ask. split; [discriminate|]. cbn. discriminate.
  - destruct I as (-> & _). exists Id. split; [discriminate|]. cbn. discriminate.
  - destruct I as (_ & -> & _). destruct (forallb (fun l => match l with [] => true | _ => false end) op) eqn:F.
    + exists Finished. split; [discriminate|]. unfold k_step. cbn [k_running opened andb]. rewrite F. cbn [k_proc ph quit]. destruct (_ =? 0); discriminate.
    + assert (G : exists j n ns, nth_error op j = Some (n :: ns)). { clear - F. induction op as [|[|n ns] op IH]; [discriminate| |exists 0, n, ns; reflexivity]. destruct (IH F) as (j & n & ns & H). exists (S j), n, ns. exact H. }
      destruct G as (j & n & ns & G). exists (Send j). split; [discriminate|]. unfold k_step. cbn [opened]. rewrite G. discriminate.
Qed.
