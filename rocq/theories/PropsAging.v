(** C70: aging runs again and again and answers requests, and counts are complete. Property
    theorems. The words of the statements are defined in the first section of [AgingProofs]. *)
From Coq Require Import List NArith Arith Bool Lia.
From Verif Require Import AgingModel AgingProofs.
Import ListNotations.

(** ** C70: aging *)

(** However many partitions the index finds each time, up to [T], and whatever else happens in
    between: if no delayed message arrives during a run, a run begins at least every [T + 3]
    messages, not counting requests that are refused; and the eraser never gets stuck: at rest its
    timer is set, and otherwise it waits for a message that the index or a supervisor will send. *)
Theorem C70_again : forall taste T is e o, 0 < taste -> e_steps taste true e_start is = Some (e, o) -> calm taste e_start is -> Forall (fun i => found i <= T) is ->
  length is <= tally is_query o * (T + 3) + tally is_refusal o /\
  match ph (e_proc e) with Idle => e_step taste true e Tick <> None | AwaitId => forall t, e_step taste true e (Reply t) <> None | Await => e_step taste true e Finish <> None end.
Proof.
  intros taste T is e o T0 H C F. destruct e_start_inv as [I A]. destruct (e_steps_facts taste T T0 is _ _ _ I H) as (I' & _ & _ & A' & R). specialize (A' C A). specialize (R C F). split; [cbn in R; lia|].
  destruct e as [ [p re sc to] pr tm a r]. unfold inv, armed in *. cbn in *. destruct p.
  - destruct pr; subst tm; discriminate.
  - intros t. destruct I' as (_ & -> & _). discriminate.
  - destruct I' as (_ & _ & -> & _). destruct (_ =? 0); [destruct pr|]; discriminate.
Qed.

(** Without requests every schedule is calm. *)
Theorem C70_automatic : forall taste is e o, 0 < taste -> e_steps taste true e_start is = Some (e, o) -> (forall n, ~ In (Run n) is) -> calm taste e_start is.
Proof.
  intros taste is e o T0 H NR.
  assert (G : forall is x e o, inv x -> promise x = None -> e_steps taste true x is = Some (e, o) -> (forall n, ~ In (Run n) is) -> calm taste x is).
  { clear - T0. induction is as [|i is IH]; intros x e o I P H NR; [exact Logic.I|]. cbn [calm e_steps] in *. destruct (e_step taste true x i) as [ [x1 o1]|] eqn:E; [|discriminate]. destruct (e_steps taste true x1 is) as [ [x2 o2]|] eqn:E2; [|discriminate]. split.
    - intros ->. unfold at_rest. destruct x as [ [p re sc to] pr tm a r]. unfold inv in I. cbn in *. subst pr. destruct p; [reflexivity| |]; (destruct tm; [discriminate|]); exfalso; destruct I as (_ & I); repeat (destruct I as (?X & I)); try (specialize (I eq_refl); discriminate); match goal with X : None = None -> _ |- _ => specialize (X eq_refl); discriminate end.
    - apply (IH x1 x2 o2); [exact (e_step_inv _ _ _ _ _ T0 I E)| |exact E2|intros n X; apply (NR n); now right].
      pose proof (fun n => e_step_answers taste x i x1 o1 n T0 I E) as A. destruct (promise x1) as [n|] eqn:P1; [|reflexivity]. exfalso. specialize (A n). unfold pending in A. rewrite P, P1, Nat.eqb_refl in A. destruct i as [|m|t|]; cbn in A; try lia. apply (NR m). now left. }
  exact (G is e_start e o (proj1 e_start_inv) eq_refl H NR).
Qed.

(** At rest, every partition that the index found was asked for. *)
Theorem C70_partitions : forall taste is e o, 0 < taste -> e_steps taste true e_start is = Some (e, o) -> at_rest e ->
  tally found is = tally (tasted taste) is + tally asked_for o.
Proof.
  intros taste is e o T0 H R. destruct e_start_inv as [I A]. destruct (e_steps_facts taste 0 T0 is _ _ _ I H) as (I' & L & _). unfold left in L. cbn in L. unfold at_rest in R. rewrite R in L. lia.
Qed.

(** Every request is answered once by the time the eraser is at rest, whatever messages arrive in
    whatever order, and there is never more than one delayed message. *)
Theorem C70_answer : forall taste is e o, 0 < taste -> e_steps taste true e_start is = Some (e, o) ->
  timers e <= 1 /\ forall n, tally (is_answer n) o <= tally (is_request n) is /\ (at_rest e -> tally (is_answer n) o = tally (is_request n) is).
Proof.
  intros taste is e o T0 H. destruct e_start_inv as [I A]. destruct (e_steps_facts taste 0 T0 is _ _ _ I H) as (I' & _ & N & _). split; [apply I'|]. intros n. specialize (N n). unfold pending in N at 1. cbn in N. split; [lia|]. intros R. unfold at_rest in R. destruct I' as [_ I']. rewrite R in I'. destruct I' as (_ & _ & P). unfold pending in N. rewrite P in N. lia.
Qed.

(** A case with an automatic run over 7 partitions, and a requested run while nothing matches. *)
Example C70_example : let is := [Tick; Reply 7; Run 4; Finish; Finish; Finish; Run 5; Reply 0; Finish; Tick] in
  exists e o, e_steps 3 true e_start is = Some (e, o) /\ calm 3 e_start is /\ o = [Query; Refuse 4; More 3; More 1; Query; Respond 5; Query] /\ Forall (fun i => found i <= 7) is.
Proof. cbv zeta. do 2 eexists. split; [vm_compute; reflexivity|]. split; [cbn; repeat split; intros; discriminate|]. split; [reflexivity|]. repeat constructor. Qed.

(** ** Not under all circumstances *)

(** If the delayed message arrives during a run that was requested, it is lost, and no run begins
    ever again unless it is requested. *)
Theorem C70_manual_refuted : exists is e o, e_steps 5 true e_start is = Some (e, o) /\ at_rest e /\ In (Run 1) is /\
  forall js e' o', (forall n, ~ In (Run n) js) -> e_steps 5 true e js = Some (e', o') -> js = [].
Proof.
  exists [Run 1; Tick; Reply 1; Finish]. do 2 eexists. split; [vm_compute; reflexivity|]. split; [reflexivity|]. split; [now left|].
  intros [|[|n|t|] js] e' o' N H; [reflexivity|discriminate| |discriminate|discriminate]. exfalso. apply (N n). now left.
Qed.
(** If the query is not valid, which is not checked when the eraser is started, it runs never, and
    requests are not answered. *)
Theorem C70_invalid_refuted : exists is e o, e_steps 5 false e_start is = Some (e, o) /\ at_rest e /\ tally (is_request 1) is = 1 /\ o = [] /\
  forall js e' o', e_steps 5 false e js = Some (e', o') -> tally is_query o' = 0 /\ tally (is_answer 1) o' = 0.
Proof.
  exists [Run 1; Tick]. do 2 eexists. split; [vm_compute; reflexivity|]. split; [reflexivity|]. split; [reflexivity|]. split; [reflexivity|].
  assert (G : forall js e e' o', at_rest e -> timers e = 0 -> asked e = false -> running e = false -> e_steps 5 false e js = Some (e', o') -> o' = []).
  { induction js as [|i js IH]; intros e e' o' R T A B H; [cbn in H; now injection H as _ <-|]. cbn [e_steps] in H. destruct i as [|n|t|]; cbn [e_step] in H; rewrite ?T, ?A, ?B in H; try discriminate. unfold at_rest in R. rewrite R in H. cbn in H.
    match type of H with option_map _ ?x = _ => destruct x as [ [e2 o2]|] eqn:E end; [|discriminate]. cbn in H. injection H as _ <-. refine (IH _ _ _ _ _ _ _ E); [exact R|reflexivity|reflexivity|reflexivity]. }
  intros js e' o' H. apply G in H; [|reflexivity|reflexivity|reflexivity|reflexivity]. rewrite H. split; reflexivity.
Qed.
(** If no partitions are to be scheduled at first, which the configuration allows, the first run never
    ends. *)
Theorem C70_taste_refuted : exists is e o, e_steps 0 true e_start is = Some (e, o) /\ ~ at_rest e /\ timers e = 0 /\
  forall js e' o', e_steps 0 true e js = Some (e', o') -> ~ at_rest e' /\ tally is_query o' = 0.
Proof.
  exists [Tick; Reply 3]. do 2 eexists. split; [vm_compute; reflexivity|]. split; [discriminate|]. split; [reflexivity|].
  assert (G : forall js e e' o', ph (e_proc e) = Await -> timers e = 0 -> asked e = false -> running e = false -> e_steps 0 true e js = Some (e', o') -> ~ at_rest e' /\ tally is_query o' = 0).
  { induction js as [|i js IH]; intros e e' o' R T A B H; [cbn in H; injection H as <- <-; split; [unfold at_rest; congruence|reflexivity]|]. cbn [e_steps] in H. destruct i as [|n|t|]; cbn [e_step] in H; rewrite ?T, ?A, ?B in H; try discriminate. rewrite R in H. cbn in H.
    match type of H with option_map _ ?x = _ => destruct x as [ [e2 o2]|] eqn:E end; [|discriminate]. cbn in H. injection H as <- <-. destruct (IH _ _ _ R T A B E) as [I1 I2]. split; [exact I1|]. exact I2. }
  intros js e' o' H. apply G in H; [exact H|reflexivity|reflexivity|reflexivity|reflexivity].
Qed.

(** ** C70: counting *)

(** Whatever numbers the partitions send and in whatever order: once the count has ended, the client
    has the sum of them all, if no partition failed; and it ends. *)
Theorem C70_count : forall taste all is k, 0 < taste -> k_steps taste (k_start all) is = Some k -> Forall (fun i => forall j, i <> Fail j) is ->
  (ended k = true -> sum k = N.modulo (total_of all) (2 ^ 64)) /\
  (ended k = false -> exists i, (forall j, i <> Fail j) /\ k_step taste k i <> None) /\ length is <= 3 + length all + numbers all.
Proof.
  intros taste all is k T H F. destruct (k_steps_inv taste all T is _ _ (k_start_inv all) F H) as [I R]. split; [|split].
  - intros E. unfold kinv in I. destruct (quit k); [apply I|]. destruct I. congruence.
  - intros E. exact (k_progress taste all k T I E).
  - change (krank (k_start all)) with (3 + length all + numbers all) in R. lia.
Qed.
Example C70_count_example : exists k, k_steps 2 (k_start [[3; 4]; []; [5]]%N) [Ask; Id; Send 0; Send 0; Finished; Send 0; Finished] = Some k /\ ended k = true /\ sum k = 12%N.
Proof. eexists. split; [vm_compute; reflexivity|]. split; reflexivity. Qed.
(** If a partition fails, the client gets a smaller number, and cannot know. *)
Theorem C70_fail_refuted : exists all is k, k_steps 2 (k_start all) is = Some k /\ ended k = true /\ sum k <> N.modulo (total_of all) (2 ^ 64).
Proof. exists [[3; 4]; [5]]%N, [Ask; Id; Send 0; Fail 0; Send 1; Finished]. eexists. split; [vm_compute; reflexivity|]. split; [reflexivity|]. discriminate. Qed.

Definition assumptions_Aging := (C70_again, C70_automatic, C70_partitions, C70_answer, C70_manual_refuted, C70_invalid_refuted, C70_taste_refuted, C70_count, C70_fail_refuted).
Print Assumptions assumptions_Aging.
