(** Proofs for C66. *)
From Coq Require Import List NArith ZArith Bool Arith Lia Permutation.
From Coq Require Import ZifyBool ZifyNat ZifyN.
From Verif Require Import ExplorerModel.
Import ListNotations.
Open Scope N_scope.

Lemma mem_In : forall i l, mem i l = true <-> In i l.
Proof.
  intros i l. unfold mem. rewrite existsb_exists. split.
  - intros [x [H E]]. apply N.eqb_eq in E. subst. exact H.
  - intros H. exists i. split; [exact H|apply N.eqb_refl].
Qed.

(** ** First occurrences *)
Fixpoint firsts (seen : list N) (l : list N) : list N :=
  match l with [] => [] | i :: r => if mem i seen then firsts seen r else i :: firsts (i :: seen) r end.

Lemma firsts_ext : forall l a b, (forall i, In i a <-> In i b) -> firsts a l = firsts b l.
Proof.
  induction l as [|i r IH]; intros a b E; [reflexivity|]. cbn [firsts].
  assert (M : mem i a = mem i b).
  { destruct (mem i a) eqn:A, (mem i b) eqn:B; auto.
    - apply mem_In, E, mem_In in A. congruence.
    - apply mem_In, E, mem_In in B. congruence. }
  rewrite M. destruct (mem i b); [apply IH; exact E|].
  f_equal. apply IH. intros j. cbn. rewrite E. tauto.
Qed.
Lemma firsts_app : forall a b seen, firsts seen (a ++ b) = firsts seen a ++ firsts (a ++ seen) b.
Proof.
  induction a as [|i a IH]; intros b seen; [reflexivity|]. cbn [app firsts].
  destruct (mem i seen) eqn:M.
  - rewrite IH. f_equal. apply firsts_ext. intros j. cbn. rewrite in_app_iff. apply mem_In in M.
    split; [tauto|]. intros [->|H]; [right; exact M|tauto].
  - cbn [app]. f_equal. rewrite IH. f_equal. apply firsts_ext. intros j. cbn. rewrite !in_app_iff. cbn. tauto.
Qed.
Lemma firsts_In : forall l seen i, In i (firsts seen l) <-> In i l /\ ~ In i seen.
Proof.
  induction l as [|j r IH]; intros seen i; cbn [firsts In]; [tauto|].
  destruct (mem j seen) eqn:M.
  - rewrite IH. apply mem_In in M. split; [tauto|]. intros [[->|H] N]; tauto.
  - assert (Nj : ~ In j seen) by (rewrite <- mem_In; congruence). cbn [In]. rewrite IH. cbn [In].
    destruct (N.eq_dec j i) as [->|D]; tauto.
Qed.
Lemma firsts_NoDup : forall l seen, NoDup (firsts seen l).
Proof.
  induction l as [|j r IH]; intros seen; cbn [firsts]; [constructor|].
  destruct (mem j seen); [apply IH|]. constructor; [|apply IH].
  rewrite firsts_In. cbn. tauto.
Qed.

Lemma insert_all_spec : forall is seen seen' fresh, insert_all seen is = (seen', fresh) ->
  fresh = firsts seen is /\ forall i, In i seen' <-> In i is \/ In i seen.
Proof.
  induction is as [|i r IH]; intros seen seen' fresh E; cbn [insert_all] in E.
  - injection E as <- <-. split; [reflexivity|]. intros i. cbn. tauto.
  - cbn [firsts]. destruct (mem i seen) eqn:M.
    + destruct (IH _ _ _ E) as [A B]. split; [exact A|]. intros j. rewrite B. cbn. apply mem_In in M.
      split; [tauto|]. intros [[->|H]|H]; tauto.
    + destruct (insert_all (i :: seen) r) as [s f] eqn:X. injection E as <- <-.
      destruct (IH _ _ _ X) as [A B]. split; [f_equal; exact A|]. intros j. rewrite B. cbn. tauto.
Qed.

(** ** Slices *)
Lemma ids_length : forall s, length (ids s) = rows s.
Proof. intros s. unfold ids. rewrite map_length, seq_length. reflexivity. Qed.
Lemma ids_In : forall s i, In i (ids s) <-> offset s <= i < offset s + N.of_nat (rows s).
Proof.
  intros s i. unfold ids. rewrite in_map_iff. split.
  - intros [k [<- K]]. apply in_seq in K. lia.
  - intros H. exists (N.to_nat (i - offset s)). split; [lia|]. apply in_seq. lia.
Qed.
Lemma ids_NoDup : forall s, NoDup (ids s).
Proof.
  intros s. unfold ids. apply FinFun.Injective_map_NoDup; [|apply seq_NoDup].
  intros a b E. lia.
Qed.

Lemma firsts_filter : forall l seen, NoDup l -> firsts seen l = filter (fun i => negb (mem i seen)) l.
Proof.
  induction l as [|i r IH]; intros seen D; [reflexivity|]. inversion D as [|? ? Ni Dr]; subst.
  cbn [firsts filter]. destruct (mem i seen); cbn [negb]; [apply IH; exact Dr|].
  f_equal. rewrite IH by exact Dr. apply filter_ext_in. intros j J. f_equal.
  unfold mem. cbn [existsb]. destruct (j =? i) eqn:E; [apply N.eqb_eq in E; subst; contradiction|]. reflexivity.
Qed.

Lemma runs_concat : forall is unseen cur, concat (runs unseen cur is) = cur ++ filter (fun i => mem i unseen) is.
Proof.
  induction is as [|i r IH]; intros unseen cur; cbn [runs filter].
  - destruct cur; cbn; rewrite ?app_nil_r; reflexivity.
  - destruct (mem i unseen).
    + rewrite IH, <- app_assoc. reflexivity.
    + destruct cur as [|c cur]; [apply IH|]. cbn [concat]. rewrite IH. reflexivity.
Qed.

Lemma size_bound : forall l m, (forall i, In i l -> i + 1 <= m) -> size_of l <= m.
Proof.
  induction l as [|i r IH]; intros m H; cbn; [lia|].
  assert (i + 1 <= m) by (apply H; left; reflexivity).
  assert (size_of r <= m) by (apply IH; intros j J; apply H; right; exact J). unfold size_of in *. lia.
Qed.
Lemma size_ge : forall l i, In i l -> i + 1 <= size_of l.
Proof.
  induction l as [|j r IH]; intros i H; [destruct H|]. cbn. destruct H as [->|H].
  - lia.
  - specialize (IH i H). unfold size_of in *. lia.
Qed.

(** The test for an entirely new slice only misleads if the slice lies at the start of all IDs. *)
Definition apart (seen : list N) (s : slice) : Prop :=
  N.of_nat (rows s) <= offset s \/ forall i, In i (ids s) -> ~ In i seen.

Lemma chosen : forall seen s, apart seen s ->
  concat (match firsts seen (ids s) with
          | [] => []
          | _ => if size_of (firsts seen (ids s)) =? N.of_nat (rows s) then [ids s] else runs (firsts seen (ids s)) [] (ids s)
          end) = firsts seen (ids s).
Proof.
  intros seen s A. destruct (firsts seen (ids s)) as [|u us] eqn:F; [reflexivity|]. rewrite <- F.
  destruct (size_of (firsts seen (ids s)) =? N.of_nat (rows s)) eqn:E.
  - cbn [concat]. rewrite app_nil_r. destruct A as [A|A].
    + exfalso. apply N.eqb_eq in E.
      assert (I : In u (firsts seen (ids s))) by (rewrite F; left; reflexivity).
      pose proof (size_ge _ _ I). apply firsts_In in I. destruct I as [I _]. apply ids_In in I. lia.
    + rewrite firsts_filter by apply ids_NoDup. symmetry.
      rewrite (filter_ext_in _ (fun _ => true)).
      * clear. induction (ids s) as [|x l IH]; [reflexivity|]. cbn. f_equal. exact IH.
      * intros i I. apply A in I. destruct (mem i seen) eqn:M; [apply mem_In in M; contradiction|reflexivity].
  - rewrite runs_concat. cbn [app]. rewrite (firsts_filter (ids s)) by apply ids_NoDup.
    apply filter_ext_in. intros i I.
    destruct (mem i seen) eqn:M; cbn [negb].
    + destruct (mem i (filter (fun j => negb (mem j seen)) (ids s))) eqn:X; [|reflexivity].
      apply mem_In, filter_In in X. rewrite M in X. destruct X as [_ X]. discriminate.
    + apply mem_In, filter_In. rewrite M. auto.
Qed.

(** ** The limit *)
Lemma ship_spec : forall ss total sent out n, sent <= total -> ship total sent ss = (out, n) ->
  concat out = firstn (N.to_nat (total - sent)) (concat ss) /\ n = sent + N.of_nat (length (concat out)) /\ n <= total.
Proof.
  induction ss as [|s r IH]; intros total sent out n L E; cbn [ship] in E.
  - injection E as <- <-. cbn. rewrite firstn_nil. split; [reflexivity|lia].
  - destruct (total <=? sent) eqn:T.
    + injection E as <- <-. replace (N.to_nat (total - sent)) with 0%nat by lia. cbn. split; [reflexivity|lia].
    + destruct (sent + N.of_nat (length s) <=? total) eqn:F.
      * destruct (ship total (sent + N.of_nat (length s)) r) as [o m] eqn:X. injection E as <- <-.
        assert (LL : sent + N.of_nat (length s) <= total) by lia.
        destruct (IH _ _ _ _ LL X) as [A [B C]]. cbn [concat]. rewrite A, firstn_app.
        split; [|rewrite app_length, <- A; lia]. rewrite (firstn_all2 (n := N.to_nat (total - sent)) s) by lia.
        f_equal. f_equal. lia.
      * destruct (ship total (sent + N.of_nat (length (firstn (N.to_nat (total - sent)) s))) r) as [o m] eqn:X.
        injection E as <- <-.
        assert (LE : length (firstn (N.to_nat (total - sent)) s) = N.to_nat (total - sent)) by (rewrite firstn_length; lia).
        rewrite LE in X.
        assert (LL : sent + N.of_nat (N.to_nat (total - sent)) <= total) by lia.
        destruct (IH _ _ _ _ LL X) as [A [B C]]. cbn [concat].
        replace (N.to_nat (total - (sent + N.of_nat (N.to_nat (total - sent))))) with 0%nat in A by lia. cbn in A.
        rewrite A, app_nil_r in *. rewrite firstn_app.
        replace (N.to_nat (total - sent) - length s)%nat with 0%nat by lia. cbn [firstn]. rewrite app_nil_r.
        split; [reflexivity|]. rewrite LE. cbn [length] in B. lia.
Qed.

Lemma forward_spec : forall x s x' out, num_sent x <= total x -> forward x s = (x', out) ->
  total x' = total x /\ before x' = before x /\ after x' = after x /\ by_ x' = by_ x /\
  running x' = running x /\ completed x' = completed x /\
  (forall i, In i (returned x') <-> In i (ids s) \/ In i (returned x)) /\
  num_sent x' = num_sent x + N.of_nat (length (concat out)) /\ num_sent x' <= total x /\
  (apart (returned x) s ->
   concat out = firstn (N.to_nat (total x - num_sent x)) (firsts (returned x) (ids s))).
Proof.
  intros x s x' out L E. unfold forward in E.
  destruct (insert_all (returned x) (ids s)) as [seen unseen] eqn:I.
  destruct (insert_all_spec _ _ _ _ I) as [U V]. subst unseen.
  set (ss := match firsts (returned x) (ids s) with
             | [] => []
             | _ => if size_of (firsts (returned x) (ids s)) =? N.of_nat (rows s) then [ids s]
                    else runs (firsts (returned x) (ids s)) [] (ids s)
             end) in E.
  destruct (ship (total x) (num_sent x) ss) as [o n] eqn:X. injection E as <- <-.
  destruct (ship_spec _ _ _ _ _ L X) as [A [B C]].
  cbn [total before after by_ running completed returned num_sent].
  repeat split; auto; try apply V; try lia.
  intros Ap. rewrite A. f_equal. unfold ss. rewrite (chosen _ _ Ap). reflexivity.
Qed.

(** ** Runs *)
(** Each slice is apart from the ones before it, or does not lie at the start of all IDs. *)
Fixpoint all_apart (seen : list N) (ds : list slice) : Prop :=
  match ds with [] => True | s :: r => apart seen s /\ all_apart (ids s ++ seen) r end.

Lemma apart_ext : forall a b s, (forall i, In i a <-> In i b) -> apart a s -> apart b s.
Proof. intros a b s E [H|H]; [left; exact H|right]. intros i I J. apply (H i I). apply E. exact J. Qed.
Lemma all_apart_ext : forall ds a b, (forall i, In i a <-> In i b) -> all_apart a ds -> all_apart b ds.
Proof.
  induction ds as [|s r IH]; intros a b E H; [exact I|]. destruct H as [H1 H2]. split; [apply (apart_ext a); assumption|].
  apply (IH (ids s ++ a)); [|exact H2]. intros i. rewrite !in_app_iff, E. tauto.
Qed.
Lemma all_apart_snoc : forall ds seen s, all_apart seen (ds ++ [s]) -> all_apart seen ds /\ apart (concat (map ids ds) ++ seen) s.
Proof.
  induction ds as [|d ds IH]; intros seen s H; cbn [app] in H.
  - split; [exact I|]. destruct H as [H _]. exact H.
  - destruct H as [H1 H2]. destruct (IH _ _ H2) as [A B]. split; [split; assumption|].
    apply (apart_ext (concat (map ids ds) ++ ids d ++ seen)); [|exact B].
    intros i. cbn [map concat]. rewrite !in_app_iff. tauto.
Qed.

Definition inv (limit : N) (x0 : explorer) (s : sys) : Prop :=
  total (ex s) = limit /\ before (ex s) = before x0 /\ after (ex s) = after x0 /\ by_ (ex s) = by_ x0 /\
  lost s = 0%nat /\
  (gone s = true -> completed (ex s) = true /\ pending s = [] /\ exporters s = []) /\
  running (ex s) = (length (pending s) + length (exporters s))%nat /\
  num_sent (ex s) = N.of_nat (length (concat (sent s))) /\ num_sent (ex s) <= limit /\
  (forall i, In i (returned (ex s)) <-> In i (concat (map ids (delivered s)))) /\
  (all_apart [] (delivered s) -> concat (sent s) = firstn (N.to_nat limit) (firsts [] (concat (map ids (delivered s))))).

Lemma remove_nth_length : forall A (l : list A) k x, nth_error l k = Some x -> length l = S (length (remove_nth k l)).
Proof.
  induction l as [|a l IH]; intros [|k] x H; cbn in H; try discriminate; [reflexivity|].
  cbn [remove_nth length]. f_equal. apply (IH k x H).
Qed.

Lemma step_inv : forall limit x0 s o s', inv limit x0 s -> step s o = Some s' -> inv limit x0 s'.
Proof.
  intros limit x0 s o s' (I1 & I2 & I3 & I4 & I5 & I6 & I7 & I8 & I9 & I10 & I11) E. destruct o; cbn [step] in E.
  - destruct (completed (ex s)) eqn:C; [discriminate|].
    destruct (gone s) eqn:G; [destruct (I6 eq_refl) as [? _]; congruence|].
    unfold on_initial in E.
    destruct (total (ex s) <=? num_sent (ex s)); [|destruct (negb (has_time b)); [|destruct (by_ (ex s) && negb (has_by b))]];
      injection E as <-; unfold inv, mk; cbn; rewrite ?app_nil_r, ?app_length; repeat (split; [tauto || lia || discriminate|]); auto.
  - destruct (nth_error (pending s) k) as [q|] eqn:P; [|discriminate]. injection E as <-. unfold inv, mk; cbn.
    pose proof (remove_nth_length _ _ _ _ P) as L. rewrite app_length. cbn [length].
    repeat (split; [tauto || lia|]). split; [|repeat split; auto; try lia; try apply I10].
    intros G. destruct (I6 G) as [_ [H _]]. rewrite H in P. destruct k; discriminate.
  - destruct (nth_error (pending s) k) as [q|] eqn:P; [|discriminate].
    destruct (gone s) eqn:G; [destruct (I6 eq_refl) as [_ [H _]]; rewrite H in P; destruct k; discriminate|].
    injection E as <-. unfold inv, mk, decrease; cbn. pose proof (remove_nth_length _ _ _ _ P) as L.
    repeat (split; [tauto || lia || discriminate|]); auto.
  - destruct (nth_error (exporters s) k) as [q|] eqn:P; [|discriminate].
    destruct (gone s) eqn:G; [destruct (I6 eq_refl) as [_ [_ H]]; rewrite H in P; destruct k; discriminate|].
    destruct (forward (ex s) s0) as [x' out] eqn:F. injection E as <-.
    assert (LL : num_sent (ex s) <= total (ex s)) by lia.
    destruct (forward_spec _ _ _ _ LL F) as (F1 & F2 & F3 & F4 & F5 & F6 & F7 & F8 & F9 & F10).
    unfold inv, mk; cbn. rewrite map_app, concat_app, concat_app, app_length. cbn [map concat]. rewrite app_nil_r.
    split; [congruence|]. split; [congruence|]. split; [congruence|]. split; [congruence|]. split; [exact I5|].
    split; [discriminate|]. split; [lia|]. split; [lia|]. split; [lia|]. split.
    + intros i. rewrite F7, in_app_iff, I10. tauto.
    + intros Ap. apply all_apart_snoc in Ap. destruct Ap as [A1 A2]. rewrite (I11 A1).
      assert (A3 : apart (returned (ex s)) s0).
      { apply (apart_ext (concat (map ids (delivered s)) ++ [])); [|exact A2]. intros i. rewrite app_nil_r, I10. tauto. }
      rewrite (F10 A3), firsts_app, firstn_app. f_equal.
      rewrite (firsts_ext _ (returned (ex s)) (concat (map ids (delivered s)) ++ [])) by (intros i; rewrite app_nil_r; apply I10).
      f_equal. rewrite I8, (I11 A1), firstn_length, I1. lia.
  - destruct (nth_error (exporters s) k) as [q|] eqn:P; [|discriminate].
    destruct (gone s) eqn:G; [destruct (I6 eq_refl) as [_ [_ H]]; rewrite H in P; destruct k; discriminate|].
    injection E as <-. unfold inv, mk, decrease, quits; cbn. pose proof (remove_nth_length _ _ _ _ P) as L.
    repeat (split; [tauto || lia|]). split; [|repeat split; auto; try lia; try apply I10].
    intros Q. apply andb_true_iff in Q. destruct Q as [Q1 Q2]. apply Nat.eqb_eq in Q2.
    split; [exact Q1|]. split; [destruct (pending s)|destruct (remove_nth k (exporters s))]; auto; cbn [length] in *; lia.
  - destruct (completed (ex s)) eqn:C; [discriminate|].
    destruct (gone s) eqn:G; [destruct (I6 eq_refl) as [? _]; congruence|].
    injection E as <-. unfold inv, mk, complete, quits; cbn.
    repeat (split; [tauto || lia|]). split; [|repeat split; auto; try lia; try apply I10].
    intros Q. apply Nat.eqb_eq in Q.
    split; [reflexivity|]. split; [destruct (pending s)|destruct (exporters s)]; auto; cbn [length] in *; lia.
Qed.

Lemma run_inv : forall os limit x0 s s', inv limit x0 s -> run s os = Some s' -> inv limit x0 s'.
Proof.
  induction os as [|o os IH]; intros limit x0 s s' I E; cbn in E.
  - injection E as <-. exact I.
  - destruct (step s o) as [s1|] eqn:S1; [|discriminate]. apply (IH _ _ s1); [|exact E]. apply (step_inv _ _ s o); assumption.
Qed.
Lemma launch_inv : forall limit b a by0, inv limit (start limit b a by0) (launch limit b a by0).
Proof. intros. unfold inv, launch, mk, start; cbn. do 9 (split; [reflexivity || discriminate || lia|]). split; [intros i; tauto|]. intros H. rewrite firstn_nil. reflexivity. Qed.

(** It ends if all requests were granted. *)
Lemma step_ends : forall s o s', (forall k, o <> Failed k) ->
  (completed (ex s) = true -> running (ex s) = 0%nat -> gone s = true) ->
  (running (ex s) = length (pending s) + length (exporters s))%nat ->
  step s o = Some s' -> (completed (ex s') = true -> running (ex s') = 0%nat -> gone s' = true).
Proof.
  intros s o s' NF H R E. destruct o; cbn [step] in E.
  - destruct (completed (ex s)) eqn:C; [discriminate|].
    destruct (gone s) eqn:G; [injection E as <-; unfold mk; cbn; auto|].
    unfold on_initial in E.
    destruct (total (ex s) <=? num_sent (ex s)); [|destruct (negb (has_time b)); [|destruct (by_ (ex s) && negb (has_by b))]];
      injection E as <-; unfold mk; cbn; congruence.
  - destruct (nth_error (pending s) k) as [q|] eqn:P; [|discriminate]. injection E as <-. exact H.
  - exfalso. exact (NF k eq_refl).
  - destruct (nth_error (exporters s) k) as [q|] eqn:P; [|discriminate].
    destruct (gone s) eqn:G; [injection E as <-; unfold mk; cbn; auto|].
    destruct (forward (ex s) s0) as [x' out] eqn:F. injection E as <-. unfold mk; cbn.
    unfold forward in F. destruct (insert_all (returned (ex s)) (ids s0)) as [seen unseen].
    match type of F with context [ship ?a ?b ?c] => destruct (ship a b c) end. injection F as <- <-. cbn. exact H.
  - destruct (nth_error (exporters s) k) as [q|] eqn:P; [|discriminate].
    destruct (gone s) eqn:G; [injection E as <-; unfold mk; cbn; auto|].
    injection E as <-. unfold mk, quits; cbn. intros -> ->. reflexivity.
  - destruct (completed (ex s)) eqn:C; [discriminate|]. injection E as <-. unfold mk, quits; cbn. intros _ ->.
    destruct (gone s); reflexivity.
Qed.
Lemma run_ends : forall os s s' limit x0, inv limit x0 s -> (forall k, ~ In (Failed k) os) ->
  (completed (ex s) = true -> running (ex s) = 0%nat -> gone s = true) ->
  run s os = Some s' -> (completed (ex s') = true -> running (ex s') = 0%nat -> gone s' = true).
Proof.
  induction os as [|o os IH]; intros s s' limit x0 I NF H E; cbn in E.
  - injection E as <-. exact H.
  - destruct (step s o) as [s1|] eqn:S1; [|discriminate].
    apply (IH s1 s' limit x0); auto.
    + apply (step_inv _ _ s o); assumption.
    + intros k J. apply (NF k). right. exact J.
    + apply (step_ends s o); auto.
      * intros k ->. apply (NF k). left. reflexivity.
      * destruct I as (_ & _ & _ & _ & _ & _ & I7 & _). exact I7.
Qed.
