(** Proofs about the stores of single partitions. *)
From Coq Require Import List Bool Arith Lia Sorted.
From Verif Require Import DataModel TypeModel TableSliceModel TableSliceProofs SegmentStoreModel SegmentStoreProofs SegmentStoreInvariant LocalStoreModel.
Import ListNotations.
Open Scope nat_scope.

Definition erased_by (xs : list bool) (rs : list row) : list row := filter (fun r => negb (in_set xs r)) rs.

(** * Extracting and erasing in one segment *)

Lemma select_each_spec : forall xs ss, Forall valid_slice ss ->
  exists new, select_each xs ss = Some new /\ rows new = filter (in_set xs) (rows ss).
Proof.
  induction ss as [|s ss IH]; intros V; [exists []; auto|]. inversion V; subst. cbn [select_each].
  destruct (select_rows s xs) as (a & -> & Ra & _); [assumption|]. destruct IH as (b & -> & Rb); [assumption|].
  exists (a ++ b). split; [reflexivity|]. rewrite rows_app, Ra, Rb. unfold rows. cbn [flat_map]. rewrite filter_app. reflexivity.
Qed.
Lemma hits_rows : forall xs ss, Forall valid_slice ss -> filter (in_set xs) (rows (hits xs ss)) = filter (in_set xs) (rows ss).
Proof.
  induction ss as [|s ss IH]; intros V; [reflexivity|]. inversion V; subst. unfold hits. cbn [filter].
  destruct (touches interval xs s) eqn:T.
  - unfold rows. cbn [flat_map]. rewrite !filter_app. f_equal. apply IH. assumption.
  - fold (hits xs ss). rewrite IH by assumption. unfold rows at 2. cbn [flat_map]. rewrite filter_app. fold (rows ss).
    assert (filter (in_set xs) (rows_of s) = []) as ->; [|reflexivity].
    destruct (filter (in_set xs) (rows_of s)) as [|r l] eqn:E; [reflexivity|]. exfalso.
    assert (In r (filter (in_set xs) (rows_of s))) as Hr by (rewrite E; left; reflexivity). apply filter_In in Hr.
    assert (touches interval xs s = true) by (apply touches_rows; [assumption|exists r; assumption]). congruence.
Qed.
Lemma hits_valid : forall xs ss, Forall valid_slice ss -> Forall valid_slice (hits xs ss).
Proof. intros xs ss H. apply Forall_forall. intros s Hs. apply filter_In in Hs as [Hs _]. rewrite Forall_forall in H. auto. Qed.
Lemma extract_spec : forall g xs, ordered (sg_slices g) ->
  exists ss, extract g xs = Some ss /\ rows ss = filter (in_set xs) (rows (sg_slices g)).
Proof.
  intros g xs O. unfold extract. rewrite seg_lookup_spec by assumption.
  destruct (select_each_spec xs (hits xs (sg_slices g))) as (ss & -> & R); [apply hits_valid; apply O|].
  exists ss. split; [reflexivity|]. rewrite R. apply hits_rows. apply O.
Qed.
Lemma sorted_filter : forall (f : row -> bool) (l : list row), StronglySorted lt (map row_id l) -> StronglySorted lt (map row_id (filter f l)).
Proof.
  induction l as [|r l IH]; intros H; [constructor|]. cbn in H. inversion H; subst. cbn. destruct (f r); [|auto]. cbn. constructor; [auto|].
  apply Forall_forall. intros p Hp. apply in_map_iff in Hp as (q & <- & Hq). apply filter_In in Hq as [Hq _].
  rewrite Forall_forall in H3. apply H3. apply in_map. assumption.
Qed.
Lemma remaining_spec : forall g xs, ordered (sg_slices g) ->
  exists ss, remaining g xs = Some ss /\ rows ss = erased_by xs (rows (sg_slices g)) /\ ordered ss.
Proof.
  intros g xs O. unfold remaining.
  destruct (keep_slices_spec (sg_slices g) (map negb xs) xs) as (new & -> & R & V); [apply O|assumption|rewrite map_length; lia| |].
  - intros p Hp. unfold in_ids. rewrite map_length in Hp. rewrite (nth_indep _ false (negb false)) by (rewrite map_length; assumption). apply map_nth.
  - exists new. split; [reflexivity|]. split; [assumption|]. split; [assumption|]. unfold ids_of. rewrite R. apply sorted_filter. apply O.
Qed.
(** [segment::ids] against the rows: whether a set of IDs covers the segment. *)
Definition covered (xs : list bool) (g : segment) : Prop := forall r, In r (rows (sg_slices g)) -> in_set xs r = true.
Lemma subset_spec : forall g xs, ordered (sg_slices g) -> sg_slices g <> [] ->
  exists ids, seg_ids g = Some ids /\ (is_subset ids xs = true <-> covered xs g).
Proof.
  intros g xs O Hne. unfold seg_ids. destruct (seg_ids_spec (sg_slices g) [] O) as (ids & -> & Hids).
  { apply Forall_forall. intros. cbn. lia. }
  exists ids. split; [reflexivity|].
  assert (forall p, in_ids ids p = true <-> In p (ids_of (sg_slices g))) as H.
  { intros p. rewrite Hids. unfold in_ids. destruct p; cbn; intuition discriminate. }
  assert (ids <> []) as Hids'.
  { intros ->. destruct (sg_slices g) as [|s ss] eqn:Es; [contradiction|]. pose proof O as [V _]. inversion V; subst.
    pose proof (interval_lt s H2) as Hlt. assert (In (fst (interval s)) (ids_of (s :: ss))) as Hin.
    { rewrite ids_of_cons by assumption. apply in_app_iff. left. apply in_seq. lia. }
    apply H in Hin. unfold in_ids in Hin. destruct (fst (interval s)); discriminate. }
  rewrite is_subset_iff by auto. unfold covered. split.
  - intros Hs r Hr. apply Hs. apply H. apply in_map. assumption.
  - intros Hc p Hp. apply H in Hp. apply in_map_iff in Hp as (r & <- & Hr). apply Hc. assumption.
Qed.

(** * Passive stores *)

(** Whether an answer is right for a store that holds [rs]. *)
Definition fits (rs : list row) (x : request * reply) : Prop :=
  match x with
  | (Extract xs, Slices ss) => rows ss = filter (in_set xs) rs
  | (Extract _, Error) => True
  | (Extract _, _) => False
  | (Erase _, Slices _) => False
  | (Erase _, _) => True
  end.
Definition asked (es : list event) (xs : list bool) : Prop := In (Request (Erase xs)) es.

Section Passive.
  Variable rooted : bool.
  Variable g : segment.
  Hypothesis G : ordered (sg_slices g).
  Hypothesis Gne : sg_slices g <> [].

  (** The file is there, or a set of IDs that covers it was asked to be erased. *)
  Definition kept (Q : list bool -> Prop) (d : disk) : Prop :=
    d_next d = None /\ (d_store d = Some g \/ d_store d = None /\ exists xs, Q xs /\ covered xs g).
  Definition sound (Q : list bool -> Prop) (p : passive) : Prop :=
    (forall xs, In (Erase xs) (p_deferred p) -> Q xs) /\ (p_segment p = None \/ p_segment p = Some g).

  Lemma handle_spec : forall Q d p r, kept Q d -> (forall xs, r = Erase xs -> Q xs) ->
    exists d' p' a, handle rooted d p g r = Some (d', p', a) /\ kept Q d' /\ fits (rows (sg_slices g)) (r, a) /\ a <> Error /\
      p_segment p' = p_segment p /\ p_deferred p' = p_deferred p /\ p_quit p' = p_quit p.
  Proof.
    intros Q d p [xs|xs] K HQ; cbn [handle].
    - destruct (extract_spec g xs G) as (ss & -> & R). exists d, p, (Slices ss). repeat split; auto; try apply K. discriminate.
    - destruct (subset_spec g xs G Gne) as (ids & -> & S). destruct (is_subset ids xs) eqn:E.
      + eexists _, _, _. split; [reflexivity|]. split; [|cbn; repeat split; auto; discriminate].
        destruct K as (K1 & K2). unfold remove_all. destruct rooted; cbn [negb]; [|split; assumption].
        destruct (p_next p); split; cbn; auto. right. split; [reflexivity|]. exists xs. split; [apply HQ; reflexivity|]. apply S. reflexivity.
      + destruct (remaining_spec g xs G) as (ss & -> & _). eexists _, _, _. split; [reflexivity|]. cbn. repeat split; auto; try apply K. discriminate.
  Qed.
  Lemma fits_silent : forall rs r a, fits rs (r, a) -> fits rs (r, silent r a).
  Proof. intros rs [xs|xs] a H; cbn in *; auto. Qed.
  Lemma replay_spec : forall Q rs d p, kept Q d -> (forall xs, In (Erase xs) rs -> Q xs) ->
    exists d' p' l, replay rooted d p g rs = Some (d', p', l) /\ kept Q d' /\ Forall (fits (rows (sg_slices g))) l /\ map fst l = rs /\
      p_segment p' = p_segment p /\ p_deferred p' = p_deferred p /\ p_quit p' = p_quit p.
  Proof.
    induction rs as [|r rs IH]; intros d p K HQ; cbn [replay].
    - exists d, p, []. repeat split; auto; apply K.
    - destruct (handle_spec Q d p r K) as (d1 & p1 & a & -> & K1 & F1 & _ & S1 & D1 & Q1); [intros xs ->; apply HQ; left; reflexivity|].
      destruct (IH d1 p1 K1) as (d2 & p2 & l & -> & K2 & F2 & M2 & S2 & D2 & Q2); [intros xs Hx; apply HQ; right; assumption|].
      eexists _, _, _. split; [reflexivity|]. split; [assumption|]. split; [constructor; [apply fits_silent|]; assumption|].
      cbn. repeat split; congruence.
  Qed.
  Lemma step_spec : forall Q d p e, kept Q d -> sound Q p -> (forall xs, e = Request (Erase xs) -> Q xs) ->
    exists d' p' l, step rooted d p e = Some (d', p', l) /\ kept Q d' /\ sound Q p' /\ Forall (fits (rows (sg_slices g))) l.
  Proof.
    intros Q d p e K [S1 S2] HQ. destruct e as [r| |]; cbn [step].
    - destruct (p_quit p).
      + eexists _, _, _. split; [reflexivity|]. split; [assumption|]. split; [split; assumption|]. constructor; [destruct r; cbn; auto|constructor].
      + destruct S2 as [E|E]; rewrite E.
        * eexists _, _, _. split; [reflexivity|]. split; [assumption|]. split; [|constructor]. split; [|left; reflexivity].
          cbn. intros xs Hx. apply in_app_iff in Hx as [Hx|[->|[]]]; auto.
        * destruct (handle_spec Q d p r K) as (d1 & p1 & a & -> & K1 & F1 & _ & T1 & D1 & _); [intros xs ->; auto|].
          eexists _, _, _. split; [reflexivity|]. split; [assumption|]. split; [|auto]. split; [rewrite D1; assumption|right; congruence].
    - destruct S2 as [E|E]; rewrite E.
      + destruct (d_store d) as [h|] eqn:Ed.
        * assert (h = g) as -> by (destruct K as (_ & [K|[K _] ]); congruence).
          destruct (replay_spec Q (p_deferred p) d {| p_next := p_next p; p_segment := Some g; p_deferred := []; p_quit := p_quit p |} K S1)
            as (d1 & p1 & l & -> & K1 & F1 & _ & T1 & D1 & _).
          eexists _, _, _. split; [reflexivity|]. split; [assumption|]. split; [|assumption]. split; [rewrite D1; cbn; tauto|right; assumption].
        * eexists _, _, _. split; [reflexivity|]. split; [assumption|]. split; [split; cbn; [tauto|auto]|].
          apply Forall_forall. intros x Hx. apply in_map_iff in Hx as (r & <- & _). destruct r; cbn; auto.
      + eexists _, _, _. split; [reflexivity|]. split; [assumption|]. split; [split; auto|constructor].
    - eexists _, _, _. split; [reflexivity|]. split; [assumption|]. split; [split; cbn; [tauto|auto]|constructor].
  Qed.
  Lemma run_spec : forall Q es d p, kept Q d -> sound Q p -> (forall xs, asked es xs -> Q xs) ->
    exists d' p' l, run rooted es d p = Some (d', p', l) /\ kept Q d' /\ sound Q p' /\ Forall (fits (rows (sg_slices g))) l.
  Proof.
    induction es as [|e es IH]; intros d p K S HQ; cbn [run].
    - exists d, p, []. auto.
    - destruct (step_spec Q d p e K S) as (d1 & p1 & l1 & -> & K1 & S1 & F1); [intros xs ->; apply HQ; left; reflexivity|].
      destruct (IH d1 p1 K1 S1) as (d2 & p2 & l2 & -> & K2 & S2 & F2); [intros xs Hx; apply HQ; right; assumption|].
      eexists _, _, _. split; [reflexivity|]. split; [assumption|]. split; [assumption|]. apply Forall_app. auto.
  Qed.
End Passive.

(** * Active stores *)

(** What a user expects from a sequence of additions and erasures: the rows that are there in the
    end, and the answers. *)
Fixpoint expected (is : list incoming) (rs : list row) : list row :=
  match is with
  | [] => rs
  | Add s :: is' => expected is' (rs ++ rows_of s)
  | Ask (Erase xs) :: is' => expected is' (erased_by xs rs)
  | Ask (Extract _) :: is' => expected is' rs
  | Persist :: is' => expected is' rs
  end.
Fixpoint answers (is : list incoming) (rs : list row) : list (request * list row) :=
  match is with
  | [] => []
  | Add s :: is' => answers is' (rs ++ rows_of s)
  | Ask (Erase xs) :: is' => (Erase xs, []) :: answers is' (erased_by xs rs)
  | Ask (Extract xs) :: is' => (Extract xs, filter (in_set xs) rs) :: answers is' rs
  | Persist :: is' => answers is' rs
  end.
Definition replied (x : request * reply) : option (request * list row) :=
  match x with
  | (Extract xs, Slices ss) => Some (Extract xs, rows ss)
  | (Erase xs, Done) => Some (Erase xs, [])
  | _ => None
  end.
Definition added (is : list incoming) : list slice := flat_map (fun i => match i with Add s => [s] | _ => [] end) is.

Lemma ordered_app : forall a b, ordered a -> ordered b -> (forall p q, In p (ids_of a) -> In q (ids_of b) -> p < q) -> ordered (a ++ b).
Proof.
  intros a b [A1 A2] [B1 B2] H. split; [apply Forall_app; auto|]. rewrite ids_of_app. revert A2 H.
  generalize (ids_of a) as la. induction la as [|p la IH]; intros A2 H; [assumption|]. inversion A2; subst. cbn. constructor.
  - apply IH; [assumption|]. intros. apply H; [right|]; assumption.
  - apply Forall_app. split; [assumption|]. apply Forall_forall. intros q Hq. apply H; [left; reflexivity|assumption].
Qed.
Lemma ordered_split : forall a b, ordered (a ++ b) -> ordered a /\ ordered b /\ (forall p q, In p (ids_of a) -> In q (ids_of b) -> p < q).
Proof.
  intros a b [V S]. apply Forall_app in V as [V1 V2]. rewrite ids_of_app in S. unfold ordered.
  assert (StronglySorted lt (ids_of a) /\ StronglySorted lt (ids_of b) /\ (forall p q, In p (ids_of a) -> In q (ids_of b) -> p < q)) as (S1 & S2 & S3); [|auto 8].
  revert S. generalize (ids_of a) as la. induction la as [|p la IH]; intros S.
  - split; [constructor|]. split; [assumption|]. intros p q [].
  - cbn in S. inversion S; subst. destruct (IH H1) as (I1 & I2 & I3). apply Forall_app in H2 as [F1 F2].
    split; [constructor; assumption|]. split; [assumption|]. intros x y [<-|Hx] Hy; [|auto]. rewrite Forall_forall in F2. auto.
Qed.

(** All IDs of [rs] are below those of the slices still to come. *)
Definition before (rs : list row) (ss : list slice) : Prop := forall r q, In r rs -> In q (ids_of ss) -> row_id r < q.

Lemma feed_spec : forall is a, ~ In Persist is -> ordered (sg_slices (a_builder a)) -> ordered (added is) -> before (rows (sg_slices (a_builder a))) (added is) ->
  exists a' l, feed is a = Some (a', l) /\ ordered (sg_slices (a_builder a')) /\ a_file a' = a_file a /\
    rows (sg_slices (a_builder a')) = expected is (rows (sg_slices (a_builder a))) /\
    map replied l = map Some (answers is (rows (sg_slices (a_builder a)))).
Proof.
  induction is as [|i is IH]; intros a P O Oa B.
  - exists a, []. auto 8.
  - assert (~ In Persist is) as P' by (intros H; apply P; right; assumption). destruct i as [s|[xs|xs]|]; cbn [feed take].
    + cbn [added flat_map] in Oa, B. change (ordered ([s] ++ added is)) in Oa. change (before (rows (sg_slices (a_builder a))) ([s] ++ added is)) in B.
      pose proof (ordered_split _ _ Oa) as (O1 & O2 & O3).
      destruct (IH {| a_builder := Seg (sg_id (a_builder a)) (sg_slices (a_builder a) ++ [s]); a_file := a_file a; a_fresh := a_fresh a |})
        as (a' & l & -> & H1 & H2 & H3 & H4).
      * assumption.
      * cbn. apply ordered_app; [assumption|assumption|]. intros p q Hp Hq. apply in_map_iff in Hp as (r & <- & Hr). apply B; [assumption|].
        rewrite ids_of_app. apply in_app_iff. auto.
      * assumption.
      * intros r q Hr Hq. cbn in Hr. rewrite rows_app in Hr. apply in_app_iff in Hr as [Hr|Hr].
        -- apply B; [assumption|]. rewrite ids_of_app. apply in_app_iff. auto.
        -- apply O3; [|assumption]. apply in_map. assumption.
      * exists a', l. split; [reflexivity|]. cbn [a_builder sg_slices a_file] in *. rewrite rows_app in H3, H4. unfold rows in H3 at 3. unfold rows in H4 at 2.
        cbn [flat_map] in H3, H4. rewrite app_nil_r in H3, H4. auto.
    + destruct (extract_spec (a_builder a) xs O) as (ss & -> & R). destruct (IH a P' O Oa B) as (a' & l & -> & H1 & H2 & H3 & H4).
      eexists _, _. split; [reflexivity|]. split; [assumption|]. split; [assumption|]. split; [assumption|]. cbn. rewrite R, H4. reflexivity.
    + destruct (remaining_spec (a_builder a) xs O) as (ss & -> & R & Os).
      destruct (IH {| a_builder := Seg (sg_id (a_builder a)) ss; a_file := a_file a; a_fresh := S (a_fresh a) |}) as (a' & l & -> & H1 & H2 & H3 & H4).
      * assumption.
      * assumption.
      * assumption.
      * intros r q Hr Hq. cbn [a_builder sg_slices] in Hr. rewrite R in Hr. unfold erased_by in Hr. apply filter_In in Hr as [Hr _]. apply B; assumption.
      * cbn [a_builder sg_slices a_file] in *. rewrite R in H3, H4.
        eexists _, _. split; [reflexivity|]. split; [assumption|]. split; [assumption|]. split; [assumption|]. cbn. rewrite H4. reflexivity.
    + exfalso. apply P. left. reflexivity.
Qed.
Lemma feed_app : forall is js a, feed (is ++ js) a = match feed is a with
  | None => None
  | Some (a', l) => match feed js a' with None => None | Some (a'', l') => Some (a'', l ++ l') end end.
Proof.
  induction is as [|i is IH]; intros js a; cbn [app feed].
  - destruct (feed js a) as [ [? ?]|]; reflexivity.
  - destruct (take a i) as [ [a1 l1]|]; [|reflexivity]. rewrite IH. destruct (feed is a1) as [ [a2 l2]|]; [|reflexivity].
    destruct (feed js a2) as [ [a3 l3]|]; [|reflexivity]. rewrite app_assoc. reflexivity.
Qed.
