(** C61: the archive answers every request once and sends what its slices call for. *)
From Coq Require Import List NArith ZArith Bool Arith Lia.
From Verif Require Import OperatorModel AddressModel DataModel TypeModel ExpressionModel ExpressionProofs TableSliceModel TableSliceProofs
  TailorProofs PropsData PropsTableSlice ArchiveModel ArchiveProofs.
Import ListNotations.
Open Scope nat_scope.

(** * The protocol *)

(** For every way to serve slices, every sequence of requests and of actors going down, and
    whatever the store returns: no promise is fulfilled twice, and only promises of requests are. *)
Theorem C61_once : forall serve a, reach serve a -> NoDup (answers (a_log a)) /\ forall p, In p (answers (a_log a)) -> exists q xs, In (Filed p q xs) (a_log a).
Proof.
  intros serve a H. destruct (inv_core serve a (reach_inv serve a H)) as (act & C). split; [exact (c_once _ _ _ _ C)|]. intros p P. unfold answers in P. apply in_flat_map in P as (e & P & E).
  destruct e as [| | | | | | |p0 d]; try contradiction. destruct E as [->|[]]. destruct d; [destruct (c_good _ _ _ _ C p P) as (q & xs & F & _)|destruct (c_bad _ _ _ _ C p P) as (q & xs & q' & F & _)]; eauto.
Qed.
(** The archive works on one session at a time: there is at most one message to itself in its
    mailbox, and if there is none all requests have been answered. *)
Theorem C61_idle : forall serve a, reach serve a -> a_resumes a <= 1 /\
  (a_resumes a = 0 -> a_session a = false /\ a_requests a = [] /\ forall p q xs, In (Filed p q xs) (a_log a) -> exists d, In (Answered p d) (a_log a)).
Proof.
  intros serve a H. destruct (reach_inv serve a H) as [I1 I2]. split; [destruct (a_session a); lia|]. intros R. destruct (a_session a); [lia|]. destruct I2 as [Q C]. split; [reflexivity|]. split; [exact Q|]. intros p q xs F.
  destruct (c_filed _ _ _ _ C p) as [A|[]]; [apply filed_in; eauto|]. unfold answers in A. apply in_flat_map in A as (e & A & E). destruct e as [| | | | | | |p0 d]; try contradiction. destruct E as [->|[]]. eauto.
Qed.
(** A request that is answered [done] was an erasure that has been made; or a session was opened for
    it, whose slices went up to the end, and all that these slices call for was sent before the
    answer, and nothing else; or the sink of the query went down, or the query has been found not to
    fit some slice. *)
Theorem C61_done : forall serve a p, reach serve a -> In (Answered p true) (a_log a) ->
  exists q xs, In (Filed p q xs) (a_log a) /\
    ((q_cmd q = Erase /\ In (Erased xs) (a_log a)) \/
     exists q', same q' q /\ (complete serve p q' xs (a_log a) \/ (exists k, sink_of q' = Some k /\ In (Down k) (a_log a)) \/ In (Unfit q') (a_log a))).
Proof.
  intros serve a p H A. destruct (inv_core serve a (reach_inv serve a H)) as (act & C). destruct (c_good _ _ _ _ C p A) as (q & xs & F & G). exists q, xs. split; [exact F|]. destruct G as [G|(q' & E & G)]; [now left|right]. exists q'. split; [exact E|]. destruct G as [[G|G]|G]; auto.
Qed.
(** A request that is answered with an error: the store had an error, or the query does not fit some
    slice. *)
Theorem C61_error : forall serve a p, reach serve a -> In (Answered p false) (a_log a) ->
  exists q xs q', In (Filed p q xs) (a_log a) /\ same q' q /\ (In (Got GError) (a_log a) \/ In (Unfit q') (a_log a)).
Proof. intros serve a p H A. destruct (inv_core serve a (reach_inv serve a H)) as (act & C). exact (c_bad _ _ _ _ C p A). Qed.
(** All that is ever sent are the messages that the slices call for, slice by slice, each to the
    sink of the query for whose session the store gave the slice. *)
Theorem C61_messages : forall serve a, reach serve a -> msgs (a_log a) = expected serve None (a_log a).
Proof. intros serve a H. destruct (inv_core serve a (reach_inv serve a H)) as (act & C). exact (c_msgs _ _ _ _ C). Qed.
(** No assertion of the protocol fails: a step can only fail while a slice is served. *)
Theorem C61_safe : forall serve i a, reach serve a -> enabled i a -> step serve i a = None -> exists q xs s, i = IResume (GSlice s) /\ serve q xs s = Crash.
Proof. intros serve i a H. apply step_none. now apply reach_inv. Qed.

(** The archive goes on until there is nothing to do. *)
Fixpoint resumes (serve : query -> list bool -> slice -> served) (gs : list got) (a : archive) : option archive :=
  match gs with
  | [] => Some a
  | g :: r => if a_resumes a =? 0 then Some a else match on_resume serve g a with Some a' => resumes serve r a' | None => None end
  end.
Definition is_end (g : got) : bool := match g with GSlice _ => false | _ => true end.
(** If the sessions end, be it with an error, and no requests arrive, then all requests are answered
    after at most one more session than there are open requests, and the archive is idle. *)
Theorem C61_drains : forall serve gs a a', reach serve a -> resumes serve gs a = Some a' ->
  length (filed (a_log a)) - length (answers (a_log a)) < length (filter is_end gs) ->
  a_resumes a' = 0 /\ forall p q xs, In (Filed p q xs) (a_log a) -> exists d, In (Answered p d) (a_log a').
Proof.
  intros serve gs a a' H R L.
  assert (M : a_resumes a' = 0 /\ reach serve a' /\ filed (a_log a') = filed (a_log a)).
  { revert a H R L. induction gs as [|g gs IH]; intros a H R L; [cbn in L; lia|]. cbn [resumes] in R. destruct (Nat.eqb_spec (a_resumes a) 0) as [Z|NZ]; [injection R as <-; auto|].
    destruct (on_resume serve g a) as [b|] eqn:S; [|discriminate]. assert (HB : reach serve b) by (apply (reach_step serve a (IResume g)); [exact H|cbn; lia|exact S]).
    destruct (grows_answers _ _ (resume_grows serve g a b S)) as [G1 G2]. cbn [filter] in L.
    assert (K : a_resumes b = 0 \/ length (filed (a_log b)) - length (answers (a_log b)) < length (filter is_end gs)).
    { rewrite G2. destruct (is_end g) eqn:E; cbn [length] in L; [|right; lia].
      assert (EE : g = GEnd \/ g = GError) by (destruct g; [discriminate|auto|auto]).
      destruct (resume_end serve g a b EE (reach_inv serve a H) ltac:(lia) S) as [X|X]; [now left|]. right.
      destruct (inv_core serve b (reach_inv serve b HB)) as (act & C).
      assert (LE : length (answers (a_log b)) <= length (filed (a_log b))).
      { apply NoDup_incl_length; [exact (c_once _ _ _ _ C)|]. intros p P. apply filed_in. exact (proj2 (C61_once serve b HB) p P). }
      rewrite G2 in LE. lia. }
    destruct K as [K|K].
    - assert (b = a') by (destruct gs; cbn [resumes] in R; [|rewrite K in R; cbn in R]; congruence). subst. rewrite G2. auto.
    - destruct (IH b HB R K) as (X1 & X2 & X3). rewrite X3, G2. auto. }
  destruct M as (M1 & M2 & M3). split; [exact M1|]. intros p q xs F. destruct (C61_idle serve a' M2) as [_ I]. destruct (I M1) as (_ & _ & I').
  assert (F' : In p (filed (a_log a'))) by (rewrite M3; apply filed_in; eauto). apply filed_in in F' as (q' & ys & F'). eapply I'. exact F'.
Qed.

(** * What is sent for a slice *)

Lemma in_events : forall s i r, In (i, r) (events s) -> In r (s_rows s).
Proof. intros s i r H. unfold events in H. destruct (s_offset s); [|contradiction]. apply in_numbered in H as [_ H]. eapply nth_error_In. exact H. Qed.
Lemma events_rows : forall s o r, s_offset s = Some o -> In r (s_rows s) -> exists i, In (i, r) (events s).
Proof.
  intros s o r O H. unfold events. rewrite O. unfold numbered. clear O. revert o. induction (s_rows s) as [|r0 rows IH]; intros o; [contradiction|]. cbn [length seq combine].
  destruct H as [->|H]; [exists o; now left|]. destruct (IH H (S o)) as (i & I). exists i. now right.
Qed.
Lemma in_filter_events : forall re c s i r, In (i, r) (events s) -> existsb (fun x : nat * list data => (fst x =? i) && holds (row_truth re (s_layout s) (snd x)) c) (events s) = holds (row_truth re (s_layout s) r) c.
Proof.
  intros re c s i r H. unfold events in *. destruct (s_offset s) as [o|]; [|contradiction]. pose proof H as H0. apply in_numbered in H0 as [H1 H2].
  destruct (holds (row_truth re (s_layout s) r) c) eqn:E.
  - apply existsb_exists. exists (i, r). split; [exact H|]. cbn. now rewrite Nat.eqb_refl, E.
  - apply Bool.not_true_is_false. intros X. apply existsb_exists in X as ((i' & r') & X1 & X2). cbn in X2. apply andb_true_iff in X2 as [X2 X3]. apply Nat.eqb_eq in X2. subst i'. apply in_numbered in X1 as [_ X1]. congruence.
Qed.
Lemma filter_ext_in' : forall {A} (f g : A -> bool) l, (forall x, In x l -> f x = g x) -> filter f l = filter g l.
Proof. intros A f g l. induction l as [|x l IH]; intros H; [reflexivity|]. cbn. rewrite (H x (or_introl eq_refl)), IH by (intros; apply H; now right). reflexivity. Qed.
Lemma select_matching_spec : forall re c la subs, Forall (fun x => s_layout x = la /\ s_rows x <> [] /\ s_offset x <> None /\ Forall (fun r => evaluable re la r c) (s_rows x)) subs ->
  exists ss, select_matching re c subs = Some ss /\ flat_map events ss = filter (fun e => holds (row_truth re la (snd e)) c) (flat_map events subs) /\ Forall (fun x => s_layout x = la /\ s_rows x <> [] /\ s_offset x <> None) ss.
Proof.
  intros re c la. induction subs as [|x subs IH]; intros H.
  - exists []. auto.
  - inversion H as [|? ? (L & R & O & E) H']; subst. destruct (IH H') as (ss & S1 & S2 & S3). destruct (s_offset x) as [o|] eqn:OX; [|contradiction].
    destruct (C20_evaluate re x o c OX E) as (ids & E1 & E2 & E3). destruct (C41_select x o ids OX R) as (ys & Y1 & Y2 & Y3).
    exists (ys ++ ss). cbn [select_matching]. rewrite E1, Y1, S1. split; [reflexivity|]. cbn [flat_map]. rewrite flat_map_app, filter_app, Y2, S2. split; [|apply Forall_app; auto]. f_equal.
    apply filter_ext_in'. intros [i r] I. cbn [fst snd]. rewrite E3. now apply in_filter_events.
Qed.
(** With preserved IDs: exactly the events of the slice that the request asks for and that satisfy
    the expression tailored to the layout, in order and under their IDs. *)
Theorem C61_extract : forall re glob q xs s o k c, q_cmd q = Extract k true -> s_offset s = Some o -> s_rows s <> [] -> q_expr q <> ENone ->
  tailor glob (q_expr q) (TRecord (la_meta (s_layout s)) (la_fields (s_layout s))) = ok c ->
  Forall (fun r => evaluable re (s_layout s) r (prune_meta c)) (s_rows s) ->
  exists ss, serve re glob q xs s = Sent (map MSlice ss) /\
    flat_map events ss = filter (fun e => in_ids xs (fst e) && holds (row_truth re (s_layout s) (snd e)) (prune_meta c)) (events s) /\
    Forall (fun x => s_layout x = s_layout s) ss.
Proof.
  intros re glob q xs s o k c Q O R N T E. destruct (C41_select s o xs O R) as (subs & S1 & S2 & S3).
  destruct (select_matching_spec re (prune_meta c) (s_layout s) subs) as (ss & M1 & M2 & M3).
  - apply Forall_forall. intros x X. destruct (proj1 (Forall_forall _ _) S3 x X) as (X1 & X2 & X3). repeat split; try assumption. apply Forall_forall. intros r RR. apply (proj1 (Forall_forall _ _) E).
    destruct (s_offset x) as [ox|] eqn:OX; [|contradiction]. destruct (events_rows x ox r OX RR) as (i & I). assert (IN : In (i, r) (flat_map events subs)) by (apply in_flat_map; eauto). rewrite S2 in IN. apply filter_In in IN as [IN _]. eapply in_events. exact IN.
  - exists ss. split; [|split].
    + unfold serve. rewrite expr_eqb_none, Q. destruct (q_expr q); try contradiction; rewrite T, S1, M1; reflexivity.
    + rewrite M2, S2, filter_filter. reflexivity.
    + eapply Forall_impl; [|exact M3]. intros x (X & _). exact X.
Qed.
(** Without an expression, all the events that the request asks for. *)
Theorem C61_extract_all : forall re glob q xs s o k, q_cmd q = Extract k true -> s_offset s = Some o -> s_rows s <> [] -> q_expr q = ENone ->
  exists ss, serve re glob q xs s = Sent (map MSlice ss) /\ flat_map events ss = filter (fun e => in_ids xs (fst e)) (events s) /\ Forall (fun x => s_layout x = s_layout s) ss.
Proof.
  intros re glob q xs s o k Q O R N. destruct (C41_select s o xs O R) as (subs & S1 & S2 & S3). exists subs. split; [unfold serve; rewrite N, Q; cbn; now rewrite S1|]. split; [exact S2|]. eapply Forall_impl; [|exact S3]. intros x (X & _). exact X.
Qed.
(** Without preserved IDs: one slice with the wanted rows, if there are any. *)
Theorem C61_filter : forall re glob q xs s k c, q_cmd q = Extract k false -> s_rows s <> [] -> q_expr q <> ENone ->
  tailor glob (q_expr q) (TRecord (la_meta (s_layout s)) (la_fields (s_layout s))) = ok c ->
  Forall (fun r => evaluable re (s_layout s) r (prune_meta c)) (s_rows s) ->
  (wanted re s (prune_meta c) xs = [] /\ serve re glob q xs s = Sent []) \/
  exists t, serve re glob q xs s = Sent [MSlice t] /\ s_layout t = s_layout s /\ s_rows t = wanted re s (prune_meta c) xs.
Proof.
  intros re glob q xs s k c Q R N T E. pose proof (C20_filter re s (prune_meta c) xs R E) as F.
  assert (SV : serve re glob q xs s = match filter_slice re s (prune_meta c) xs with None => Crash | Some None => Sent [] | Some (Some t) => Sent [MSlice t] end).
  { unfold serve. rewrite expr_eqb_none, Q. destruct (q_expr q); try contradiction; now rewrite T. }
  rewrite SV, F. destruct (wanted re s (prune_meta c) xs) as [|r rows]; [left; auto|right]. eexists. split; [reflexivity|]. auto.
Qed.
(** Counts: the number of the wanted rows. *)
Theorem C61_count : forall re glob q xs s k c, q_cmd q = Count k false -> s_offset s <> None -> s_rows s <> [] -> q_expr q <> ENone ->
  tailor glob (q_expr q) (TRecord (la_meta (s_layout s)) (la_fields (s_layout s))) = ok c ->
  Forall (fun r => evaluable re (s_layout s) r (prune_meta c)) (s_rows s) ->
  serve re glob q xs s = Sent [MCount (length (wanted re s (prune_meta c) xs))].
Proof.
  intros re glob q xs s k c Q O R N T E. pose proof (C20_count re s (prune_meta c) xs O R E) as F. unfold serve. rewrite expr_eqb_none, Q. destruct (q_expr q); try contradiction; now rewrite T, F.
Qed.

(** * A run *)

Fixpoint run (serve : query -> list bool -> slice -> served) (is : list input) (a : archive) : option archive :=
  match is with
  | [] => Some a
  | i :: r =>
      if match i with IQuery p _ _ => negb (existsb (Nat.eqb p) (filed (a_log a))) | IDown _ => true | IResume _ => 0 <? a_resumes a end
      then match step serve i a with Some a' => run serve r a' | None => None end else None
  end.
Lemma run_reach : forall serve is a a', reach serve a -> run serve is a = Some a' -> reach serve a'.
Proof.
  intros serve. induction is as [|i is IH]; intros a a' H R; cbn [run] in R; [injection R as <-; exact H|].
  destruct (match i with IQuery p _ _ => negb (existsb (Nat.eqb p) (filed (a_log a))) | IDown _ => true | IResume _ => 0 <? a_resumes a end) eqn:E; [|discriminate]. destruct (step serve i a) as [b|] eqn:S; [|discriminate].
  apply (IH b a'); [|exact R]. eapply reach_step; [exact H| |exact S]. destruct i as [p q xs|k|g]; cbn [enabled]; [|exact Logic.I|now apply Nat.ltb_lt].
  intros q' ys F. apply negb_true_iff in E. apply Bool.not_true_iff_false in E. apply E. apply existsb_exists. exists p. split; [apply filed_in; eauto|apply Nat.eqb_refl].
Qed.

(** Two requests for a query that preserves IDs and one for a query that counts; the store has one
    slice for each session. *)
Definition extract_query : query := {| q_cmd := Extract 7 true; q_expr := sample_query |}.
Definition count_query : query := {| q_cmd := Count 8 false; q_expr := sample_query |}.
Definition sample_serve := serve literal_regex exact_name.
Definition sample_inputs : list input :=
  [IQuery 0 extract_query (repeat true 9); IQuery 1 count_query (repeat true 99); IResume (GSlice five_rows); IQuery 2 extract_query (repeat false 7 ++ [true]);
   IResume GEnd; IResume (GSlice five_rows); IResume GEnd; IResume (GSlice five_rows); IResume GEnd].
Example C61_example : exists a, run sample_serve sample_inputs start = Some a /\ reach sample_serve a /\ a_resumes a = 0 /\
  answers (a_log a) = [0; 2; 1] /\ map fst (msgs (a_log a)) = [7; 7; 7; 8] /\ complete sample_serve 2 extract_query (repeat false 7 ++ [true]) (a_log a).
Proof.
  destruct (run sample_serve sample_inputs start) as [a|] eqn:E; [|vm_compute in E; discriminate]. exists a. split; [reflexivity|]. split; [eapply run_reach; [apply reach_start|exact E]|].
  vm_compute in E. injection E as <-. cbn [a_resumes a_log]. split; [reflexivity|]. split; [reflexivity|]. split; [reflexivity|].
  eexists (_ :: _ :: _ :: _ :: _ :: _ :: _ :: _ :: _ :: []), [_; _; _], _, [five_rows]. cbn [app]. split; [reflexivity|]. split; [reflexivity|]. split; [reflexivity|]. split; [|vm_compute; reflexivity].
  constructor; [|constructor]. eexists. vm_compute. reflexivity.
Qed.
(** The hypotheses about slices are met. *)
Example C61_serve_example : q_cmd extract_query = Extract 7 true /\ s_offset five_rows <> None /\ s_rows five_rows <> [] /\ q_expr extract_query <> ENone /\
  tailor exact_name (q_expr extract_query) (TRecord (la_meta (s_layout five_rows)) (la_fields (s_layout five_rows))) = ok tailored_query /\
  Forall (fun r => evaluable literal_regex (s_layout five_rows) r (prune_meta tailored_query)) (s_rows five_rows) /\
  exists a b, sample_serve extract_query (repeat true 9) five_rows = Sent [MSlice a; MSlice b] /\ map fst (events a) = [5] /\ map fst (events b) = [7] /\
  sample_serve count_query (repeat true 9) five_rows = Sent [MCount 2].
Proof.
  destruct C20_example as (_ & T & E & _). split; [reflexivity|]. split; [discriminate|]. split; [discriminate|]. split; [discriminate|]. split; [exact T|]. split; [exact E|].
  do 2 eexists. split; [vm_compute; reflexivity|]. vm_compute. auto.
Qed.

(** * What does not hold *)

(** A query that does not fit a slice: the first request is answered with an error, and another
    request for the same query with [done], although the store was never asked for its events and
    the sink is there. *)
Definition odd_query : query := {| q_cmd := Extract 7 true; q_expr := EPred {| p_lhs := OType (TNone {| m_name := timestamp_name; m_attrs := [] |}); p_op := op_eq; p_rhs := OVal (DString [97%N]) |} |}.
Theorem C61_unfit_refuted : exists re glob a p q xs, reach (serve re glob) a /\ validate (fun _ => true) (q_expr q) = true /\ In (Filed p q xs) (a_log a) /\ In (Answered p true) (a_log a) /\
  ~ In p (opens (a_log a)) /\ (forall k, ~ In (Down k) (a_log a)) /\ msgs (a_log a) = [].
Proof.
  exists literal_regex, exact_name.
  destruct (run sample_serve [IQuery 0 odd_query [true]; IQuery 1 odd_query [false; true]; IResume (GSlice five_rows); IResume GEnd] start) as [a|] eqn:E; [|vm_compute in E; discriminate].
  assert (R : reach sample_serve a) by (eapply run_reach; [apply reach_start|exact E]). exists a, 1, odd_query, [false; true]. split; [exact R|]. split; [reflexivity|]. vm_compute in E. injection E as <-. cbn. repeat split.
  - auto.
  - auto 10.
  - intros [H|[]]. discriminate.
  - intros k H. intuition discriminate.
Qed.
(** A sink that goes down is sent messages if it had asked two queries: only the first one is
    cancelled, however often the archive is told. *)
Theorem C61_down_refuted : exists re glob a k l1 l2 m, reach (serve re glob) a /\ a_log a = l1 ++ Down k :: Down k :: l2 /\ In (Msg k m) l2.
Proof.
  exists literal_regex, exact_name.
  destruct (run sample_serve [IQuery 0 extract_query (repeat true 9); IQuery 1 {| q_cmd := Count 7 false; q_expr := sample_query |} (repeat true 9); IDown 7; IDown 7; IResume (GSlice five_rows)] start) as [a|] eqn:E; [|vm_compute in E; discriminate].
  assert (R : reach sample_serve a) by (eapply run_reach; [apply reach_start|exact E]). exists a, 7. vm_compute in E. injection E as <-. eexists [_; _; _], _, (MCount 2). split; [exact R|]. split; [reflexivity|]. cbn. auto 10.
Qed.
(** Estimated counts end the archive with the first slice. *)
Theorem C61_estimate_refuted : exists re glob a s, reach (serve re glob) a /\ enabled (IResume (GSlice s)) a /\ step (serve re glob) (IResume (GSlice s)) a = None.
Proof.
  exists literal_regex, exact_name. destruct (run sample_serve [IQuery 0 {| q_cmd := Count 7 true; q_expr := sample_query |} (repeat true 9)] start) as [a|] eqn:E; [|vm_compute in E; discriminate].
  exists a, five_rows. split; [eapply run_reach; [apply reach_start|exact E]|]. vm_compute in E. injection E as <-. split; [cbn; lia|vm_compute; reflexivity].
Qed.

Definition assumptions_archive := (C61_once, C61_idle, C61_done, C61_error, C61_messages, C61_safe, C61_drains, C61_extract, C61_extract_all, C61_filter, C61_count,
  C61_unfit_refuted, C61_down_refuted, C61_estimate_refuted).
Print Assumptions assumptions_archive.
