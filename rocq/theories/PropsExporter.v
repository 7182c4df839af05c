(** C31: exporters neither lose, duplicate nor over-deliver results. *)
From Coq Require Import List ZArith NArith Lia Bool Arith ZifyBool ZifyNat ZifyN.
From Verif Require Import OperatorModel AddressModel DataModel TypeModel ExpressionModel ExpressionProofs TableSliceModel TableSliceProofs
  PropsData PropsTableSlice ExporterModel ExporterProofs.
Import ListNotations.
Open Scope nat_scope.

(** * Nothing is lost, duplicated or reordered *)

(** For every history of messages, in which newly imported batches can be checked: what
    the sink got is a prefix of what arrived, in order of arrival. Until the exporter
    quits it is followed by exactly what the exporter caches, and its counters of shipped
    and cached events are right. *)
Theorem C31_exact : forall re glob h c e ms x out, Forall (checkable re glob e) ms ->
  x_run re glob (x_init h c e) ms = Some (x, out) ->
  (exists rest, delivered out ++ rest = arrived re glob e ms) /\
  (x_quit x = false -> delivered out ++ all_tagged (x_results x) = arrived re glob e ms) /\
  x_shipped x = N.of_nat (length (delivered out)) /\ x_cached x = N.of_nat (length (all_tagged (x_results x))).
Proof.
  intros re glob h c e ms x out K H.
  destruct (x_run_spec re glob ms _ _ _ (x_init_inv h c e) K H) as ((A & _) & _ & S & F & G).
  split; [exact G|]. split; [exact F|]. split; [rewrite S; cbn; lia|exact A].
Qed.

(** Nothing the client asked for is withheld: after every message, either no more events
    are wanted or none are cached. *)
Theorem C31_prompt : forall re glob h c e ms x out, Forall (checkable re glob e) ms ->
  x_run re glob (x_init h c e) ms = Some (x, out) -> x_requested x = 0%N \/ all_tagged (x_results x) = [].
Proof.
  intros re glob h c e ms x out K H.
  destruct (x_run_spec re glob ms _ _ _ (x_init_inv h c e) K H) as ((A & _ & Z) & _).
  destruct Z as [Z|Z]; [now left|]. right. apply length_zero_iff_nil. lia.
Qed.

(** * No assertion fails *)

Definition not_done (m : xmsg) : Prop := match m with XDone => False | _ => True end.
Lemma received_frame : forall re glob x m y out, not_done m -> x_handle re glob x m = Some (y, out) -> x_received y = x_received x.
Proof.
  assert (Sh : forall x y out, ship_results x = Some (y, out) -> x_received y = x_received x).
  { intros x y out. unfold ship_results. destruct (ship_loop _ _ _ _) as [[[[[? ?] ?] ?] ?]|]; [|discriminate]. now intros [= <- <-]. }
  assert (Dn : forall x, x_received (fst (shutdown x)) = x_received x) by (intros x; unfold shutdown; now destruct (x_continuous x)).
  assert (Mo : forall r y out, and_then r request_more_hits = Some (y, out) -> exists z o, r = Some (z, o) /\ x_received y = x_received z).
  { intros [[z o]|] y out; [|discriminate]. cbn [and_then]. destruct (request_more_hits z) as [[z' o']|] eqn:E; [|discriminate].
    intros [= <- <-]. exists z, o. split; [reflexivity|]. now apply request_more_frame in E. }
  intros re glob x m y out N H. destruct m as [|n|parts sched| |s|s|]; cbn [x_handle] in H.
  - destruct (_ =? _)%N; [now injection H as <- <-|]. apply Mo in H as (z & o & E & ->). now apply Sh in E.
  - destruct (n =? 0)%N; [now injection H as <- <-|]. destruct (_ =? _)%N; [now injection H as <- <-|].
    destruct (_ <? _)%N; [|discriminate]. apply Mo in H as (z & o & E & ->). now apply Sh in E.
  - destruct (0 <? parts); [now injection H as <- <-|]. specialize (Dn x). destruct (shutdown x). now injection H as <- <-.
  - now injection H as <- <-.
  - now apply Sh in H.
  - unfold handle_batch in H. destruct (tailor _ _ _) as [k| |]; [| |discriminate].
    + destruct (evaluate_slice _ _ _) as [sel|]; [|discriminate]. destruct (_ =? _); [now injection H as <- <-|].
      destruct (select s sel); [|discriminate]. now apply Sh in H.
    + destruct (ship_results x) as [[z o]|] eqn:E; [|discriminate]. cbn [and_then] in H. apply Sh in E. specialize (Dn z).
      destruct (shutdown z). injection H as <- <-. cbn [fst] in Dn. congruence.
  - contradiction.
Qed.
Lemma received_run : forall re glob ms x y out, Forall not_done ms -> x_run re glob x ms = Some (y, out) -> x_received y = x_received x.
Proof.
  intros re glob. induction ms as [|m ms IH]; intros x y out N H; cbn [x_run] in H; [now injection H as <- <-|].
  inversion N; subst. destruct (x_step re glob x m) as [[z o]|] eqn:E; [|discriminate]. cbn [and_then] in H.
  destruct (x_run re glob z ms) as [[z' o']|] eqn:E'; [|discriminate]. injection H as <- <-. apply IH in E'; [|assumption].
  unfold x_step in E. destruct (x_quit x); [injection E as <- <-; exact E'|]. apply received_frame in E; [congruence|assumption].
Qed.

(** A history the index can cause: the reply to the query arrives at most once, and no
    round ends before it. *)
Definition one_reply (ms : list xmsg) : Prop :=
  Forall no_lookup ms \/
  exists before p n after, ms = before ++ XLookup p n :: after /\ Forall no_lookup before /\ Forall not_done before /\ Forall no_lookup after.

(** An exporter of a query that is either historical or continuous, but not both, fails
    no assertion in any such history, whatever numbers the index announces and however
    many rounds end. *)
Theorem C31_total : forall re glob h c e ms, h && c = false -> Forall (checkable re glob e) ms -> one_reply ms ->
  exists x out, x_run re glob (x_init h c e) ms = Some (x, out).
Proof.
  intros re glob h c e ms HC K [L|(before & p & n & after & -> & L1 & N1 & L2)].
  - apply x_run_total; auto using x_init_inv. unfold in_order, x_init. cbn. destruct h, c; try discriminate; auto.
  - apply Forall_app in K as [K1 K2]. inversion K2 as [|? ? K3 K4]; subst.
    assert (P : in_order (x_init h c e)) by (unfold in_order, x_init; cbn; destruct h, c; try discriminate; auto).
    destruct (x_run_total re glob before _ (x_init_inv h c e) K1 P L1) as (y & o & E). rewrite x_run_app, E. cbn [and_then].
    pose proof (received_run _ _ _ _ _ _ N1 E) as R. cbn in R.
    destruct (x_run_spec _ _ _ _ _ _ (x_init_inv h c e) K1 E) as (V & (S1 & S2 & S3) & _). cbn in S1, S2, S3. rewrite <- S3 in K4.
    assert (Py : in_order y) by (unfold in_order; rewrite R, S1, S2; destruct h, c; try discriminate; auto with arith; right; right; split; auto with arith).
    cbn [x_run]. unfold x_step. destruct (x_quit y) eqn:Q; cbn [and_then].
    + destruct (x_run_total re glob after y V K4 Py L2) as (z & o' & E'). rewrite E'. now do 2 eexists.
    + destruct (x_handle_total re glob y (XLookup p n) V I Q Py (or_intror R)) as (z & o' & E' & Pz). rewrite E'. cbn [and_then].
      pose proof (x_handle_moved re glob y (XLookup p n) z o' V I E') as (Vz & (_ & _ & Sz) & _). rewrite <- Sz in K4.
      destruct (x_run_total re glob after z Vz K4 Pz L2) as (w & o'' & E''). rewrite E''. now do 2 eexists.
Qed.

(** * As many events as the client asked for *)

(** The number of events a message asks for. *)
Definition asks (m : xmsg) : N := match m with XExtract n => n | _ => 0%N end.
Definition asked (ms : list xmsg) : N := fold_right (fun m a => (asks m + a)%N) 0%N ms.
Definition limited (m : xmsg) : Prop := match m with XExtractAll => False | _ => True end.
Definition no_extract (m : xmsg) : Prop := match m with XExtract _ => False | _ => True end.

Lemma run_quit : forall re glob ms x, x_quit x = true -> x_run re glob x ms = Some (x, []).
Proof.
  intros re glob. induction ms as [|m ms IH]; intros x Q; [reflexivity|]. cbn [x_run]. unfold x_step. rewrite Q. cbn [and_then]. now rewrite IH.
Qed.
(** Induction over the messages handled before quitting. *)
Lemma run_cons : forall re glob m ms x y out, x_inv x -> Forall (checkable re glob (x_expr x)) (m :: ms) -> x_quit x = false ->
  x_run re glob x (m :: ms) = Some (y, out) ->
  exists z o o', x_run re glob z ms = Some (y, o') /\ out = o ++ o' /\ x_inv z /\ Forall (checkable re glob (x_expr z)) ms /\
    wants (x_requested x) m = (x_requested z + N.of_nat (length (delivered o)))%N /\
    x_shipped z = (x_shipped x + N.of_nat (length (delivered o)))%N.
Proof.
  intros re glob m ms x y out V K Q H. inversion K as [|? ? K1 K2]; subst. cbn [x_run] in H. unfold x_step in H. rewrite Q in H.
  destruct (x_handle re glob x m) as [[z o]|] eqn:E; [|discriminate]. cbn [and_then] in H.
  destruct (x_run re glob z ms) as [[z' o']|] eqn:E'; [|discriminate]. injection H as <- <-.
  destruct (x_handle_moved _ _ _ _ _ _ V K1 E) as (A & (_ & _ & B) & D & _ & W).
  exists z, o, o'. rewrite B. split; [exact E'|]. split; [reflexivity|]. split; [exact A|]. auto.
Qed.

Lemma run_at_most : forall re glob ms x y out, x_inv x -> Forall (checkable re glob (x_expr x)) ms -> Forall limited ms ->
  x_run re glob x ms = Some (y, out) -> (x_requested y + N.of_nat (length (delivered out)) <= x_requested x + asked ms)%N.
Proof.
  intros re glob. induction ms as [|m ms IH]; intros x y out V K L H.
  - injection H as <- <-. cbn. lia.
  - destruct (x_quit x) eqn:Q; [rewrite run_quit in H by exact Q; injection H as <- <-; cbn; lia|].
    destruct (run_cons _ _ _ _ _ _ _ V K Q H) as (z & o & o' & E & -> & Vz & Kz & W & _). inversion L as [|? ? L1 L2]; subst.
    specialize (IH _ _ _ Vz Kz L2 E). rewrite delivered_app, app_length. cbn [asked fold_right]. fold (asked ms).
    assert (wants (x_requested x) m <= x_requested x + asks m)%N; [|lia].
    destruct m; cbn [wants asks] in *; try contradiction; try lia.
    destruct (N.eqb_spec n 0); [lia|]. destruct (N.eqb_spec (x_requested x) max_events); [lia|].
    etransitivity; [apply N.mod_le; discriminate|]. lia.
Qed.
(** Without a request for everything, the sink never gets more events than were asked for
    in total: in every history, also where counters wrap. *)
Theorem C31_at_most : forall re glob h c e ms x out, Forall (checkable re glob e) ms -> Forall limited ms ->
  x_run re glob (x_init h c e) ms = Some (x, out) -> (N.of_nat (length (delivered out)) <= asked ms)%N.
Proof.
  intros re glob h c e ms x out K L H. pose proof (run_at_most _ _ _ _ _ _ (x_init_inv h c e) K L H) as A. cbn in A. lia.
Qed.

Lemma run_served : forall re glob ms x y out, x_inv x -> Forall (checkable re glob (x_expr x)) ms -> Forall limited ms ->
  Forall (fun m => (asks m < 2 ^ 63)%N) ms -> (x_requested x + asked ms <= max_events)%N -> x_quit y = false ->
  x_run re glob x ms = Some (y, out) -> (x_requested y + N.of_nat (length (delivered out)) = x_requested x + asked ms)%N.
Proof.
  intros re glob. induction ms as [|m ms IH]; intros x y out V K L B S Qy H.
  - injection H as <- <-. cbn. lia.
  - destruct (x_quit x) eqn:Q; [rewrite run_quit in H by exact Q; injection H as <- <-; congruence|].
    destruct (run_cons _ _ _ _ _ _ _ V K Q H) as (z & o & o' & E & -> & Vz & Kz & W & _). inversion L as [|? ? L1 L2]; subst.
    inversion B as [|? ? B1 B2]; subst. cbn [asked fold_right] in *. fold (asked ms) in *.
    assert (wants (x_requested x) m = x_requested x + asks m)%N as R.
    { destruct m; cbn [wants asks] in *; try contradiction; try lia.
      destruct (N.eqb_spec n 0); [lia|]. destruct (N.eqb_spec (x_requested x) max_events); [lia|].
      unfold max_events in *. rewrite N.min_r by lia. rewrite N.mod_small by lia. reflexivity. }
    specialize (IH _ _ _ Vz Kz L2 B2 ltac:(lia) Qy E). rewrite delivered_app, app_length. lia.
Qed.
(** If no single request is for 2^63 events or more, and all requests together fit in 64
    bits, then until it quits the exporter has delivered exactly as many events as were
    asked for, or all that arrived. *)
Theorem C31_served : forall re glob h c e ms x out, Forall (checkable re glob e) ms -> Forall limited ms ->
  Forall (fun m => (asks m < 2 ^ 63)%N) ms -> (asked ms <= max_events)%N ->
  x_run re glob (x_init h c e) ms = Some (x, out) -> x_quit x = false ->
  delivered out = firstn (N.to_nat (asked ms)) (arrived re glob e ms).
Proof.
  intros re glob h c e ms x out K L B S H Q.
  pose proof (run_served _ _ _ _ _ _ (x_init_inv h c e) K L B S Q H) as R. cbn in R.
  destruct (C31_exact _ _ _ _ _ _ _ _ K H) as (_ & F & _). specialize (F Q).
  destruct (x_run_spec re glob ms _ _ _ (x_init_inv h c e) K H) as ((A & _ & Z) & _).
  rewrite <- F. rewrite firstn_app.
  destruct Z as [Z|Z].
  - replace (N.to_nat (asked ms)) with (length (delivered out)) by lia. rewrite Nat.sub_diag, firstn_all. cbn. now rewrite app_nil_r.
  - rewrite firstn_all2 by lia. assert (all_tagged (x_results x) = []) as -> by (apply length_zero_iff_nil; lia).
    now rewrite firstn_nil, app_nil_r.
Qed.

Lemma run_all : forall re glob ms x y out, x_inv x -> Forall (checkable re glob (x_expr x)) ms -> Forall no_extract ms ->
  (max_events <= x_requested x + x_shipped x)%N -> x_run re glob x ms = Some (y, out) -> (max_events <= x_requested y + x_shipped y)%N.
Proof.
  intros re glob. induction ms as [|m ms IH]; intros x y out V K L S H.
  - injection H as <- <-. exact S.
  - destruct (x_quit x) eqn:Q; [rewrite run_quit in H by exact Q; injection H as <- <-; exact S|].
    destruct (run_cons _ _ _ _ _ _ _ V K Q H) as (z & o & o' & E & -> & Vz & Kz & W & Sz). inversion L as [|? ? L1 L2]; subst.
    refine (IH _ _ _ Vz Kz L2 _ E). destruct m; cbn [wants] in W; try contradiction; lia.
Qed.
(** Once a client has asked for everything, and not for a number of events afterwards,
    everything that arrives is delivered at once. *)
Theorem C31_all : forall re glob h c e ms ms' x out, Forall (checkable re glob e) (ms ++ XExtractAll :: ms') -> Forall no_extract ms' ->
  (N.of_nat (length (arrived re glob e (ms ++ XExtractAll :: ms'))) <= max_events)%N ->
  x_run re glob (x_init h c e) (ms ++ XExtractAll :: ms') = Some (x, out) -> x_quit x = false ->
  delivered out = arrived re glob e (ms ++ XExtractAll :: ms').
Proof.
  intros re glob h c e ms ms' x out K L S H Q. pose proof H as H0. apply Forall_app in K as K'. destruct K' as [K1 K2].
  rewrite x_run_app in H. destruct (x_run re glob (x_init h c e) ms) as [[y o]|] eqn:E; [|discriminate]. cbn [and_then] in H.
  destruct (x_run re glob y (XExtractAll :: ms')) as [[z o']|] eqn:E'; [|discriminate]. injection H as <- Eo.
  destruct (x_run_spec re glob ms _ _ _ (x_init_inv h c e) K1 E) as (Vy & (_ & _ & Sy) & _). cbn in Sy. rewrite <- Sy in K2.
  assert (M : (max_events <= x_requested z + x_shipped z)%N).
  { destruct (x_quit y) eqn:Qy; [rewrite run_quit in E' by exact Qy; injection E' as <- <-; congruence|].
    destruct (run_cons _ _ _ _ _ _ _ Vy K2 Qy E') as (w & p & p' & F & _ & Vw & Kw & W & Sw).
    eapply run_all; [exact Vw|exact Kw|exact L| |exact F]. cbn [wants] in W. lia. }
  destruct (C31_exact _ _ _ _ _ _ _ _ K H0) as (_ & F & Sh & _). specialize (F Q).
  destruct (x_run_spec re glob _ _ _ _ (x_init_inv h c e) K H0) as ((A & _ & Z) & _).
  rewrite <- F in *. rewrite app_length in S.
  assert (all_tagged (x_results z) = []) as -> by (apply length_zero_iff_nil; lia). now rewrite app_nil_r.
Qed.

(** * What is asked of the index *)

Definition more (out : list xout) : list nat := flat_map (fun o => match o with More n => [n] | Ship _ => [] end) out.
Definition partitions_asked (out : list xout) : nat := list_sum (more out).

Lemma more_app : forall a b, more (a ++ b) = more a ++ more b.
Proof. intros. apply flat_map_app. Qed.
Lemma asked_app : forall a b, partitions_asked (a ++ b) = partitions_asked a + partitions_asked b.
Proof. intros. unfold partitions_asked. rewrite more_app. apply list_sum_app. Qed.
Lemma ship_more : forall x y out, ship_results x = Some (y, out) -> more out = [].
Proof.
  intros x y out. unfold ship_results. destruct (ship_loop _ _ _ _) as [[[[[rs r] c] h] os]|]; [|discriminate]. intros [= _ <-].
  induction os as [|o os IH]; [reflexivity|exact IH].
Qed.

(** One message leads to at most one request to the index: for nothing more when the
    exporter quits, and otherwise for one or two of the candidates it has no results of. *)
Theorem C31_within_candidates : forall re glob x m y out, x_handle re glob x m = Some (y, out) ->
  more out = [] \/ (more out = [0] /\ x_quit y = true) \/
  (exists n, more out = [n] /\ 1 <= n <= 2 /\ x_received y + n <= x_expected y /\ x_scheduled y = n).
Proof.
  intros re glob x m y out H.
  assert (Dn : forall z, more (snd (shutdown z)) = [] \/ more (snd (shutdown z)) = [0] /\ x_quit (fst (shutdown z)) = true).
  { intros z. unfold shutdown. destruct (x_continuous z); [left; reflexivity|right; split; reflexivity]. }
  assert (Rq : forall z, request_more_hits z = Some (y, out) -> more out = [] \/
    exists n, more out = [n] /\ 1 <= n <= 2 /\ x_received y + n <= x_expected y /\ x_scheduled y = n).
  { intros z. unfold request_more_hits. destruct (negb (x_historical z)); [intros [= <- <-]; auto|].
    destruct (x_requested z =? 0)%N; [intros [= <- <-]; auto|]. destruct (x_received z =? x_expected z); [intros [= <- <-]; auto|].
    destruct (x_received z <? x_expected z) eqn:L; [|discriminate]. intros [= <- <-]. right.
    exists (Nat.min (x_expected z - x_received z) 2). cbn [x_received x_expected x_scheduled set_progress].
    split; [reflexivity|]. apply Nat.ltb_lt in L. split; [lia|]. split; [lia|reflexivity]. }
  assert (Mo : forall z, and_then (ship_results z) request_more_hits = Some (y, out) -> more out = [] \/
    exists n, more out = [n] /\ 1 <= n <= 2 /\ x_received y + n <= x_expected y /\ x_scheduled y = n).
  { intros z. destruct (ship_results z) as [[w o]|] eqn:E; [|discriminate]. apply ship_more in E. cbn [and_then].
    destruct (request_more_hits w) as [[w' o']|] eqn:E'; [|discriminate]. intros [= <- <-]. rewrite more_app, E. cbn [app].
    revert E'. unfold request_more_hits. destruct (negb (x_historical w)); [intros [= <- <-]; auto|].
    destruct (x_requested w =? 0)%N; [intros [= <- <-]; auto|]. destruct (x_received w =? x_expected w); [intros [= <- <-]; auto|].
    destruct (x_received w <? x_expected w) eqn:L; [|discriminate]. intros [= <- <-]. right.
    exists (Nat.min (x_expected w - x_received w) 2). cbn [x_received x_expected x_scheduled set_progress].
    split; [reflexivity|]. apply Nat.ltb_lt in L. split; [lia|]. split; [lia|reflexivity]. }
  destruct m as [|n|parts sched| |s|s|]; cbn [x_handle] in H.
  - destruct (_ =? _)%N; [injection H as <- <-; auto|]. destruct (Mo _ H); auto.
  - destruct (n =? 0)%N; [injection H as <- <-; auto|]. destruct (_ =? _)%N; [injection H as <- <-; auto|].
    destruct (_ <? _)%N; [|discriminate]. destruct (Mo _ H); auto.
  - destruct (0 <? parts); [injection H as <- <-; auto|]. specialize (Dn x). destruct (shutdown x). injection H as <- <-.
    cbn [fst snd] in Dn. tauto.
  - injection H as <- <-. right. left. split; reflexivity.
  - apply ship_more in H. auto.
  - unfold handle_batch in H. destruct (tailor _ _ _) as [k| |]; [| |discriminate].
    + destruct (evaluate_slice _ _ _) as [sel|]; [|discriminate]. destruct (_ =? _); [injection H as <- <-; auto|].
      destruct (select s sel); [|discriminate]. apply ship_more in H. auto.
    + destruct (ship_results x) as [[z o]|] eqn:E; [|discriminate]. apply ship_more in E. cbn [and_then] in H. specialize (Dn z).
      destruct (shutdown z) as [z' o']. cbn [fst snd] in Dn. injection H as <- <-. rewrite more_app, E. cbn [app]. tauto.
  - destruct (_ <? _); [destruct (Rq _ H); auto|]. match type of H with Some (shutdown ?z) = _ => specialize (Dn z); destruct (shutdown z) end.
    injection H as <- <-. cbn [fst snd] in Dn. tauto.
Qed.

(** Once everything was asked for, and with results and ends of rounds only: no candidate is
    asked for twice, and the exporter quits once all were asked for and their rounds ended. *)
Definition result_or_end (m : xmsg) : Prop := match m with XSlice _ | XDone => True | _ => False end.
Definition result_rows (ms : list xmsg) : N := fold_right (fun m n => (match m with XSlice s => nrows s | _ => 0 end + n)%N) 0%N ms.

Lemma run_rounds : forall re glob p ms x y out, x_inv x -> x_historical x = true -> x_continuous x = false -> x_quit x = false ->
  x_expected x = p -> 0 < x_scheduled x -> x_received x + x_scheduled x <= p ->
  (max_events <= x_requested x + x_shipped x)%N -> (x_shipped x + x_cached x + result_rows ms < max_events)%N ->
  Forall result_or_end ms -> x_run re glob x ms = Some (y, out) ->
  x_received x + x_scheduled x + partitions_asked out <= p /\
  (x_quit y = false -> x_received y + x_scheduled y = x_received x + x_scheduled x + partitions_asked out) /\
  (x_quit y = true -> x_received y = p /\ x_received x + x_scheduled x + partitions_asked out = p).
Proof.
  intros re glob p. induction ms as [|m ms IH]; intros x y out V Hh Hc Q Ep Sc Le Mx Bd F H.
  - injection H as <- <-. cbn. rewrite Q. split; [lia|]. split; [lia|discriminate].
  - inversion F as [|? ? F1 F2]; subst. cbn [x_run] in H. unfold x_step in H. rewrite Q in H.
    destruct (x_handle re glob x m) as [[z o]|] eqn:E; [|discriminate]. cbn [and_then] in H.
    destruct (x_run re glob z ms) as [[z' o']|] eqn:E'; [|discriminate]. injection H as <- <-. rewrite asked_app.
    assert (K : checkable re glob (x_expr x) m) by (destruct m; try contradiction; exact I).
    destruct (x_handle_moved _ _ _ _ _ _ V K E) as (A & (B1 & B2 & _) & D & T & W).
    assert (Cz : (x_shipped z + x_cached z + result_rows ms < max_events)%N).
    { destruct V as (V1 & _). destruct A as (A1 & _). rewrite A1, D. cbn [result_rows fold_right] in Bd. fold (result_rows ms) in Bd.
      apply (f_equal (@length _)) in T. rewrite !app_length in T.
      assert (N.of_nat (length (arrives re glob (x_expr x) m)) = match m with XSlice s => nrows s | _ => 0 end)%N.
      { destruct m; try contradiction; cbn [arrives]; [now rewrite nrows_tagged|reflexivity]. }
      lia. }
    assert (Mz : (max_events <= x_requested z + x_shipped z)%N) by (destruct m; try contradiction; cbn [wants] in W; lia).
    destruct m as [|n|parts sched| |s|s|]; try contradiction; cbn [x_handle] in E.
    + set (x' := add_results x (nrows s) (nrows s) [s]) in *.
      assert (Z : x_quit z = x_quit x /\ x_expected z = x_expected x /\ x_scheduled z = x_scheduled x /\ x_received z = x_received x).
      { unfold ship_results in E. destruct (ship_loop _ _ _ _) as [[[[[? ?] ?] ?] ?]|]; [|discriminate]. injection E as <- <-. auto. }
      destruct Z as (Z1 & Z2 & Z3 & Z4). unfold partitions_asked at 1 3 5. rewrite (ship_more _ _ _ E). cbn [list_sum fold_right].
      rewrite <- Z3, <- Z4. cbn [Nat.add]. apply (IH z); try congruence; try lia.
    + set (x' := set_progress x (x_expected x) (x_scheduled x) (x_received x + x_scheduled x)) in *.
      destruct (x_received x' <? x_expected x') eqn:L.
      * unfold request_more_hits in E. change (x_historical x') with (x_historical x) in E. rewrite Hh in E. cbn [negb] in E.
        change (x_requested x') with (x_requested x) in E. destruct (N.eqb_spec (x_requested x) 0) as [R|R]; [lia|].
        destruct (x_received x' =? x_expected x') eqn:L2; [lia|]. rewrite L in E.
        assert (G : z = set_progress x' (x_expected x') (Nat.min (x_expected x' - x_received x') 2) (x_received x') /\
          o = [More (Nat.min (x_expected x' - x_received x') 2)]) by (split; congruence). destruct G as [-> ->].
        change (x_received x') with (x_received x + x_scheduled x) in *. change (x_expected x') with (x_expected x) in *.
        set (k := Nat.min (x_expected x - (x_received x + x_scheduled x)) 2) in *.
        assert (Hk : 0 < k /\ x_received x + x_scheduled x + k <= x_expected x) by (unfold k; lia).
        assert (P : partitions_asked [More k] = k) by (cbn; lia). rewrite P.
        specialize (IH _ _ _ A ltac:(congruence) ltac:(congruence) Q eq_refl ltac:(apply Hk) ltac:(apply Hk) Mz Cz F2 E').
        cbn [x_received x_scheduled set_progress] in IH. cbn [x_expected set_progress] in IH. lia.
      * unfold shutdown in E. change (x_continuous x') with (x_continuous x) in E. rewrite Hc in E. unfold exit_now in E.
        injection E as <- <-. rewrite run_quit in E' by reflexivity. injection E' as <- <-.
        cbn [x_quit x_received]. unfold partitions_asked. cbn.
        change (x_received x') with (x_received x + x_scheduled x) in *. change (x_expected x') with (x_expected x) in *.
        split; [lia|]. split; [discriminate|]. intros _. lia.
Qed.

Theorem C31_rounds : forall re glob e p s ms x out, 0 < s <= p -> Forall result_or_end ms -> (result_rows ms < max_events)%N ->
  x_run re glob (x_init true false e) (XExtractAll :: XLookup p s :: ms) = Some (x, out) ->
  s + partitions_asked out <= p /\
  (x_quit x = false -> x_received x + x_scheduled x = s + partitions_asked out) /\
  (x_quit x = true -> s + partitions_asked out = p).
Proof.
  intros re glob e p s ms x out Hs F Bd H.
  set (x1 := set_progress (set_requested (x_init true false e) max_events) p s 0).
  assert (X : x_run re glob (x_init true false e) (XExtractAll :: XLookup p s :: ms) = x_run re glob x1 ms).
  { cbn [x_run]. unfold x_step at 1. cbn [x_quit x_init]. cbn [x_handle x_requested x_init].
    replace (0 =? max_events)%N with false by reflexivity. unfold ship_results. cbn [x_results x_requested x_cached set_requested x_init].
    cbn [ship_loop]. rewrite andb_false_r. cbn [and_then].
    destruct p as [|p]; [lia|]. unfold request_more_hits. cbn.
    change (set_progress _ _ _ _) with x1.
    destruct (x_run re glob _ ms) as [[? ?]|]; reflexivity. }
  rewrite X in H.
  assert (V : x_inv x1) by (unfold x_inv, x1; cbn; repeat split; auto; discriminate).
  destruct (run_rounds re glob p ms x1 x out V) as (A & B & C); try reflexivity; try assumption; cbn; try lia.
  split; [exact A|]. split; [exact B|]. intros Q. apply C in Q. apply Q.
Qed.
Example C31_rounds_example : let ms := [XSlice five_rows; XDone; XDone; XSlice five_rows; XDone; XDone] in
  Forall result_or_end ms /\ (result_rows ms < max_events)%N /\
  exists x out, x_run literal_regex exact_name (x_init true false sample_query) (XExtractAll :: XLookup 7 2 :: ms) = Some (x, out) /\
    x_quit x = true /\ more out = [2; 2; 1; 0].
Proof. split; [repeat constructor|]. split; [reflexivity|]. do 2 eexists. split; [vm_compute; reflexivity|]. split; vm_compute; reflexivity. Qed.

(** A continuous and a historical query over the two-column layout: 2 of the 5 events of
    the batch satisfy it; asked for 4 and later 3 more events. *)
Definition history : list xmsg :=
  [XExtract 4; XLookup 3 2; XSlice five_rows; XExtract 3; XDone; XSlice (with_offset five_rows None); XBatch five_rows].
Example C31_example : Forall (checkable literal_regex exact_name sample_query) history /\ one_reply history /\
  Forall limited history /\ Forall (fun m => (asks m < 2 ^ 63)%N) history /\ asked history = 7%N /\
  length (arrived literal_regex exact_name sample_query history) = 12 /\
  (exists x out, x_run literal_regex exact_name (x_init true false sample_query) history = Some (x, out) /\ x_quit x = false /\
     length (delivered out) = 7 /\ length (all_tagged (x_results x)) = 5 /\ flat_map (fun o => match o with More n => [n] | _ => [] end) out = [2; 1]) /\
  (exists x out, x_run literal_regex exact_name (x_init true false sample_query) (history ++ [XExtractAll; XBatch five_rows]) = Some (x, out) /\
     x_quit x = false /\ length (delivered out) = 14).
Proof.
  assert (T : tailor exact_name sample_query (TRecord (la_meta two_columns) (la_fields two_columns)) = ok tailored_query) by (vm_compute; reflexivity).
  assert (Ev : Forall (fun r => evaluable literal_regex two_columns r tailored_query) (s_rows five_rows)) by apply C20_example.
  split.
  { repeat (constructor; [exact I|]). constructor; [|constructor]. cbn [checkable]. split; [discriminate|]. split; [discriminate|].
    change (s_layout five_rows) with two_columns. rewrite T. exact Ev. }
  split.
  { right. exists [XExtract 4], 3, 2. eexists. split; [reflexivity|]. repeat constructor. }
  split; [repeat constructor|]. split; [repeat constructor|]. split; [reflexivity|]. split; [vm_compute; reflexivity|].
  split; do 2 eexists; (split; [vm_compute; reflexivity|]); vm_compute; auto.
Qed.

(** * What does not hold *)

(** A request for 2^64 - 1 events, the number that stands for everything, is a request for
    none. *)
Theorem C31_extract_max_refuted : exists re glob e x out,
  x_run re glob (x_init true false e) [XExtract (2 ^ 64 - 1); XLookup 2 1; XSlice five_rows] = Some (x, out) /\
  delivered out = [] /\ x_quit x = false /\ x_requested x = 0%N.
Proof. exists literal_regex, exact_name, sample_query. do 2 eexists. split; [vm_compute; reflexivity|]. repeat split; vm_compute; reflexivity. Qed.
(** After asking for everything, a request for more events makes the exporter withhold
    them: the counter wraps. *)
Theorem C31_extract_wrap_refuted : exists re glob e x out,
  x_run re glob (x_init true false e) [XExtractAll; XLookup 2 1; XSlice five_rows; XExtract 6; XSlice five_rows] = Some (x, out) /\
  x_quit x = false /\ length (delivered out) = 5 /\ length (all_tagged (x_results x)) = 5.
Proof. exists literal_regex, exact_name, sample_query. do 2 eexists. split; [vm_compute; reflexivity|]. repeat split; vm_compute; reflexivity. Qed.
(** Results that arrived but were not yet asked for are lost when the last round ends:
    asking for them afterwards has no effect. *)
Theorem C31_cached_lost_refuted : exists re glob e x out,
  x_run re glob (x_init true false e) [XExtract 2; XLookup 1 1; XSlice five_rows; XDone; XExtract 3] = Some (x, out) /\
  x_quit x = true /\ length (delivered out) = 2 /\ length (all_tagged (x_results x)) = 3.
Proof. exists literal_regex, exact_name, sample_query. do 2 eexists. split; [vm_compute; reflexivity|]. repeat split; vm_compute; reflexivity. Qed.
(** A request that arrives while the index works on a round starts a further round, and
    the number of partitions of the round before is forgotten. Here all three partitions
    are in the first round; the index answers the further rounds at once, as nothing is
    left to do. The exporter quits although the first round has not ended, and drops its
    results. *)
Theorem C31_early_exit_refuted : exists re glob e x out,
  x_run re glob (x_init true false e) [XExtract 2; XLookup 3 3; XExtract 2; XDone; XDone; XSlice five_rows; XDone] = Some (x, out) /\
  delivered out = [] /\ flat_map (fun o => match o with More n => [n] | _ => [] end) out = [2; 1; 0].
Proof. exists literal_regex, exact_name, sample_query. do 2 eexists. split; [vm_compute; reflexivity|]. repeat split; vm_compute; reflexivity. Qed.
(** In a query that is historical and continuous the same makes an assertion fail. *)
Theorem C31_unified_assertion_refuted : exists re glob e ms, one_reply ms /\ Forall (checkable re glob e) ms /\
  x_run re glob (x_init true true e) ms = None.
Proof.
  exists literal_regex, exact_name, sample_query, [XExtract 2; XLookup 3 3; XExtract 2; XDone; XDone; XDone; XExtract 1].
  split; [right; exists [XExtract 2], 3, 3; eexists; split; [reflexivity|]; repeat constructor|].
  split; [repeat constructor|]. vm_compute. reflexivity.
Qed.

Definition assumptions_exporter := (C31_exact, C31_prompt, C31_total, C31_at_most, C31_served, C31_all, C31_within_candidates, C31_rounds, C31_extract_max_refuted,
  C31_extract_wrap_refuted, C31_cached_lost_refuted, C31_early_exit_refuted, C31_unified_assertion_refuted).
Print Assumptions assumptions_exporter.
