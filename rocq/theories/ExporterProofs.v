(** Proofs about the exporter (ExporterModel.v). *)
From Coq Require Import List ZArith NArith Lia Bool Arith ZifyBool ZifyNat ZifyN.
From Verif Require Import OperatorModel AddressModel DataModel TypeModel ExpressionModel ExpressionProofs TableSliceModel TableSliceProofs
  PropsTableSlice ExporterModel.
Import ListNotations.
Open Scope nat_scope.

(** * Specification *)

(** The events of a slice, each with its layout and ID. *)
Fixpoint tag (la : layout) (o : option nat) (rows : list (list data)) : list (layout * option nat * list data) :=
  match rows with [] => [] | r :: rows' => (la, o, r) :: tag la (option_map S o) rows' end.
Definition tagged (s : slice) : list (layout * option nat * list data) := tag (s_layout s) (s_offset s) (s_rows s).
Definition all_tagged (xs : list slice) : list (layout * option nat * list data) := flat_map tagged xs.
(** The events sent to the sink. *)
Definition delivered (out : list xout) : list (layout * option nat * list data) :=
  flat_map (fun o => match o with Ship s => tagged s | More _ => [] end) out.
(** The results that arrive with a message: all events of a slice of results, and the
    events of a batch that satisfy the query. *)
Definition arrives (re : regex) (glob : list N -> list N -> bool) (e : expr) (m : xmsg) : list (layout * option nat * list data) :=
  match m with
  | XSlice s => tagged s
  | XBatch s => match tailor glob e (TRecord (la_meta (s_layout s)) (la_fields (s_layout s))) with
                | ok c => filter (fun t => holds (row_truth re (s_layout s) (snd t)) c) (tagged s)
                | _ => []
                end
  | _ => []
  end.
Definition arrived re glob e (ms : list xmsg) := flat_map (arrives re glob e) ms.
(** Batches that can be checked: slices with an offset and rows, on which the query can
    be evaluated. *)
Definition checkable (re : regex) (glob : list N -> list N -> bool) (e : expr) (m : xmsg) : Prop :=
  match m with
  | XBatch s => s_offset s <> None /\ s_rows s <> [] /\
      match tailor glob e (TRecord (la_meta (s_layout s)) (la_fields (s_layout s))) with
      | ok c => Forall (fun r => evaluable re (s_layout s) r c) (s_rows s)
      | fail => True
      | ub => False
      end
  | _ => True
  end.

(** * Slices *)

Lemma tag_length : forall la rows o, length (tag la o rows) = length rows.
Proof. intros la. induction rows as [|r rows IH]; intros o; [reflexivity|]. cbn [tag length]. now rewrite IH. Qed.
Lemma tag_app : forall la a o b, tag la o (a ++ b) = tag la o a ++ tag la (option_map (fun i => i + length a) o) b.
Proof.
  intros la. induction a as [|r a IH]; intros o b; cbn [app tag length].
  - destruct o as [i|]; cbn; [now rewrite Nat.add_0_r|reflexivity].
  - rewrite IH. f_equal. f_equal. destruct o as [i|]; cbn; [|reflexivity]. now rewrite Nat.add_succ_r.
Qed.
Lemma tag_some : forall la rows i, tag la (Some i) rows = map (fun x => (la, Some (fst x), snd x)) (numbered i rows).
Proof.
  intros la. induction rows as [|r rows IH]; intros i; [reflexivity|].
  unfold numbered in *. cbn [length seq combine map tag option_map fst snd]. now rewrite IH.
Qed.
Lemma nrows_tagged : forall s, nrows s = N.of_nat (length (tagged s)).
Proof. intros s. unfold nrows, tagged. now rewrite tag_length. Qed.

(** * Shipping *)

Lemma ship_loop_spec : forall results r c h, c = N.of_nat (length (all_tagged results)) ->
  exists rs r' c' h' out, ship_loop results r c h = Some (rs, r', c', h', out) /\
    all_tagged out ++ all_tagged rs = all_tagged results /\ c' = N.of_nat (length (all_tagged rs)) /\
    (r' = 0%N \/ c' = 0%N) /\ r = (r' + N.of_nat (length (all_tagged out)))%N /\ h' = (h + N.of_nat (length (all_tagged out)))%N.
Proof.
  induction results as [|s rest IH]; intros r c h C; cbn [ship_loop].
  - cbn in C. subst c. rewrite andb_false_r. do 5 eexists. split; [reflexivity|]. cbn. repeat split; auto; lia.
  - assert (C2 : c = (nrows s + N.of_nat (length (all_tagged rest)))%N).
    { subst c. change (all_tagged (s :: rest)) with (tagged s ++ all_tagged rest). rewrite app_length, nrows_tagged. lia. }
    destruct ((0 <? r)%N && (0 <? c)%N) eqn:G.
    2:{ do 5 eexists. split; [reflexivity|]. cbn [all_tagged flat_map app length]. repeat split; auto; lia. }
    destruct (N.leb_spec (nrows s) r) as [L|L].
    + assert ((nrows s <=? c)%N = true) as -> by lia.
      destruct (IH (r - nrows s)%N (c - nrows s)%N (h + nrows s)%N ltac:(lia)) as (rs & r' & c' & h' & out & -> & E & C' & Z & R & H).
      do 5 eexists. split; [reflexivity|]. change (all_tagged (s :: out)) with (tagged s ++ all_tagged out).
      change (all_tagged (s :: rest)) with (tagged s ++ all_tagged rest).
      rewrite <- app_assoc, E, app_length. pose proof (nrows_tagged s). repeat split; auto; lia.
    + destruct (C41_split s (N.to_nat r)) as (a & b & -> & Ea & Eb).
      assert ((N.to_nat r =? 0) = false) as Z1 by lia. assert ((length (s_rows s) <=? N.to_nat r) = false) as Z2 by (unfold nrows in L; lia).
      rewrite Z1 in Ea. rewrite Z1, Z2 in Eb. cbn [andb negb] in Eb. subst a b.
      set (a := {| s_layout := s_layout s; s_offset := s_offset s; s_rows := firstn (N.to_nat r) (s_rows s) |}).
      set (b := {| s_layout := s_layout s; s_offset := option_map (fun o => o + N.to_nat r) (s_offset s); s_rows := skipn (N.to_nat r) (s_rows s) |}).
      assert (Ra : nrows a = r) by (unfold nrows, a; cbn [s_rows]; rewrite firstn_length; unfold nrows in L; lia).
      rewrite Ra, N.eqb_refl. assert ((r <=? c)%N = true) as -> by lia. cbn [andb].
      assert (T : tagged a ++ tagged b = tagged s).
      { unfold tagged at 3. rewrite <- (firstn_skipn (N.to_nat r) (s_rows s)), tag_app. unfold tagged, a, b. cbn [s_layout s_offset s_rows].
        rewrite firstn_length, Nat.min_l by (unfold nrows in L; lia). reflexivity. }
      do 5 eexists. split; [reflexivity|]. change (all_tagged [a]) with (tagged a ++ []). rewrite app_nil_r.
      change (all_tagged (b :: rest)) with (tagged b ++ all_tagged rest). change (all_tagged (s :: rest)) with (tagged s ++ all_tagged rest).
      rewrite app_assoc, T. pose proof (nrows_tagged a) as Na. pose proof (f_equal (@length _) T) as TL. rewrite app_length in *.
      pose proof (nrows_tagged s). repeat split; auto; lia.
Qed.

(** The state between two messages: the counter of cached events is right, what is
    requested fits in 64 bits, and nothing requested is withheld. *)
Definition x_inv (x : exporter) : Prop :=
  x_cached x = N.of_nat (length (all_tagged (x_results x))) /\ (x_requested x <= max_events)%N /\
  (x_requested x = 0%N \/ x_cached x = 0%N).
(** What [ship_results] and [request_more_hits] leave unchanged. *)
Definition same_query (x y : exporter) : Prop :=
  x_historical y = x_historical x /\ x_continuous y = x_continuous x /\ x_expr y = x_expr x.
Lemma same_query_refl : forall x, same_query x x. Proof. now repeat split. Qed.
Lemma same_query_trans : forall x y z, same_query x y -> same_query y z -> same_query x z.
Proof. intros x y z (A & B & C) (A' & B' & C'). unfold same_query. repeat split; congruence. Qed.

Lemma delivered_app : forall a b, delivered (a ++ b) = delivered a ++ delivered b.
Proof. intros. apply flat_map_app. Qed.
Lemma delivered_ship : forall xs, delivered (map Ship xs) = all_tagged xs.
Proof. intros xs. unfold delivered, all_tagged. induction xs as [|s xs IH]; [reflexivity|]. cbn [map flat_map]. now rewrite IH. Qed.

Lemma ship_results_spec : forall x, x_cached x = N.of_nat (length (all_tagged (x_results x))) -> (x_requested x <= max_events)%N ->
  exists y out, ship_results x = Some (y, out) /\ x_inv y /\ same_query x y /\ x_quit y = x_quit x /\
    x_expected y = x_expected x /\ x_scheduled y = x_scheduled x /\ x_received y = x_received x /\
    delivered out ++ all_tagged (x_results y) = all_tagged (x_results x) /\
    x_requested x = (x_requested y + N.of_nat (length (delivered out)))%N /\
    x_shipped y = (x_shipped x + N.of_nat (length (delivered out)))%N.
Proof.
  intros x C M. unfold ship_results. destruct (ship_loop_spec (x_results x) (x_requested x) (x_cached x) (x_shipped x) C) as
    (rs & r & c & h & out & -> & E & C' & Z & R & H).
  do 2 eexists. split; [reflexivity|]. rewrite delivered_ship. unfold x_inv, same_query.
  cbn [x_cached x_requested x_results x_historical x_continuous x_expr x_processed x_quit x_expected x_scheduled x_received x_shipped].
  repeat split; auto; lia.
Qed.

Lemma request_more_spec : forall x, x_received x <= x_expected x \/ x_historical x = false ->
  exists y out, request_more_hits x = Some (y, out) /\ same_query x y /\ x_quit y = x_quit x /\ delivered out = [] /\
    x_requested y = x_requested x /\ x_cached y = x_cached x /\ x_results y = x_results x /\ x_shipped y = x_shipped x /\
    x_expected y = x_expected x /\ x_received y = x_received x.
Proof.
  intros x P. unfold request_more_hits. destruct (x_historical x) eqn:Hh; cbn [negb].
  2:{ do 2 eexists. split; [reflexivity|]. unfold same_query. repeat split; auto. }
  destruct (x_requested x =? 0)%N; [do 2 eexists; split; [reflexivity|]; unfold same_query; repeat split; auto|].
  destruct (Nat.eqb_spec (x_received x) (x_expected x)); [do 2 eexists; split; [reflexivity|]; unfold same_query; repeat split; auto|].
  destruct P as [P|P]; [|congruence].
  assert ((x_received x <? x_expected x) = true) as -> by lia.
  do 2 eexists. split; [reflexivity|]. unfold same_query, set_progress. cbn. repeat split; auto.
Qed.
(** Without the condition on the progress: if it succeeds. *)
Lemma request_more_frame : forall x y out, request_more_hits x = Some (y, out) -> same_query x y /\ x_quit y = x_quit x /\ delivered out = [] /\
    x_requested y = x_requested x /\ x_cached y = x_cached x /\ x_results y = x_results x /\ x_shipped y = x_shipped x /\
    x_expected y = x_expected x /\ x_received y = x_received x.
Proof.
  intros x y out. unfold request_more_hits. destruct (negb (x_historical x)); [intros [= <- <-]; unfold same_query; repeat split|].
  destruct (x_requested x =? 0)%N; [intros [= <- <-]; unfold same_query; repeat split|].
  destruct (x_received x =? x_expected x); [intros [= <- <-]; unfold same_query; repeat split|].
  destruct (x_received x <? x_expected x); [|discriminate]. intros [= <- <-]. unfold same_query, set_progress. cbn. repeat split.
Qed.

(** * Batches *)

Lemma all_tagged_events : forall la xs, Forall (fun x => s_layout x = la /\ s_rows x <> [] /\ s_offset x <> None) xs ->
  all_tagged xs = map (fun p => (la, Some (fst p), snd p)) (flat_map events xs).
Proof.
  intros la xs H. induction H as [|s xs (L & _ & O) H IH]; [reflexivity|].
  unfold all_tagged in *. cbn [flat_map]. rewrite map_app, IH. f_equal. unfold tagged, events. rewrite L.
  destruct (s_offset s) as [o|]; [|contradiction]. apply tag_some.
Qed.
Lemma batch_selection : forall re c s, s_offset s <> None -> s_rows s <> [] -> Forall (fun r => evaluable re (s_layout s) r c) (s_rows s) ->
  exists sel, evaluate_slice re c s = Some sel /\
    rank1 sel = length (filter (fun t => holds (row_truth re (s_layout s) (snd t)) c) (tagged s)) /\
    exists xs, select s sel = Some xs /\ all_tagged xs = filter (fun t => holds (row_truth re (s_layout s) (snd t)) c) (tagged s).
Proof.
  intros re c s O R Ev. destruct (s_offset s) as [o|] eqn:Eo; [|contradiction]. clear O.
  destruct (C20_evaluate re s o c Eo Ev) as (sel & Es & Ls & Hs). exists sel. split; [exact Es|].
  assert (In1 : forall x, In x (events s) -> in_ids sel (fst x) = holds (row_truth re (s_layout s) (snd x)) c).
  { intros [i r] Hi. rewrite Hs. cbn [fst snd]. apply eq_true_iff_eq. rewrite existsb_exists. split.
    - intros ([j q] & Hj & G). cbn [fst snd] in G. apply andb_true_iff in G as [G1 G2]. apply Nat.eqb_eq in G1. subst j.
      unfold events in *. rewrite Eo in *. apply in_numbered in Hi as [_ Hi], Hj as [_ Hj]. congruence.
    - intros G. exists (i, r). split; [exact Hi|]. cbn [fst snd]. now rewrite Nat.eqb_refl. }
  assert (F : filter (fun e => in_ids sel (fst e)) (events s) = filter (fun e => holds (row_truth re (s_layout s) (snd e)) c) (events s)).
  { apply filter_ext_in. exact In1. }
  assert (T : filter (fun t => holds (row_truth re (s_layout s) (snd t)) c) (tagged s) =
    map (fun p => (s_layout s, Some (fst p), snd p)) (filter (fun e => holds (row_truth re (s_layout s) (snd e)) c) (events s))).
  { unfold tagged, events. rewrite Eo, tag_some, filter_map_comm. reflexivity. }
  split.
  - rewrite T, map_length, <- F. unfold rank1. rewrite ones_filter, Ls.
    rewrite seq_app, filter_app, app_length. rewrite (filter_none _ _ (seq 0 o)).
    + cbn [length plus]. unfold events. rewrite Eo, filter_seq_numbered, map_length. reflexivity.
    + intros i Hi. apply in_seq in Hi. rewrite Hs. apply not_true_is_false. intros G. apply existsb_exists in G as ([j q] & Hj & G).
      unfold events in Hj. rewrite Eo in Hj. apply in_numbered in Hj as [Hj _]. cbn [fst] in G. lia.
  - destruct (C41_select s o sel Eo R) as (xs & E & Ev2 & G). exists xs. split; [exact E|].
    rewrite (all_tagged_events _ _ G), Ev2, F, T. reflexivity.
Qed.

(** * Steps *)

(** What a step does: it keeps the invariant and the kind of query, and moves events from
    those cached, followed by those that arrive, to the sink. *)
Definition moved (x : exporter) (r : N) (y : exporter) (out : list xout) (arr : list (layout * option nat * list data)) : Prop :=
  x_inv y /\ same_query x y /\ x_shipped y = (x_shipped x + N.of_nat (length (delivered out)))%N /\
  delivered out ++ all_tagged (x_results y) = all_tagged (x_results x) ++ arr /\
  r = (x_requested y + N.of_nat (length (delivered out)))%N.

Lemma moved_ship : forall x x' y out arr, same_query x x' -> all_tagged (x_results x') = all_tagged (x_results x) ++ arr ->
  x_cached x' = N.of_nat (length (all_tagged (x_results x'))) -> (x_requested x' <= max_events)%N -> x_shipped x' = x_shipped x ->
  ship_results x' = Some (y, out) -> moved x (x_requested x') y out arr.
Proof.
  intros x x' y out arr S T C M H E. destruct (ship_results_spec x' C M) as (y' & out' & E' & A & B & _ & _ & _ & _ & D & R & F).
  rewrite E in E'. injection E' as <- <-. unfold moved. split; [exact A|]. split; [eapply same_query_trans; eassumption|].
  rewrite F, H, D, T. auto.
Qed.
Lemma moved_more : forall x r y z out out' arr, moved x r y out arr -> request_more_hits y = Some (z, out') -> moved x r z (out ++ out') arr.
Proof.
  intros x r y z out out' arr ((C & M & Z) & S & H & D & Rr) E.
  destruct (request_more_frame _ _ _ E) as (F & _ & O & R & Ca & Re & Sh & _ & _). unfold moved, x_inv.
  rewrite delivered_app, O, app_nil_r, R, Ca, Re, Sh. repeat split; auto; apply (same_query_trans x y z S F).
Qed.
Lemma moved_exit : forall x r y out arr, moved x r y out arr -> moved x r (fst (exit_now y)) (out ++ snd (exit_now y)) arr.
Proof.
  intros x r y out arr ((C & M & Z) & (S1 & S2 & S3) & H & D & R). unfold moved, x_inv, same_query, exit_now. cbn [fst snd].
  rewrite delivered_app. cbn. rewrite app_nil_r. repeat split; auto.
Qed.
Lemma moved_shutdown : forall x r y out arr, moved x r y out arr -> moved x r (fst (shutdown y)) (out ++ snd (shutdown y)) arr.
Proof.
  intros x r y out arr H. unfold shutdown. destruct (x_continuous y); [cbn [fst snd]; now rewrite app_nil_r|now apply moved_exit].
Qed.
Lemma moved_refl : forall x, x_inv x -> moved x (x_requested x) x [] [].
Proof. intros x H. unfold moved. cbn. rewrite app_nil_r. repeat split; auto; try apply H; lia. Qed.
Lemma moved_progress : forall x a b c, x_inv x -> moved x (x_requested x) (set_progress x a b c) [] [].
Proof. intros x a b c H. unfold moved. cbn. rewrite app_nil_r. repeat split; auto; try apply H; lia. Qed.

(** The number of events requested after a message. *)
Definition wants (r : N) (m : xmsg) : N :=
  match m with
  | XExtractAll => max_events
  | XExtract n => if (n =? 0)%N then r else if (r =? max_events)%N then r
                  else ((r + N.min (max_events - n) n) mod 2 ^ 64)%N
  | _ => r
  end.
Lemma x_handle_moved : forall re glob x m y out, x_inv x -> checkable re glob (x_expr x) m -> x_handle re glob x m = Some (y, out) ->
  moved x (wants (x_requested x) m) y out (arrives re glob (x_expr x) m).
Proof.
  intros re glob x m y out V K H. pose proof V as (C & M & Z).
  destruct m as [|n|parts sched| |s|s|]; cbn [x_handle arrives wants] in *.
  - destruct (N.eqb_spec (x_requested x) max_events) as [Q|Q]; [injection H as <- <-; rewrite <- Q; now apply moved_refl|].
    destruct (ship_results (set_requested x max_events)) as [[z o]|] eqn:E; [|discriminate]. cbn [and_then] in H.
    destruct (request_more_hits z) as [[z' o']|] eqn:E'; [|discriminate]. injection H as <- <-.
    eapply moved_more; [|exact E']. apply (moved_ship x _ z o [] ) in E; [exact E|..]; try reflexivity.
    + repeat split.
    + cbn. now rewrite app_nil_r.
    + exact C.
  - destruct (n =? 0)%N; [injection H as <- <-; now apply moved_refl|].
    destruct (x_requested x =? max_events)%N; [injection H as <- <-; now apply moved_refl|].
    destruct (x_requested x <? max_events)%N; [|discriminate].
    set (r := ((x_requested x + N.min (max_events - n) n) mod 2 ^ 64)%N) in *.
    destruct (ship_results (set_requested x r)) as [[z o]|] eqn:E; [|discriminate]. cbn [and_then] in H.
    destruct (request_more_hits z) as [[z' o']|] eqn:E'; [|discriminate]. injection H as <- <-.
    eapply moved_more; [|exact E']. apply (moved_ship x _ z o [] ) in E; [exact E|..]; try reflexivity.
    + repeat split.
    + cbn. now rewrite app_nil_r.
    + exact C.
    + cbn. assert (r < 2 ^ 64)%N by (apply N.mod_lt; discriminate). unfold max_events. lia.
  - destruct (0 <? parts); [injection H as <- <-; now apply moved_progress|].
    pose proof (moved_shutdown x _ x [] [] (moved_refl x V)) as G. destruct (shutdown x) as [z o]. injection H as <- <-. exact G.
  - injection H as <- <-. exact (moved_exit x _ x [] [] (moved_refl x V)).
  - apply (moved_ship x _ y out (tagged s)) in H; [exact H|..]; try reflexivity.
    + repeat split.
    + cbn. unfold all_tagged. rewrite flat_map_app. cbn [flat_map]. now rewrite app_nil_r.
    + cbn. unfold all_tagged in *. rewrite flat_map_app, app_length. cbn [flat_map]. rewrite app_nil_r. rewrite nrows_tagged. lia.
    + exact M.
  - cbn [checkable] in K. destruct K as (O & R & K). unfold handle_batch in H.
    destruct (tailor glob (x_expr x) (TRecord (la_meta (s_layout s)) (la_fields (s_layout s)))) as [c| |] eqn:T; [| |discriminate].
    + destruct (batch_selection re c s O R K) as (sel & E & Rk & xs & Es & Ex). rewrite E in H.
      destruct (Nat.eqb_spec (rank1 sel) 0) as [N0|N0].
      * injection H as <- <-. rewrite Rk in N0. apply length_zero_iff_nil in N0. rewrite N0.
        unfold moved, x_inv, same_query, add_results. cbn. rewrite !app_nil_r, !N.add_0_r. repeat split; auto; lia.
      * rewrite Es in H. apply (moved_ship x _ y out (all_tagged xs)) in H; [rewrite Ex in H; exact H|..]; try reflexivity.
        -- repeat split.
        -- cbn. unfold all_tagged in *. now rewrite flat_map_app.
        -- cbn. unfold all_tagged in *. rewrite flat_map_app, app_length, Ex, C. rewrite Rk. lia.
        -- exact M.
    + destruct (ship_results x) as [[z o]|] eqn:E; [|discriminate]. cbn [and_then] in H.
      assert (G : moved x (x_requested x) z o []).
      { eapply moved_ship; [| | | | |exact E]; try reflexivity; auto using same_query_refl. now rewrite app_nil_r. }
      apply moved_shutdown in G. destruct (shutdown z) as [z' o']. injection H as <- <-. exact G.
  - destruct (_ <? _).
    + pose proof (moved_more x _ _ y [] out [] (moved_progress x _ _ _ V) H) as G. exact G.
    + pose proof (moved_shutdown x _ _ [] [] (moved_progress x (x_expected x) (x_scheduled x) (x_received x + x_scheduled x) V)) as G.
      destruct (shutdown _) as [z o]. injection H as <- <-. exact G.
Qed.

Lemma x_run_spec : forall re glob ms x y out, x_inv x -> Forall (checkable re glob (x_expr x)) ms -> x_run re glob x ms = Some (y, out) ->
  x_inv y /\ same_query x y /\ x_shipped y = (x_shipped x + N.of_nat (length (delivered out)))%N /\
  (x_quit y = false -> delivered out ++ all_tagged (x_results y) = all_tagged (x_results x) ++ arrived re glob (x_expr x) ms) /\
  exists rest, delivered out ++ rest = all_tagged (x_results x) ++ arrived re glob (x_expr x) ms.
Proof.
  intros re glob. induction ms as [|m ms IH]; intros x y out V K H; cbn [x_run] in H.
  - injection H as <- <-. cbn. rewrite app_nil_r. split; [exact V|]. split; [apply same_query_refl|]. split; [lia|]. split; [reflexivity|].
    now exists (all_tagged (x_results x)).
  - inversion K as [|? ? K1 K2]; subst. destruct (x_step re glob x m) as [[z o]|] eqn:E; [|discriminate]. cbn [and_then] in H.
    destruct (x_run re glob z ms) as [[z' o']|] eqn:E'; [|discriminate]. injection H as <- <-.
    unfold x_step in E. destruct (x_quit x) eqn:Q.
    + injection E as <- <-. destruct (IH _ _ _ V K2 E') as (A & B & D & _ & _).
      assert (S : z' = x /\ o' = []).
      { clear - Q E'. revert z' o' E'. induction ms as [|m ms IH]; intros z' o' E'; cbn [x_run] in E'; [injection E' as <- <-; auto|].
        unfold x_step in E'. rewrite Q in E'. cbn [and_then] in E'. destruct (x_run re glob x ms) as [[a b]|]; [|discriminate].
        injection E' as <- <-. apply IH. reflexivity. }
      destruct S as [-> ->]. cbn. split; [exact V|]. split; [apply same_query_refl|]. split; [lia|]. split; [congruence|]. now eexists.
    + pose proof (x_handle_moved _ _ _ _ _ _ V K1 E) as (A & B & D & F & _). pose proof B as (_ & _ & Be). rewrite <- Be in K2.
      destruct (IH _ _ _ A K2 E') as (A' & B' & D' & F' & rest & G'). rewrite Be in F', G'.
      split; [exact A'|]. split; [eapply same_query_trans; eassumption|]. rewrite delivered_app, app_length.
      split; [lia|]. unfold arrived in *. cbn [flat_map]. split.
      * intros Qf. rewrite <- app_assoc, F', app_assoc, F by exact Qf. now rewrite <- app_assoc.
      * exists rest. rewrite <- app_assoc, G', app_assoc, F. now rewrite <- app_assoc.
Qed.

Lemma x_init_inv : forall h c e, x_inv (x_init h c e).
Proof. intros. unfold x_inv, x_init. cbn. unfold max_events. repeat split; auto; lia. Qed.

(** * Assertions *)

(** The progress an exporter of a query that is not continuous can make. *)
Definition in_order (x : exporter) : Prop :=
  x_quit x = true \/ x_historical x = false \/ (x_continuous x = false /\ x_received x <= x_expected x).
Definition no_lookup (m : xmsg) : Prop := match m with XLookup _ _ => False | _ => True end.

Lemma x_handle_total : forall re glob x m, x_inv x -> checkable re glob (x_expr x) m -> x_quit x = false -> in_order x -> no_lookup m \/ x_received x = 0 ->
  exists y out, x_handle re glob x m = Some (y, out) /\ in_order y.
Proof.
  intros re glob x m (C & M & Z) K Q P L.
  assert (P' : x_received x <= x_expected x \/ x_historical x = false) by (destruct P as [P|[P|[_ P]]]; [congruence|auto|auto]).
  assert (Sh : forall x' y out, same_query x x' -> x_quit x' = x_quit x -> x_expected x' = x_expected x -> x_received x' = x_received x ->
    ship_results x' = Some (y, out) -> x_cached x' = N.of_nat (length (all_tagged (x_results x'))) -> (x_requested x' <= max_events)%N ->
    in_order y /\ (x_received y <= x_expected y \/ x_historical y = false) /\ x_quit y = x_quit x).
  { intros x' y out (S1 & S2 & S3) Qx Ex Rx E Cx Mx. destruct (ship_results_spec x' Cx Mx) as (y' & o' & E' & _ & (B1 & B2 & _) & B3 & B4 & _ & B5 & _).
    rewrite E in E'. injection E' as <- <-. unfold in_order in *. rewrite B3, B4, B5, B1, B2, Qx, Ex, Rx, S1, S2. auto. }
  assert (Mo : forall y o, in_order y -> (x_received y <= x_expected y \/ x_historical y = false) ->
    exists z out, and_then (Some (y, o)) request_more_hits = Some (z, out) /\ in_order z).
  { intros y o A B. destruct (request_more_spec y B) as (z & o2 & E & (S1 & S2 & _) & Qz & _ & _ & _ & _ & _ & Ex & Rx).
    cbn [and_then]. rewrite E. do 2 eexists. split; [reflexivity|]. unfold in_order in *. now rewrite Qz, S1, S2, Ex, Rx. }
  assert (Dn : forall y o, in_order y -> exists z out, (let (z', o') := shutdown y in Some (z', o ++ o')) = Some (z, out) /\ in_order z).
  { intros y o A. unfold shutdown. destruct (x_continuous y); do 2 eexists; (split; [reflexivity|]); [exact A|now left]. }
  destruct m as [|n|parts sched| |s|s|]; cbn [x_handle].
  - destruct (_ =? _)%N; [do 2 eexists; split; [reflexivity|exact P]|].
    destruct (ship_results_spec (set_requested x max_events) C ltac:(cbn; lia)) as (y & o & E & _). rewrite E.
    destruct (Sh (set_requested x max_events) y o ltac:(repeat split) eq_refl eq_refl eq_refl E C ltac:(cbn; lia)) as (A & B & _). now apply Mo.
  - destruct (n =? 0)%N; [do 2 eexists; split; [reflexivity|exact P]|].
    destruct (N.eqb_spec (x_requested x) max_events); [do 2 eexists; split; [reflexivity|exact P]|].
    assert ((x_requested x <? max_events)%N = true) as -> by lia.
    set (r := ((x_requested x + N.min (max_events - n) n) mod 2 ^ 64)%N).
    assert (Mr : (r <= max_events)%N) by (assert (r < 2 ^ 64)%N by (apply N.mod_lt; discriminate); unfold max_events; lia).
    destruct (ship_results_spec (set_requested x r) C Mr) as (y & o & E & _). rewrite E.
    destruct (Sh (set_requested x r) y o ltac:(repeat split) eq_refl eq_refl eq_refl E C Mr) as (A & B & _). now apply Mo.
  - destruct (0 <? parts).
    + do 2 eexists. split; [reflexivity|]. destruct L as [L|L]; [contradiction|]. unfold in_order in *. cbn. rewrite L.
      destruct P as [P|[P|[P1 P2]]]; auto. right. right. split; [exact P1|lia].
    + destruct (Dn x [] P) as (z & o & E & A). exists z, o. split; [|exact A]. destruct (shutdown x). exact E.
  - do 2 eexists. split; [reflexivity|now left].
  - set (x' := add_results x (nrows s) (nrows s) [s]).
    assert (Cx : x_cached x' = N.of_nat (length (all_tagged (x_results x')))).
    { cbn. unfold all_tagged in *. rewrite flat_map_app, app_length. cbn [flat_map]. rewrite app_nil_r. rewrite nrows_tagged. lia. }
    destruct (ship_results_spec x' Cx M) as (y & o & E & _). rewrite E.
    do 2 eexists. split; [reflexivity|]. refine (proj1 (Sh x' _ _ _ eq_refl eq_refl eq_refl E Cx M)). repeat split.
  - cbn [checkable] in K. destruct K as (O & R & K). unfold handle_batch.
    destruct (tailor glob (x_expr x) (TRecord (la_meta (s_layout s)) (la_fields (s_layout s)))) as [c| |] eqn:T; [| |contradiction].
    + destruct (batch_selection re c s O R K) as (sel & E & Rk & xs & Es & Ex). rewrite E.
      destruct (rank1 sel =? 0) eqn:N0; [do 2 eexists; split; [reflexivity|]; exact P|]. rewrite Es.
      set (x' := add_results x (nrows s) (N.of_nat (rank1 sel)) xs).
      assert (Cx : x_cached x' = N.of_nat (length (all_tagged (x_results x')))).
      { cbn. unfold all_tagged in *. rewrite flat_map_app, app_length, Ex, C. rewrite Rk. lia. }
      destruct (ship_results_spec x' Cx M) as (y & o & E' & _). rewrite E'.
      do 2 eexists. split; [reflexivity|]. refine (proj1 (Sh x' _ _ _ eq_refl eq_refl eq_refl E' Cx M)). repeat split.
    + destruct (ship_results_spec x C M) as (y & o & E & _). rewrite E. cbn [and_then].
      destruct (Sh x y o (same_query_refl x) eq_refl eq_refl eq_refl E C M) as (A & _). apply Dn. exact A.
  - destruct (Nat.ltb_spec (x_received x + x_scheduled x) (x_expected x)) as [G|G]; cbn [x_received x_expected set_progress].
    + assert ((x_received x + x_scheduled x <? x_expected x) = true) as -> by lia.
      set (y := set_progress x (x_expected x) (x_scheduled x) (x_received x + x_scheduled x)).
      assert (A : in_order y) by (unfold in_order in *; cbn; destruct P as [P|[P|[P1 P2]]]; auto; right; right; split; [exact P1|lia]).
      destruct (Mo y [] A ltac:(left; cbn; lia)) as (z & o & E & B). exists z, o. split; [|exact B].
      cbn [and_then] in E. destruct (request_more_hits y) as [[? ?]|]; [exact E|discriminate].
    + assert ((x_received x + x_scheduled x <? x_expected x) = false) as -> by lia.
      unfold shutdown. cbn [x_continuous set_progress]. destruct (x_continuous x) eqn:Hc; do 2 eexists; (split; [reflexivity|]); [|now left].
      destruct P as [P|[P|[P1 P2]]]; [congruence|right; left; exact P|congruence].
Qed.

Lemma x_run_total : forall re glob ms x, x_inv x -> Forall (checkable re glob (x_expr x)) ms -> in_order x -> Forall no_lookup ms ->
  exists y out, x_run re glob x ms = Some (y, out).
Proof.
  intros re glob. induction ms as [|m ms IH]; intros x V K P L; cbn [x_run]; [do 2 eexists; reflexivity|].
  inversion K as [|? ? K1 K2]; subst. inversion L as [|? ? L1 L2]; subst. unfold x_step. destruct (x_quit x) eqn:Q.
  - destruct (IH x V K2 P L2) as (y & o & E). cbn [and_then]. rewrite E. now do 2 eexists.
  - destruct (x_handle_total re glob x m V K1 Q P (or_introl L1)) as (y & o & E & P'). rewrite E. cbn [and_then].
    pose proof (x_handle_moved _ _ _ _ _ _ V K1 E) as (A & (_ & _ & B) & _). rewrite <- B in K2.
    destruct (IH y A K2 P' L2) as (z & o' & E'). rewrite E'. now do 2 eexists.
Qed.
Lemma x_run_app : forall re glob ms ms' x, x_run re glob x (ms ++ ms') = and_then (x_run re glob x ms) (fun y => x_run re glob y ms').
Proof.
  intros re glob. induction ms as [|m ms IH]; intros ms' x; cbn [app x_run].
  - cbn [and_then]. now destruct (x_run re glob x ms') as [[? ?]|].
  - destruct (x_step re glob x m) as [[y o]|]; [|reflexivity]. cbn [and_then]. rewrite IH.
    destruct (x_run re glob y ms) as [[z o']|]; [|reflexivity]. cbn [and_then].
    destruct (x_run re glob z ms') as [[z' o'']|]; [|reflexivity]. now rewrite app_assoc.
Qed.
