(** C66: the exploration of the surroundings of results. *)
From Coq Require Import String Ascii List NArith ZArith Bool Arith Lia.
From Coq Require Import ZifyBool ZifyNat ZifyN.
From Verif Require Import EscapeModel AddressModel DataModel LiteralModel LiteralProofs CalendarModel PropsCalendar.
From Verif Require Import ExplorerModel ExplorerProofs.
Import ListNotations.
Open Scope N_scope.
Local Notation length := List.length.
Local Notation concat := List.concat.

(** An execution: the explorer is started with a limit and the options, and then any messages come. *)
Definition reaches (limit : N) (b a : option Z) (by0 : bool) (os : list op) (s : sys) : Prop :=
  run (launch limit b a by0) os = Some s.
(** The event with ID [i] is in one of the slices that exporters sent. *)
Definition arrived (s : sys) (i : N) : Prop :=
  exists d, In d (delivered s) /\ offset d <= i < offset d + N.of_nat (rows d).
(** No slice reaches back so far that it has more events than there are IDs before it, unless all
    its events are new. *)
Definition not_at_the_start (ds : list slice) : Prop :=
  forall u d v, ds = u ++ d :: v ->
    N.of_nat (rows d) <= offset d \/
    forall e i, In e u -> ~ (offset e <= i < offset e + N.of_nat (rows e) /\ offset d <= i < offset d + N.of_nat (rows d)).

Lemma arrived_ids : forall s i, arrived s i <-> In i (concat (map ids (delivered s))).
Proof.
  intros s i. unfold arrived. rewrite <- flat_map_concat_map, in_flat_map. split; intros [d [D H]]; exists d; split; auto; apply ids_In; exact H.
Qed.
Lemma apart_of : forall ds seen, 
  (forall u d v, ds = u ++ d :: v -> apart (concat (map ids u) ++ seen) d) -> all_apart seen ds.
Proof.
  induction ds as [|d ds IH]; intros seen H; [exact I|]. split; [exact (H [] d ds eq_refl)|].
  apply IH. intros u e v ->. apply (apart_ext (concat (map ids (d :: u)) ++ seen)); [|exact (H (d :: u) e v eq_refl)].
  intros i. cbn [map List.concat]. rewrite !in_app_iff. tauto.
Qed.
Lemma start_apart : forall ds, not_at_the_start ds -> all_apart [] ds.
Proof.
  intros ds H. apply apart_of. intros u d v E. destruct (H u d v E) as [A|A]; [left; exact A|right].
  intros i I J. rewrite app_nil_r in J. rewrite <- flat_map_concat_map, in_flat_map in J. destruct J as [e [K L]].
  apply ids_In in I, L. exact (A e i K (conj L I)).
Qed.

Lemma reaches_inv : forall limit b a by0 os s, reaches limit b a by0 os s -> inv limit (start limit b a by0) s.
Proof. intros limit b a by0 os s R. apply (run_inv os _ _ (launch limit b a by0)); [apply launch_inv|exact R]. Qed.

(** Never more events than the user asked for. *)
Theorem C66_limit : forall limit b a by0 os s, reaches limit b a by0 os s ->
  N.of_nat (length (concat (sent s))) <= limit.
Proof.
  intros limit b a by0 os s R. destruct (reaches_inv _ _ _ _ _ _ R) as (_ & _ & _ & _ & _ & _ & _ & I8 & I9 & _). lia.
Qed.

(** Each event that exporters found is sent once, however many of them found it, unless the limit is
    reached; and no other. *)
Theorem C66_once : forall limit b a by0 os s, reaches limit b a by0 os s -> not_at_the_start (delivered s) ->
  NoDup (concat (sent s)) /\
  (forall i, In i (concat (sent s)) -> arrived s i) /\
  (N.of_nat (length (concat (sent s))) < limit -> forall i, arrived s i -> In i (concat (sent s))).
Proof.
  intros limit b a by0 os s R H.
  destruct (reaches_inv _ _ _ _ _ _ R) as (_ & _ & _ & _ & _ & _ & _ & I8 & I9 & I10 & I11).
  specialize (I11 (start_apart _ H)). pose proof (firsts_NoDup (concat (map ids (delivered s))) []) as ND.
  rewrite <- (firstn_skipn (N.to_nat limit) (firsts _ _)) in ND.
  split; [|split].
  - rewrite I11. clear -ND. revert ND. generalize (firstn (N.to_nat limit) (firsts [] (concat (map ids (delivered s))))) as p.
    induction p as [|x p IH]; intros ND; [constructor|]. cbn in ND. inversion ND as [|? ? A B]; subst.
    constructor; [|apply IH; exact B]. intros J. apply A. rewrite in_app_iff. tauto.
  - intros i J. apply arrived_ids. rewrite I11 in J.
    assert (K : In i (firsts [] (concat (map ids (delivered s))))).
    { rewrite <- (firstn_skipn (N.to_nat limit)). rewrite in_app_iff. tauto. }
    apply firsts_In in K. tauto.
  - intros L i J. rewrite I11 in *. rewrite firstn_length in L.
    rewrite firstn_all2 by lia. apply firsts_In. split; [apply arrived_ids; exact J|intros []].
Qed.

(** The explorer only ends after the first exporter and all others have ended, and no slice comes
    too late. *)
Theorem C66_end : forall limit b a by0 os s, reaches limit b a by0 os s ->
  lost s = 0%nat /\ (gone s = true -> completed (ex s) = true /\ pending s = [] /\ exporters s = []).
Proof.
  intros limit b a by0 os s R. destruct (reaches_inv _ _ _ _ _ _ R) as (_ & _ & _ & _ & I5 & I6 & _). auto.
Qed.
(** It does end then, if the node has granted all requests. *)
Theorem C66_ends : forall limit b a by0 os s, reaches limit b a by0 os s -> (forall k, ~ In (Failed k) os) ->
  completed (ex s) = true -> pending s = [] -> exporters s = [] -> gone s = true.
Proof.
  intros limit b a by0 os s R NF C P E. pose proof (reaches_inv _ _ _ _ _ _ R) as I.
  apply (run_ends os (launch limit b a by0) s limit (start limit b a by0)); auto.
  - apply launch_inv.
  - destruct I as (_ & _ & _ & _ & _ & _ & I7 & _). rewrite I7, P, E. reflexivity.
Qed.

(** What the user asks for: a window around the time [x] if it is given on one side at least. *)
Definition in_window (b a : option Z) (x t : Z) : Prop :=
  match b, a with
  | None, None => True
  | _, _ => (x - match b with Some d => d | None => 0 end <= t <= x + match a with Some d => d | None => 0 end)%Z
  end.
(** An event with the times [ts] and the value [v] of the column satisfies the query; a type extractor
    stands for any of the columns of its type (src/expression_visitors.cpp, C08). *)
Definition satisfies (q : query) (ts : list Z) (v : option N) : Prop :=
  (forall lo, q_from q = Some lo -> exists t, In t ts /\ (lo <= t)%Z) /\
  (forall hi, q_to q = Some hi -> exists t, In t ts /\ (t <= hi)%Z) /\
  (forall w, q_by q = Some w -> v = Some w).

(** Each result with a time, and with a value if there is a column to go by, leads to a query for
    exactly the events of its window with the same value, as long as the limit is not reached. *)
Theorem C66_query : forall limit b a by0 os s bt s' r x, reaches limit b a by0 os s ->
  N.of_nat (length (concat (sent s))) < limit -> step s (Initial bt) = Some s' ->
  has_time bt = true -> (by0 = true -> has_by bt = true) ->
  In r (b_rows bt) -> r_time r = Some x -> (by0 = true -> r_by r <> None) -> gone s = false ->
  exists q, In q (asked s') /\ In q (pending s') /\
    forall t v, satisfies q [t] v <-> in_window b a x t /\ (by0 = true -> v = r_by r).
Proof.
  intros limit b a by0 os s bt s' r x R L E HT HB I T B G.
  destruct (reaches_inv _ _ _ _ _ _ R) as (I1 & I2 & I3 & I4 & I5 & I6 & I7 & I8 & I9 & I10 & I11).
  cbn [step] in E. destruct (completed (ex s)); [discriminate|]. rewrite G in E. unfold on_initial in E.
  replace (total (ex s) <=? num_sent (ex s)) with false in E by lia. rewrite HT in E. cbn [negb] in E.
  assert (X : by_ (ex s) && negb (has_by bt) = false).
  { rewrite I4. cbn. destruct by0; [rewrite HB by reflexivity|]; reflexivity. }
  rewrite X in E. injection E as <-. cbn [mk asked pending].
  assert (Q : exists q, query_for (ex s) r = Some q /\ forall t v, satisfies q [t] v <-> in_window b a x t /\ (by0 = true -> v = r_by r)).
  { unfold query_for. rewrite T, I2, I3, I4. cbn [start before after by_].
    assert (Z1 : forall d t : Z, (exists u, In u [t] /\ (d <= u)%Z) <-> (d <= t)%Z).
    { intros d t. split; [intros [u [[<-|[]] H]]; exact H|intros H; exists t; cbn; auto]. }
    assert (Z2 : forall d t : Z, (exists u, In u [t] /\ (u <= d)%Z) <-> (t <= d)%Z).
    { intros d t. split; [intros [u [[<-|[]] H]]; exact H|intros H; exists t; cbn; auto]. }
    destruct by0.
    - destruct (r_by r) as [w|]; [|exfalso; apply B; reflexivity]. eexists. split; [reflexivity|].
      intros t v. unfold satisfies, in_window. cbn [q_from q_to q_by].
      destruct b as [b0|], a as [a0|]; cbn [option_map]; split.
      all: try (intros (H1 & H2 & H3); try specialize (H1 _ eq_refl); try specialize (H2 _ eq_refl); specialize (H3 _ eq_refl); rewrite ?Z1, ?Z2 in *; split; [lia|auto]).
      all: try (intros (H1 & H2); specialize (H2 eq_refl); split; [|split]; intros ? K; injection K as <-; rewrite ?Z1, ?Z2; try lia; auto).
      intros (_ & H2). specialize (H2 eq_refl). split; [discriminate|split; [discriminate|]]. intros ? K. injection K as <-. exact H2.
    - eexists. split; [reflexivity|].
      intros t v. unfold satisfies, in_window. cbn [q_from q_to q_by].
      destruct b as [b0|], a as [a0|]; cbn [option_map]; split.
      all: try (intros (H1 & H2 & H3); try specialize (H1 _ eq_refl); try specialize (H2 _ eq_refl); rewrite ?Z1, ?Z2 in *; split; [lia|discriminate]).
      all: try (intros (H1 & H2); split; [|split]; intros ? K; try discriminate; injection K as <-; rewrite ?Z1, ?Z2; lia).
 }
  destruct Q as [q [Q1 Q2]]. exists q.
  assert (Iq : In q (queries (ex s) (b_rows bt))).
  { clear -I Q1. induction (b_rows bt) as [|y l IH]; [destruct I|]. cbn [queries]. destruct I as [->|I].
    - rewrite Q1. left. reflexivity.
    - destruct (query_for (ex s) y); [right|]; apply IH; exact I. }
  rewrite !in_app_iff. auto.
Qed.

(** The query is passed on as text. The bounds that are read from it are the ones of the window or
    one nanosecond before, so the query finds what lies in the window but for its last nanosecond. *)
Theorem C66_text : forall now pton ntop x b a r r' n, since_1900 (x - b) -> since_1900 (x + a) -> follow r = true -> follow r' = true ->
  exists s1 s2 lo hi,
    show (ieee now pton ntop) (DTime (x - b)%Z) = Some s1 /\ data_p (ieee now pton ntop) (S n) (s1 ++ r) = Ok (DTime lo) r /\
    show (ieee now pton ntop) (DTime (x + a)%Z) = Some s2 /\ data_p (ieee now pton ntop) (S n) (s2 ++ r') = Ok (DTime hi) r' /\
    (forall t, (x - b <= t < x + a)%Z -> (lo <= t <= hi)%Z) /\
    (forall t, (lo <= t <= hi)%Z -> (x - b - 1 <= t <= x + a)%Z).
Proof.
  intros now pton ntop x b a r r' n P1 P2 F1 F2.
  destruct (C60_near now pton ntop _ r n P1 F1) as (s1 & lo & A1 & A2 & A3).
  destruct (C60_near now pton ntop _ r' n P2 F2) as (s2 & hi & B1 & B2 & B3).
  exists s1, s2, lo, hi. repeat split; auto; lia.
Qed.

(** * What is not so *)

(** An event is sent twice: of the two events with the IDs 0 and 1, the first is found before, and
    the slice of both is sent as a whole. *)
Theorem C66_twice_refuted : exists os s, reaches 10 (Some 5%Z) None false os s /\
  (exists x y, delivered s = [x; y] /\ rows x = 1%nat /\ offset y = 0 /\ rows y = 2%nat) /\
  concat (sent s) = [0; 0; 1] /\ gone s = true.
Proof.
  exists [Initial {| has_time := true; has_by := false; b_rows := [{| r_time := Some 7%Z; r_by := None |}; {| r_time := Some 8%Z; r_by := None |}] |};
          Status; Spawned 0; Spawned 0; Result 0 {| offset := 0; rows := 1 |}; Result 1 {| offset := 0; rows := 2 |}; Down 0; Down 0].
  eexists. split; [unfold reaches; vm_compute; reflexivity|]. split; [|split; reflexivity]. do 2 eexists. repeat split.
Qed.
(** The explorer never ends if the last open request fails: nothing is left that could reach it. *)
Theorem C66_hang_refuted : exists os s, reaches 10 (Some 5%Z) None false os s /\
  completed (ex s) = true /\ pending s = [] /\ exporters s = [] /\ gone s = false /\ forall o, step s o = None \/ exists b, o = Initial b.
Proof.
  exists [Initial {| has_time := true; has_by := false; b_rows := [{| r_time := Some 7%Z; r_by := None |}] |}; Status; Failed 0].
  eexists. split; [unfold reaches; vm_compute; reflexivity|]. cbn. repeat split.
  intros [b|[|k]|[|k]|[|k] s|[|k]|]; cbn; eauto.
Qed.
(** An event with two times is found although neither lies in the window. *)
Theorem C66_columns_refuted : exists q lo hi ts, q_from q = Some lo /\ q_to q = Some hi /\ satisfies q ts None /\
  forall t, In t ts -> ~ (lo <= t <= hi)%Z.
Proof.
  exists {| q_from := Some 5%Z; q_to := Some 9%Z; q_by := None |}, 5%Z, 9%Z, [1%Z; 20%Z]. repeat split.
  - intros lo E. injection E as <-. exists 20%Z. cbn. split; [tauto|lia].
  - intros hi E. injection E as <-. exists 1%Z. cbn. split; [tauto|lia].
  - discriminate.
  - cbn. intros t [<-|[<-|[]]]; lia.
Qed.
(** An event at the very end of the window is not found: the bound is read one nanosecond early. *)
Theorem C66_edge_refuted : exists x a t s, since_1900 (x + a) /\ t = (x + a)%Z /\ in_window None (Some a) x t /\
  forall now pton ntop, exists hi, show (ieee now pton ntop) (DTime (x + a)%Z) = Some s /\
    data_p (ieee now pton ntop) 1 s = Ok (DTime hi) [] /\ ~ (t <= hi)%Z.
Proof.
  destruct C60_exact_refuted as (tp & t' & s & P & _ & E & H).
  exists (tp - 180000000000)%Z, 180000000000%Z, tp, s.
  replace (tp - 180000000000 + 180000000000)%Z with tp by lia.
  split; [exact P|]. split; [reflexivity|]. split; [unfold in_window; lia|].
  intros now pton ntop. destruct (H now pton ntop) as [A B]. exists t'. split; [exact A|]. split; [exact B|]. lia.
Qed.

(** Two exporters with overlapping results: the conditions hold, six events arrive, five are sent. *)
Example C66_example : exists os s, reaches 100 (Some 5%Z) None true os s /\ not_at_the_start (delivered s) /\ gone s = true /\
  sent s = [[10; 11; 12]; [13; 14]] /\ length (asked s) = 2%nat /\ (forall k, ~ In (Failed k) os).
Proof.
  exists [Initial {| has_time := true; has_by := true; b_rows := [{| r_time := Some 7%Z; r_by := Some 1 |}; {| r_time := Some 7%Z; r_by := None |}; {| r_time := Some 8%Z; r_by := Some 2 |}] |};
          Spawned 1; Result 0 {| offset := 10; rows := 3 |}; Status; Spawned 0; Down 0; Result 0 {| offset := 12; rows := 3 |}; Down 0].
  eexists. split; [unfold reaches; vm_compute; reflexivity|]. split; [|repeat split].
  - intros u d v E. left. cbn in E. destruct u as [|u0 [|u1 u]].
    + injection E as <- _. cbn. lia.
    + injection E as _ <- _. cbn. lia.
    + destruct u; discriminate.
  - intros k H. cbn in H. repeat (destruct H as [H|H]; [discriminate|]). exact H.
Qed.

(** Without axioms: *)
Definition assumptions_Explorer := (C66_limit, C66_once, C66_end, C66_ends, C66_query, C66_twice_refuted, C66_hang_refuted, C66_columns_refuted, C66_edge_refuted, C66_example).
Print Assumptions assumptions_Explorer.
(** With the axioms of the real numbers, by way of C60: *)
Print Assumptions C66_text.
