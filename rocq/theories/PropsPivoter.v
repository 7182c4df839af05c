(** C74: pivoting asks once for each identifier of the results and ends when all is delivered.

    Specifications, in [PivoterProofs]:
    - [edge_is target l k]: which field connects a layout to the target; [clear k l]: the first field
      that this name stands for is a column of the event itself, or there is no field of this name.
    - [holds k l rows x]: the identifier is in the slice. *)
From Coq Require Import List NArith Bool Arith Lia String Ascii.
From Verif Require Import OperatorModel AddressModel AddressProofs DataModel EscapeModel LiteralModel LiteralProofs TypeModel ExpressionModel SyntaxModel SyntaxProofs PropsSyntax.
From Verif Require Import PivoterModel PivoterProofs.
Import ListNotations.
Open Scope N_scope.
Local Notation length := List.length.
Local Notation concat := List.concat.

(** The status of the first query arrives behind its results. *)
Definition status_last (os : list op) : Prop := exists a b, os = a ++ b /\ Forall (fun o => o <> Final) a /\ Forall (fun o => forall l rows, o <> Slice l rows) b.
(** The identifiers that arrive, with the field that they are in. *)
Definition arrives (target : text) (os : list op) (k x : text) : Prop := exists l rows, In (Slice l rows) os /\ edge_is target l k /\ holds k l rows x.

Lemma start_good : forall target, good target (fun _ _ => False) start.
Proof.
  intros target. split; [reflexivity|]. split; [intros l f []|]. split; [intros x; reflexivity|]. split; [constructor|]. split; [|constructor]. intros x. split; [intros []|intros (k & [])].
Qed.
Lemma start_counted : counted start.
Proof. split; [reflexivity|discriminate]. Qed.

(** ** C74: what is asked for *)

(** For all schedules: the queries ask for exactly the identifiers that arrive, each once, and for each
    with a field that it arrived in; no query asks for nothing. *)
Theorem C74_ids : forall target os w, status_last os -> (forall l rows k, In (Slice l rows) os -> edge_is target l k -> clear k l) -> steps target os start = Some w ->
  crashed w = false /\ NoDup (concat (map snd (asked w))) /\ (forall x, In x (concat (map snd (asked w))) <-> exists k, arrives target os k x) /\
  Forall (fun q => snd q <> [] /\ forall x, In x (snd q) -> arrives target os (fst q) x) (asked w).
Proof.
  intros target os w OR CL H.
  assert (CO : Forall (clear_op target) os). { apply Forall_forall. intros o I l rows -> k E. exact (CL l rows k I E). }
  pose proof (steps_good target os start w _ (start_good target) start_counted CO (or_introl (conj eq_refl OR)) H) as (A & _ & _ & D & E & F).
  assert (X : forall k x, False \/ (exists o, In o os /\ of_op target o k x) <-> arrives target os k x).
  { intros k x. split.
    - intros [[]|(o & I & l & rows & -> & K)]. exists l, rows. split; [exact I|exact K].
    - intros (l & rows & I & K). right. exists (Slice l rows). split; [exact I|]. exists l, rows. split; [reflexivity|exact K]. }
  split; [exact A|]. split; [exact D|]. split.
  - intros x. unfold ids in E. rewrite E. split; intros (k & K); exists k; now apply X.
  - eapply Forall_impl; [|exact F]. intros q (Q1 & Q2). split; [exact Q1|]. intros x I. apply X. now apply Q2.
Qed.

(** If all results are connected by one field, an event of the target that has one column for it is
    found by one query if its identifier arrives, and by none otherwise. *)
Definition finds (event : text -> list text) (q : text * list text) : bool := existsb (fun v => if in_dec (list_eq_dec N.eq_dec) v (snd q) then true else false) (event (fst q)).
Theorem C74_found : forall target os w k event v, status_last os -> (forall l rows k, In (Slice l rows) os -> edge_is target l k -> clear k l) ->
  (forall l rows, In (Slice l rows) os -> edge_is target l k) -> steps target os start = Some w -> event k = [v] ->
  (arrives target os k v -> length (filter (finds event) (asked w)) = 1%nat) /\ (~ arrives target os k v -> length (filter (finds event) (asked w)) = 0%nat).
Proof.
  intros target os w k event v OR CL ONE H EV. destruct (C74_ids target os w OR CL H) as (_ & N & I & F).
  assert (K : Forall (fun q => fst q = k) (asked w)).
  { eapply Forall_impl; [|exact F]. intros [k' xs] (Q1 & Q2). cbn [fst snd] in *. destruct xs as [|x xs]; [contradiction|]. destruct (Q2 x (or_introl eq_refl)) as (l & rows & J & E & _). exact (edge_fun _ _ _ _ E (ONE l rows J)). }
  assert (G : forall qs, Forall (fun q => fst q = k) qs -> NoDup (concat (map snd qs)) -> length (filter (finds event) qs) = if in_dec (list_eq_dec N.eq_dec) v (concat (map snd qs)) then 1%nat else 0%nat).
  { induction qs as [|[k' xs] qs IH]; intros FK ND; [reflexivity|]. cbn [map concat snd] in ND |- *. pose proof (Forall_inv FK) as EK. cbn [fst] in EK. subst k'.
    assert (ND2 : NoDup (concat (map snd qs))). { clear - ND. induction xs as [|x xs IH]; [exact ND|]. inversion ND; subst. now apply IH. }
    specialize (IH (Forall_inv_tail FK) ND2). cbn [filter]. unfold finds at 1. cbn [fst snd]. rewrite EV. cbn [existsb]. rewrite orb_false_r.
    destruct (in_dec (list_eq_dec N.eq_dec) v xs) as [X|X].
    - cbn [length]. rewrite IH. destruct (in_dec _ v (concat (map snd qs))) as [Y|Y]; [|destruct (in_dec _ v (xs ++ concat (map snd qs))) as [Z|Z]; [reflexivity|exfalso; apply Z; apply in_or_app; now left] ].
      exfalso. clear - ND X Y. induction xs as [|x xs IHx]; [contradiction|]. cbn [app] in ND. inversion ND as [|? ? D1 D2]; subst. destruct X as [->|X]; [apply D1; apply in_or_app; now right|now apply IHx].
    - rewrite IH. destruct (in_dec _ v (concat (map snd qs))) as [Y|Y], (in_dec _ v (xs ++ concat (map snd qs))) as [Z|Z]; try reflexivity.
      + exfalso. apply Z. apply in_or_app. now right.
      + exfalso. apply in_app_or in Z. destruct Z; contradiction. }
  rewrite (G _ K N). split; intros A; destruct (in_dec (list_eq_dec N.eq_dec) v (concat (map snd (asked w)))) as [Y|Y]; try reflexivity; exfalso.
  - apply Y. apply I. exists k. exact A.
  - apply A. apply I in Y. destruct Y as (k' & l & rows & J & E & Hd). rewrite (edge_fun _ _ _ _ E (ONE l rows J)) in Hd. exists l, rows. split; [exact J|]. split; [exact (ONE l rows J)|exact Hd].
Qed.

(** The queries are passed on as text, which is read as the same query. *)
Lemma edge_field : forall k, k = chars "uid" \/ k = chars "community_id" -> field_ok k.
Proof.
  intros k [-> | ->].
  - split; [exists (chars "uid"), []; split; [reflexivity|repeat constructor; discriminate]|]. split; [eexists _, _; split; reflexivity|].
    split; [cbn; intros H; repeat (destruct H as [H|H]; [discriminate H|]); destruct H|]. split; [reflexivity|]. intros c y H. discriminate.
  - split; [exists (chars "community_id"), []; split; [reflexivity|repeat constructor; discriminate]|]. split; [eexists _, _; split; reflexivity|].
    split; [cbn; intros H; repeat (destruct H as [H|H]; [discriminate H|]); destruct H|]. split; [reflexivity|]. intros c y H. discriminate.
Qed.
Theorem C74_text : forall A target os w q n, status_last os -> (forall l rows k, In (Slice l rows) os -> edge_is target l k -> clear k l) -> steps target os start = Some w ->
  In q (asked w) -> str_ok target = true -> Forall (fun x => str_ok x = true) (snd q) ->
  exists t, show_expr A (query_of target q) = Some t /\ ((length t < n)%nat -> query_p A (S n) t = Ok (query_of target q) []).
Proof.
  intros A target os w q n OR CL H I T F. destruct (C74_ids target os w OR CL H) as (_ & _ & _ & Q). rewrite Forall_forall in Q. destruct (Q q I) as (Q1 & Q2).
  assert (K : fst q = chars "uid" \/ fst q = chars "community_id").
  { destruct (snd q) as [|x xs]; [contradiction|]. destruct (Q2 x (or_introl eq_refl)) as (l & rows & _ & [(_ & _ & E)|(_ & E)] & _); auto. }
  assert (SH : exists ts, all_some (map (show A) (map DString (snd q))) = Some ts). { clear. induction (snd q) as [|x xs (ts & IH)]; [exists []; reflexivity|]. cbn [map]. cbn [show all_some]. rewrite IH. eexists. reflexivity. }
  destruct SH as (ts & SH).
  assert (P : printable (query_of target q)).
  { cbn [query_of printable length fold_right]. split; [lia|]. split; [split; [exact Logic.I|exact T]|]. split; [|exact Logic.I]. split; [apply edge_field; exact K|]. cbn [operand_ok p_rhs]. apply literal_list. apply Forall_map. exact F. }
  assert (E : exists t, show_expr A (query_of target q) = Some t).
  { cbn [query_of show_expr map]. unfold show_pred. cbn [p_lhs p_rhs show_operand show]. rewrite SH. cbn [option_map all_some]. eexists. reflexivity. }
  destruct E as (t & E). exists t. split; [exact E|]. intros L. now apply C56_round_trip.
Qed.

(** ** C74: the end *)

(** The actor quits only when the first query is done, all requests are answered and all exporters are
    done. *)
Theorem C74_end : forall target os w, steps target os start = Some w -> gone w = true -> final w = true /\ pending w = 0%nat /\ alive w = 0%nat.
Proof. intros target os w H G. destruct (steps_counted target os start w start_counted H) as (R & K). destruct (K G) as (A & B). split; [exact A|]. lia. Qed.
(** If no request fails, it quits then. *)
Theorem C74_ends : forall target os w, Forall (fun o => o <> Answer false) os -> steps target os start = Some w -> final w = true -> pending w = 0%nat -> alive w = 0%nat -> gone w = true.
Proof.
  intros target os w F H A B C. destruct (steps_counted target os start w start_counted H) as (R & _).
  apply (steps_prompt target os start w start_counted); [discriminate|exact F|exact H|exact A|]. lia.
Qed.

(** ** Examples *)

Definition conn : layout := {| l_name := chars "zeek.conn"; l_fields := [TLeaf (chars "ts"); TNode (chars "id") [TLeaf (chars "orig_h"); TLeaf (chars "resp_h")]; TLeaf (chars "uid"); TLeaf (chars "community_id")] |}.
Definition alert : layout := {| l_name := chars "suricata.alert"; l_fields := [TLeaf (chars "community_id")] |}.
Definition rows1 : list (list data) := [[DNone; DNone; DNone; DString (chars "a"); DString (chars "x")]; [DNone; DNone; DNone; DString (chars "b"); DNone]; [DNone; DNone; DNone; DString (chars "a"); DNone]; [DNone; DNone; DNone; DNone; DNone]].
Definition rows2 : list (list data) := [[DNone; DNone; DNone; DString (chars "b"); DNone]; [DNone; DNone; DNone; DString (chars "c"); DNone]].
Definition schedule : list op := [Slice conn rows1; Answer true; Slice conn rows2; Slice conn rows1; Final; Down; Answer true; Down].
Lemma conn_leads : leads (chars "uid") conn [TLeaf (chars "ts"); TNode (chars "id") [TLeaf (chars "orig_h"); TLeaf (chars "resp_h")]] [TLeaf (chars "community_id")].
Proof.
  split; [reflexivity|]. intros p P r E.
  assert (Q : In p [[chars "ts"]; [chars "id"]; [chars "id"; chars "orig_h"]; [chars "id"; chars "resp_h"] ]).
  { inversion P as [f fs I X|n gs fs p' I P' X]; subst.
    - destruct I as [<-|[<-|[] ] ]; cbn; auto.
    - destruct I as [X|[X|[] ] ]; [discriminate|]. injection X as <- <-. inversion P' as [f fs I X|n gs fs p'' I P'' X]; subst.
      + destruct I as [<-|[<-|[] ] ]; cbn; auto.
      + destruct I as [X|[X|[] ] ]; discriminate. }
  assert (EW : ends_with (dotted (l_name conn) p) (46 :: chars "uid") = true) by (apply ends_spec; exists r; exact E).
  destruct Q as [<-|[<-|[<-|[<-|[] ] ] ] ]; vm_compute in EW; discriminate.
Qed.
Example C74_example : exists w, steps (chars "zeek.http") schedule start = Some w /\ gone w = true /\ asked w = [(chars "uid", [chars "a"; chars "b"]); (chars "uid", [chars "c"])] /\
  status_last schedule /\ (forall l rows k, In (Slice l rows) schedule -> edge_is (chars "zeek.http") l k -> clear k l) /\ (forall l rows, In (Slice l rows) schedule -> edge_is (chars "zeek.http") l (chars "uid")) /\
  arrives (chars "zeek.http") schedule (chars "uid") (chars "c") /\ Forall (fun o => o <> Answer false) schedule.
Proof.
  assert (E : edge_is (chars "zeek.http") conn (chars "uid")) by (exact (edge_spec (chars "zeek.http") conn)).
  assert (L : forall l rows, In (Slice l rows) schedule -> l = conn).
  { intros l rows I. unfold schedule in I. repeat (destruct I as [X|I]; [first [discriminate X|now injection X as <- _]|]). destruct I. }
  eexists. split; [vm_compute; reflexivity|]. split; [reflexivity|]. split; [reflexivity|]. split; [|split; [|split; [|split] ] ].
  - exists [Slice conn rows1; Answer true; Slice conn rows2; Slice conn rows1], [Final; Down; Answer true; Down]. split; [reflexivity|]. split; repeat constructor; try discriminate; intros; discriminate.
  - intros l rows k I K. rewrite (L l rows I) in K |- *. rewrite (edge_fun _ _ _ _ K E). right. do 2 eexists. exact conn_leads.
  - intros l rows I. now rewrite (L l rows I).
  - exists conn, rows2. split; [cbn; auto|]. split; [exact E|]. do 2 eexists. eexists. split; [exact conn_leads|]. split; [right; left; reflexivity|reflexivity].
  - unfold schedule. repeat constructor; discriminate.
Qed.
Example C74_text_example : forall A, show_expr A (query_of (chars "zeek.http") (chars "uid", [chars "a"; chars "b"])) = Some (chars "(#type == ""zeek.http"" && uid in [""a"", ""b""])") /\
  str_ok (chars "zeek.http") = true /\ Forall (fun x => str_ok x = true) [chars "a"; chars "b"].
Proof. intros A. split; [reflexivity|]. split; [reflexivity|]. repeat constructor. Qed.

(** ** Where the code does something else *)

(** If the last request fails, nothing is left that the actor could wait for, and it never quits. *)
Theorem C74_hang_refuted : exists os w, status_last os /\ steps (chars "zeek.http") os start = Some w /\ final w = true /\ pending w = 0%nat /\ alive w = 0%nat /\ running w = 0%nat /\ gone w = false.
Proof.
  exists [Slice conn rows1; Final; Answer false]. eexists. split; [|split; [vm_compute; reflexivity|repeat split] ].
  exists [Slice conn rows1], [Final; Answer false]. split; [reflexivity|]. split; repeat constructor; try discriminate; intros; discriminate.
Qed.
(** An identifier that was asked for in one field is not asked for in another one. *)
Theorem C74_shared_refuted : exists os w x, status_last os /\ steps (chars "zeek.http") os start = Some w /\ arrives (chars "zeek.http") os (chars "community_id") x /\
  forall xs, In (chars "community_id", xs) (asked w) -> ~ In x xs.
Proof.
  exists [Slice conn rows1; Slice alert [[DString (chars "a")]]; Final]. eexists. exists (chars "a"). split; [|split; [vm_compute; reflexivity|split] ].
  - exists [Slice conn rows1; Slice alert [[DString (chars "a")]]], [Final]. split; [reflexivity|]. split; repeat constructor; try discriminate; intros; discriminate.
  - exists alert, [[DString (chars "a")]]. split; [cbn; auto|]. split; [exact (edge_spec (chars "zeek.http") alert)|]. exists [], [], [DString (chars "a")]. split; [|split; [now left|reflexivity] ].
    split; [reflexivity|]. intros p P. exfalso. inversion P as [f fs I|n gs fs p' I]; destruct I.
  - intros xs [E|[] ]. discriminate.
Qed.
(** An event that has two columns that the name stands for is output twice. *)
Theorem C74_twice_refuted : exists os w event, status_last os /\ steps (chars "zeek.http") os start = Some w /\ event (chars "uid") = [chars "b"; chars "c"] /\ length (filter (finds event) (asked w)) = 2%nat.
Proof.
  exists [Slice conn rows1; Slice conn rows2; Final]. eexists. exists (fun _ => [chars "b"; chars "c"]). split; [|split; [vm_compute; reflexivity|split; reflexivity] ].
  exists [Slice conn rows1; Slice conn rows2], [Final]. split; [reflexivity|]. split; repeat constructor; try discriminate; intros; discriminate.
Qed.
(** The identifiers are taken from a field within a record before, if it has the name, too. *)
Theorem C74_nested_refuted : exists l row w, In (TLeaf (chars "uid")) (l_fields l) /\ nth_error row 1 = Some (DString (chars "mine")) /\ columns (firstn 1 (l_fields l)) = 1%nat /\ nth_error (l_fields l) 1 = Some (TLeaf (chars "uid")) /\
  steps (chars "zeek.http") [Slice l [row]] start = Some w /\ asked w = [(chars "uid", [chars "other"])].
Proof.
  exists {| l_name := chars "zeek.files"; l_fields := [TNode (chars "parent") [TLeaf (chars "uid")]; TLeaf (chars "uid")] |}, [DString (chars "other"); DString (chars "mine")]. eexists.
  split; [cbn; auto|]. do 3 (split; [reflexivity|]). split; [vm_compute; reflexivity|reflexivity].
Qed.
(** A record of this name violates an assertion. *)
Theorem C74_record_refuted : exists l w, steps (chars "pcap.packet") [Slice l []] start = Some w /\ crashed w = true.
Proof. exists {| l_name := chars "x.y"; l_fields := [TNode (chars "community_id") [TLeaf (chars "version")] ] |}. eexists. split; vm_compute; reflexivity. Qed.
(** An identifier that ends in a backslash makes the query unreadable, and with it all others of its
    slice are lost. *)
Theorem C74_text_refuted : exists rows w q, steps (chars "zeek.http") [Slice conn rows] start = Some w /\ asked w = [q] /\ In (chars "good") (snd q) /\
  forall A, exists t, show_expr A (query_of (chars "zeek.http") q) = Some t /\ query_p A 100 t = No.
Proof.
  exists [[DNone; DNone; DNone; DString (chars "good"); DNone]; [DNone; DNone; DNone; DString (chars "bad\"); DNone]]. eexists. exists (chars "uid", [chars "good"; chars "bad\"]).
  split; [vm_compute; reflexivity|]. split; [reflexivity|]. split; [now left|]. intros A. eexists. split; reflexivity.
Qed.

Definition assumptions_Pivoter := (C74_ids, C74_found, C74_text, C74_end, C74_ends, C74_hang_refuted, C74_shared_refuted, C74_twice_refuted, C74_nested_refuted, C74_record_refuted, C74_text_refuted).
Print Assumptions assumptions_Pivoter.
