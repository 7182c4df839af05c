(** C82: labels name components: each at most one, and for as long as it is there. *)
From Coq Require Import List ZArith NArith Bool Arith Lia ZifyBool ZifyNat ZifyN.
From Verif Require Import AddressModel LiteralModel LiteralProofs NodeModel.
From Verif Require TypeProofs.
Import ListNotations.
Open Scope N_scope.
Local Notation length := List.length.

(** * Specification *)
(** Which component a label names, as those who get the answers see it. *)
Definition table : Type := list N -> option comp.
Definition see (i : input) (a : answer) (t : table) : table :=
  match i, a with
  | _, Registered l c => fun k => if bytes_eqb k l then Some c else t k
  | _, Removed l => fun k => if bytes_eqb k l then None else t k
  | Down x, Gone => fun k => match t k with Some c => if actor c =? x then None else Some c | None => None end
  | _, _ => t
  end.
Fixpoint seen (is : list input) (l : list answer) (t : table) : table :=
  match is, l with
  | i :: is', a :: l' => seen is' l' (see i a t)
  | _, _ => t
  end.
(** No answer takes a label from a component, and only labels of components are removed. *)
Fixpoint fair (is : list input) (l : list answer) (t : table) : Prop :=
  match is, l with
  | i :: is', a :: l' => match a with Registered k _ => t k = None | Removed k => t k <> None | _ => True end /\ fair is' l' (see i a t)
  | _, _ => True
  end.
(** The actors of a history; each is there once, and none is the file system of the node. *)
Definition actors (is : list input) : list N := flat_map (fun i => match i with Started _ (Some a) => [a] | Put a _ => [a] | _ => [] end) is.
Definition files : list N := [102; 105; 108; 101; 115; 121; 115; 116; 101; 109].
Definition first : table := fun k => if bytes_eqb k files then Some {| actor := 0; kind := files |} else None.

Lemma eqb_iff : forall x y, bytes_eqb x y = true <-> x = y.
Proof. exact TypeProofs.bytes_eqb_iff. Qed.
Lemma eqb_refl : forall x, bytes_eqb x x = true.
Proof. intros x. apply eqb_iff. reflexivity. Qed.
Lemma eqb_sym : forall x y, bytes_eqb x y = bytes_eqb y x.
Proof. intros x y. destruct (bytes_eqb x y) eqn:E, (bytes_eqb y x) eqn:F; auto; [apply eqb_iff in E|apply eqb_iff in F]; subst; rewrite eqb_refl in *; discriminate. Qed.

(** * The registry as a table *)
Definition good (r : registry) : Prop := NoDup (map fst r) /\ NoDup (map (fun e => actor (snd e)) r).
Lemma find_in : forall l r c, find_by_label l r = Some c -> In (l, c) r.
Proof. induction r as [|[k d] r IH]; intros c; cbn; [discriminate|]. destruct (bytes_eqb l k) eqn:E; [intros [= <-]; apply eqb_iff in E; subst; auto|auto]. Qed.
Lemma find_none : forall l r, find_by_label l r = None -> ~ In l (map fst r).
Proof. induction r as [|[k d] r IH]; cbn; [auto|]. destruct (bytes_eqb l k) eqn:E; [discriminate|]. intros H [->|I]; [rewrite eqb_refl in E; discriminate|apply IH; auto]. Qed.
Lemma in_find : forall l r c, NoDup (map fst r) -> In (l, c) r -> find_by_label l r = Some c.
Proof.
  induction r as [|[k d] r IH]; intros c N I; [destruct I|]. inversion N as [|? ? X Y]; subst. cbn. destruct I as [[= -> ->]|I]; [rewrite eqb_refl; reflexivity|].
  destruct (bytes_eqb l k) eqn:E; [|auto]. apply eqb_iff in E. subst. destruct X. apply in_map_iff. exists (k, c). auto.
Qed.
Lemma find_app : forall k l c r, find_by_label l r = None -> find_by_label k (r ++ [(l, c)]) = if bytes_eqb k l then Some c else find_by_label k r.
Proof.
  induction r as [|[j d] r IH]; cbn; [reflexivity|]. intros H. destruct (bytes_eqb l j) eqn:E; [discriminate|]. destruct (bytes_eqb k j) eqn:F; [|auto].
  apply eqb_iff in F. subst. rewrite eqb_sym, E. reflexivity.
Qed.
Lemma find_removed : forall k l r, find_by_label k (remove_label l r) = if bytes_eqb k l then None else find_by_label k r.
Proof.
  unfold remove_label. induction r as [|[j d] r IH]; cbn [filter find_by_label fst]; [destruct (bytes_eqb k l); reflexivity|]. destruct (bytes_eqb l j) eqn:E; cbn [negb find_by_label].
  - rewrite IH. apply eqb_iff in E. subst. destruct (bytes_eqb k j); reflexivity.
  - destruct (bytes_eqb k j) eqn:F; [|exact IH]. apply eqb_iff in F. subst. rewrite eqb_sym, E. reflexivity.
Qed.
Lemma removed_actor : forall a r c r', remove_actor a r = Some (c, r') -> exists x k y, r = x ++ (k, c) :: y /\ r' = x ++ y /\ actor c = a.
Proof.
  induction r as [|[k d] r IH]; intros c r' H; [discriminate|]. cbn in H. destruct (actor d =? a) eqn:E.
  - inversion H; subst. exists [], k, r'. repeat split; auto. lia.
  - destruct (remove_actor a r) as [[e r'']|]; [|discriminate]. inversion H; subst. destruct (IH c r'' eq_refl) as (x & j & y & -> & -> & A). exists ((k, d) :: x), j, y. auto.
Qed.
Lemma no_actor : forall a r, remove_actor a r = None -> ~ In a (map (fun e => actor (snd e)) r).
Proof. induction r as [|[k d] r IH]; cbn; [auto|]. destruct (actor d =? a) eqn:E; [discriminate|]. destruct (remove_actor a r) as [[? ?]|]; [discriminate|]. intros _ [X|X]; [cbn in X; lia|]. apply IH; auto. Qed.
Lemma NoDup_filter_map : forall {A B} (f : A -> B) p l, NoDup (map f l) -> NoDup (map f (filter p l)).
Proof.
  induction l as [|x l IH]; intros N; [constructor|]. inversion N as [|? ? X Y]; subst. cbn. destruct (p x); [|auto]. cbn. constructor; [|auto].
  intros I. apply X. apply in_map_iff in I. destruct I as (y & E & I). apply filter_In in I. apply in_map_iff. exists y. tauto.
Qed.
Lemma find_ext : forall k r r', NoDup (map fst r) -> NoDup (map fst r') -> (forall c, In (k, c) r <-> In (k, c) r') -> find_by_label k r = find_by_label k r'.
Proof.
  intros k r r' N N' H. destruct (find_by_label k r) as [c|] eqn:E.
  - symmetry. apply in_find; [assumption|]. apply H. apply find_in. assumption.
  - destruct (find_by_label k r') as [c|] eqn:E'; [|reflexivity]. apply find_in in E'. apply H in E'. rewrite (in_find _ _ _ N E') in E. discriminate.
Qed.
Lemma find_gone : forall a r c r' k, good r -> remove_actor a r = Some (c, r') -> good r' /\ find_by_label k r' = match find_by_label k r with Some d => if actor d =? a then None else Some d | None => None end.
Proof.
  intros a r c r' k [N1 N2] H. destruct (removed_actor a r c r' H) as (x & j & y & -> & -> & A).
  assert (good (x ++ y)) as G by (unfold good; rewrite !map_app in *; cbn [map] in *; split; eapply NoDup_remove_1; eassumption). split; [exact G|]. destruct G as [G1 G2].
  destruct (find_by_label k (x ++ (j, c) :: y)) as [d|] eqn:F.
  - apply find_in in F. destruct (actor d =? a) eqn:E.
    + destruct (find_by_label k (x ++ y)) as [e|] eqn:Z; [|reflexivity]. exfalso. apply find_in in Z.
      assert (In (k, e) (x ++ (j, c) :: y)) as Z' by (apply in_app_iff in Z; apply in_app_iff; cbn; tauto).
      assert (e = d) as -> by (pose proof (in_find _ _ _ N1 Z'); pose proof (in_find _ _ _ N1 F); congruence).
      rewrite map_app in N2. cbn [map snd] in N2. apply NoDup_remove_2 in N2. apply N2. rewrite <- map_app. apply in_map_iff. exists (k, d). cbn. split; [lia|assumption].
    + apply in_find; [exact G1|]. apply in_app_iff in F. apply in_app_iff. cbn in F. destruct F as [F|[F|F] ]; auto. inversion F; subst. lia.
  - destruct (find_by_label k (x ++ y)) as [e|] eqn:Z; [|reflexivity]. apply find_in in Z. exfalso. apply (find_none _ _ F). apply in_map_iff. exists (k, e). split; [reflexivity|]. apply in_app_iff in Z. apply in_app_iff. cbn. tauto.
Qed.

(** * Histories *)
Definition agrees (t : table) (s : node) : Prop := forall k, find_by_label k (reg s) = t k.
Definition known (s : node) (as_ : list N) : Prop := forall a, In a (map (fun e => actor (snd e)) (reg s)) -> ~ In a as_.
Lemma register_ok : forall l c s t as_, agrees t s -> good (reg s) -> known s (actor c :: as_) -> ~ In (actor c) as_ ->
  let (a, s') := register l c s in (match a with Registered k d => t k = None /\ k = l /\ d = c | Refused => True | _ => False end) /\
    agrees (match a with Registered k d => fun j => if bytes_eqb j k then Some d else t j | _ => t end) s' /\ good (reg s') /\ known s' as_.
Proof.
  intros l c s t as_ A [G1 G2] K Fr. unfold register, add. destruct (find_by_label l (reg s)) eqn:F.
  - split; [exact I|]. split; [exact A|]. split; [split; assumption|]. intros x Hx Hy. apply (K x Hx). right. exact Hy.
  - split; [rewrite <- (A l); auto|]. split; [intros k; cbn [reg]; rewrite find_app by exact F; rewrite (A k); reflexivity|]. cbn [reg]. split.
    + unfold good. rewrite !map_app. cbn [map fst snd]. split.
      * apply NoDup_rev in G1. rewrite <- (rev_involutive (map fst (reg s) ++ [l])). apply NoDup_rev. rewrite rev_app_distr. cbn. constructor; [rewrite <- in_rev; apply find_none; exact F|exact G1].
      * apply NoDup_rev in G2. rewrite <- (rev_involutive (map (fun e => actor (snd e)) (reg s) ++ [actor c])). apply NoDup_rev. rewrite rev_app_distr. cbn. constructor; [rewrite <- in_rev; intros X; apply (K _ X); left; reflexivity|exact G2].
    + intros x Hx. cbn [reg] in Hx. rewrite map_app in Hx. apply in_app_iff in Hx. destruct Hx as [Hx|[<-|[] ] ]; [|exact Fr]. intros Hy. apply (K x Hx). right. exact Hy.
Qed.
Lemma known_less : forall s a as_, known s (a ++ as_) -> known s as_.
Proof. intros s a as_ K x X Y. apply (K x X). apply in_app_iff. auto. Qed.
Lemma step_ok : forall i s t as_, agrees t s -> good (reg s) -> known s (actors [i] ++ as_) -> NoDup (actors [i] ++ as_) ->
  let (a, s') := step i s in match a with Registered k _ => t k = None | Removed k => t k <> None | _ => True end /\ agrees (see i a t) s' /\ good (reg s') /\ known s' as_.
Proof.
  intros i s t as_ A G K N. pose proof (known_less _ _ _ K) as K'.
  assert (match (Refused, s) with (a, s') => match a with Registered k _ => t k = None | Removed k => t k <> None | _ => True end /\ agrees (see i a t) s' /\ good (reg s') /\ known s' as_ end) as Same
    by (repeat split; try apply G; try assumption; unfold see; destruct i; exact A).
  unfold step. destruct (stat s); [|exact Same|exact Same]. destruct i as [ty lab|k oa|a ty|l|a].
  - assert (forall x y u, reg u = reg s -> let (a, s') := wait x y u in match a with Registered k _ => t k = None | Removed k => t k <> None | _ => True end /\ agrees (see (Ask ty lab) a t) s' /\ good (reg s') /\ known s' as_) as W.
    { intros x y u E. unfold wait, agrees, known. cbn [reg see]. rewrite E. auto. }
    destruct lab as [ [|c l]|]; [exact Same| |].
    + destruct (find_by_label (c :: l) (reg s)); [exact Same|]. apply W. reflexivity.
    + destruct (member ty singletons); apply W; reflexivity.
  - destruct (nth_error (pending s) k) as [[ty l]|]; [|exact Same]. cbv zeta. destruct oa as [a|]; [|exact Same].
    cbn [actors flat_map app] in K, N. inversion N as [|? ? N1 N2]; subst.
    match goal with |- context [register l ?c ?u] => pose proof (register_ok l c u t as_ A G K N1) as R; destruct (register l c u) as [an s'] end.
    destruct R as (R1 & R2 & R3 & R4). destruct an; cbn [see]; try contradiction; repeat split; try apply R3; auto; apply R1.
  - destruct ty as [|c ty]; [exact Same|]. destruct (_ && _); [exact Same|]. cbn [actors flat_map app] in K, N. inversion N as [|? ? N1 N2]; subst.
    match goal with |- context [register ?l ?c ?u] => pose proof (register_ok l c u t as_ A G K N1) as R; destruct (register l c u) as [an s'] end.
    destruct R as (R1 & R2 & R3 & R4). destruct an; cbn [see]; try contradiction; repeat split; try apply R3; auto; apply R1.
  - destruct (find_by_label l (reg s)) as [c|] eqn:F; [|exact Same]. cbn [see]. split; [rewrite <- (A l), F; discriminate|]. split; [intros k; cbn [reg]; rewrite find_removed, (A k); reflexivity|].
    cbn [reg]. split; [split; apply NoDup_filter_map; apply G|]. intros x Hx. apply K'. cbn [reg] in Hx. apply in_map_iff in Hx. destruct Hx as (e & E & I). apply filter_In in I. apply in_map_iff. exists e. tauto.
  - destruct (remove_actor a (reg s)) as [[c r]|] eqn:R; cbn [see]; split; auto.
    + split; [intros k; cbn [reg]; destruct (find_gone a (reg s) c r k G R) as [_ ->]; rewrite (A k); reflexivity|]. cbn [reg]. split; [apply (find_gone a (reg s) c r [] G R)|].
      intros x Hx. apply K'. cbn [reg] in Hx. destruct (removed_actor _ _ _ _ R) as (u & k & v & E & -> & _). rewrite E. rewrite map_app in *. cbn [map]. apply in_app_iff in Hx. apply in_app_iff. cbn. tauto.
    + split; [|split; [exact G|exact K'] ]. intros k. cbn [reg]. rewrite <- (A k). destruct (find_by_label k (reg s)) as [c|] eqn:F; [|reflexivity]. destruct (actor c =? a) eqn:E; [|reflexivity].
      exfalso. apply (no_actor a (reg s) R). apply in_map_iff. exists (k, c). cbn. split; [lia|apply find_in; exact F].
Qed.
Lemma actors_cons : forall i is, actors (i :: is) = actors [i] ++ actors is.
Proof. intros. unfold actors. cbn [flat_map]. rewrite app_nil_r. reflexivity. Qed.
Lemma run_ok : forall is s t, agrees t s -> good (reg s) -> known s (actors is) -> NoDup (actors is) ->
  let (l, s') := run is s in fair is l t /\ agrees (seen is l t) s' /\ good (reg s').
Proof.
  induction is as [|i is IH]; intros s t A G K N; [cbn; auto|]. rewrite actors_cons in K, N. cbn [run]. pose proof (step_ok i s t (actors is) A G K N) as H. destruct (step i s) as [a s1].
  destruct H as (H1 & H2 & H3 & H4). assert (NoDup (actors is)) as N' by (clear - N; induction (actors [i]) as [|x l IHl]; [exact N|]; inversion N; auto).
  specialize (IH s1 (see i a t) H2 H3 H4 N'). destruct (run is s1) as [l s2]. cbn [fair seen]. destruct IH as (I1 & I2 & I3). repeat split; try assumption; apply I3.
Qed.
Lemma fresh_ok : forall is, ~ In 0 (actors is) -> agrees first fresh /\ good (reg fresh) /\ known fresh (actors is).
Proof.
  intros is H. split; [intros k; reflexivity|]. split; [split; repeat constructor; cbn; tauto|]. intros a [<-|[] ]. exact H.
Qed.
(** For all histories, a label names exactly the component that was registered under it and has neither
    been killed nor ended since; a registration never takes a label from another component. *)
Theorem C82_label : forall is, NoDup (actors is) -> ~ In 0 (actors is) -> let (l, s) := run is fresh in (forall k, find_by_label k (reg s) = seen is l first k) /\ fair is l first.
Proof. intros is N Z. destruct (fresh_ok is Z) as (A & G & K). pose proof (run_ok is fresh first A G K N) as H. destruct (run is fresh) as [l s]. destruct H as (H1 & H2 & _). auto. Qed.
(** The components of a type are all that have it and are there, each once. *)
Theorem C82_type : forall is t, NoDup (actors is) -> ~ In 0 (actors is) -> let (l, s) := run is fresh in
  NoDup (find_by_type t (reg s)) /\ forall a, In a (find_by_type t (reg s)) <-> exists k, seen is l first k = Some {| actor := a; kind := t |}.
Proof.
  intros is t N Z. destruct (fresh_ok is Z) as (A & G & K). pose proof (run_ok is fresh first A G K N) as H. destruct (run is fresh) as [l s]. destruct H as (_ & H2 & H3 & H4). split; [apply NoDup_filter_map; exact H4|].
  intros a. unfold find_by_type. split.
  - intros I. apply in_map_iff in I. destruct I as ([k c] & E & I). apply filter_In in I. destruct I as [I T]. cbn in E, T. apply eqb_iff in T. exists k. rewrite <- (H2 k). rewrite (in_find _ _ _ H3 I). destruct c. cbn in *. subst. reflexivity.
  - intros (k & E). rewrite <- (H2 k) in E. apply find_in in E. apply in_map_iff. exists (k, {| actor := a; kind := t |}). split; [reflexivity|]. apply filter_In. split; [exact E|]. cbn. apply eqb_refl.
Qed.
(** When a component that is there ends, the node ends if it is an essential one, and goes on otherwise. *)
Theorem C82_core : forall is k c, NoDup (actors is) -> ~ In 0 (actors is) -> let (l, s) := run is fresh in stat s = Up -> seen is l first k = Some c ->
  stat (snd (step (Down (actor c)) s)) = if member (kind c) [files; [97; 114; 99; 104; 105; 118; 101]; [105; 109; 112; 111; 114; 116; 101; 114]; [105; 110; 100; 101; 120] ] then Ending else Up.
Proof.
  intros is k c N Z. destruct (fresh_ok is Z) as (A & G & K). pose proof (run_ok is fresh first A G K N) as H. destruct (run is fresh) as [l s]. destruct H as (_ & H2 & H3 & H4). intros U E. rewrite <- (H2 k) in E. apply find_in in E.
  unfold step. rewrite U. destruct (remove_actor (actor c) (reg s)) as [[d r]|] eqn:R; [|destruct (no_actor _ _ R); apply in_map_iff; exists (k, c); auto].
  assert (d = c) as ->.
  { destruct (removed_actor _ _ _ _ R) as (x & j & y & X & _ & Y). assert (In (j, d) (reg s)) as D by (rewrite X; apply in_app_iff; cbn; auto).
    assert ((j, d) = (k, c)) as Q; [|congruence]. clear - H4 D E Y. induction (reg s) as [|e l IH]; [destruct D|]. inversion H4 as [|? ? P Q]; subst.
    destruct D as [D|D], E as [E|E]; [congruence| | |auto]; exfalso; apply P; apply in_map_iff; [exists (k, c)|exists (j, d)]; subst e; cbn; auto. }
  cbn [snd stat]. unfold member, core, files. cbn [existsb]. destruct (bytes_eqb (kind c) [97; 114; 99; 104; 105; 118; 101]), (bytes_eqb (kind c) [102; 105; 108; 101; 115; 121; 115; 116; 101; 109]), (bytes_eqb (kind c) [105; 109; 112; 111; 114; 116; 101; 114]), (bytes_eqb (kind c) [105; 110; 100; 101; 120]); reflexivity.
Qed.

(** * Labels made by the node *)
(** The labels of a history that the node made itself. *)
Fixpoint made (is : list input) (l : list answer) : list (list N) :=
  match is, l with
  | Ask t None :: is', Accepted k :: l' => (if member t singletons then [] else [k]) ++ made is' l'
  | Put _ _ :: is', Registered k _ :: l' => k :: made is' l'
  | _ :: is', _ :: l' => made is' l'
  | _, _ => []
  end.
Lemma dash : forall t t' d d' : list N, ~ In 45 d -> ~ In 45 d' -> t ++ 45 :: d = t' ++ 45 :: d' -> t = t' /\ d = d'.
Proof.
  induction t as [|x t IH]; intros [|y t'] d d' H H' E; cbn in E; inversion E; subst; auto.
  - destruct H. apply in_app_iff. cbn. auto.
  - destruct H'. apply in_app_iff. cbn. auto.
  - destruct (IH t' d d' H H' ltac:(assumption)). subst. auto.
Qed.
Lemma generated_inj : forall t t' n n', n < 10 ^ 20 -> n' < 10 ^ 20 -> generated t n = generated t' n' -> t = t' /\ n = n'.
Proof.
  intros t t' n n' H H' E. destruct (digits_spec n H) as (A & B & _), (digits_spec n' H') as (A' & B' & _). apply dash in E.
  - destruct E as [-> E]. split; [reflexivity|]. rewrite <- A, <- A', E. reflexivity.
  - intros I. rewrite forallb_forall in B. specialize (B 45 I). discriminate.
  - intros I. rewrite forallb_forall in B'. specialize (B' 45 I). discriminate.
Qed.
(** Labels that are made behind a state: of a type, and not below its counter. *)
Lemma made_ok : forall is s b, (forall t, counter t (counters s) <= b) -> b + N.of_nat (length is) < 10 ^ 20 -> let (l, _) := run is s in
  NoDup (made is l) /\ forall k, In k (made is l) -> exists t n, k = generated t n /\ counter t (counters s) <= n < b + N.of_nat (length is).
Proof.
  induction is as [|i is IH]; intros s b B L; [split; [constructor|intros k []]|]. cbn [run length] in *.
  assert (forall s', counters s' = counters s -> let (l, _) := run is s' in NoDup (made is l) /\ forall k, In k (made is l) -> exists t n, k = generated t n /\ counter t (counters s) <= n < b + N.of_nat (S (length is))) as Skip.
  { intros s' E. specialize (IH s' b). rewrite E in IH. specialize (IH B ltac:(lia)). destruct (run is s') as [l s2]. destruct IH as [I1 I2]. split; [exact I1|]. intros k Ik. destruct (I2 k Ik) as (t & n & X & Y). exists t, n. split; [exact X|lia]. }
  assert (forall ty s', counters s' = (ty, counter ty (counters s) + 1) :: counters s -> let (l, _) := run is s' in
    (NoDup (made is l) /\ forall k, In k (made is l) -> exists t n, k = generated t n /\ counter t (counters s) <= n < b + N.of_nat (S (length is))) /\
    (NoDup (generated ty (counter ty (counters s)) :: made is l) /\ forall k, In k (generated ty (counter ty (counters s)) :: made is l) -> exists t n, k = generated t n /\ counter t (counters s) <= n < b + N.of_nat (S (length is)))) as Take.
  { intros ty s' E. specialize (IH s' (b + 1)). rewrite E in IH. assert (forall t, counter t ((ty, counter ty (counters s) + 1) :: counters s) <= b + 1) as B' by (intros t; cbn [counter]; pose proof (B t); pose proof (B ty); destruct (bytes_eqb t ty); lia).
    specialize (IH B' ltac:(lia)). destruct (run is s') as [l s2]. destruct IH as [I1 I2].
    assert (forall k, In k (made is l) -> exists t n, k = generated t n /\ counter t (counters s) <= n < b + N.of_nat (S (length is))) as I3.
    { intros k Ik. destruct (I2 k Ik) as (t & n & X & Y). exists t, n. split; [exact X|]. cbn [counter] in Y. destruct (bytes_eqb t ty) eqn:T; [apply eqb_iff in T; subst|]; lia. }
    split; [split; [exact I1|exact I3]|]. pose proof (B ty) as Bt. split.
    - constructor; [|exact I1]. intros Ik. destruct (I2 _ Ik) as (t & n & X & Y). apply generated_inj in X; [|lia|lia]. destruct X as [<- <-]. cbn [counter] in Y. rewrite eqb_refl in Y. lia.
    - intros k [<-|Ik]; [|apply I3; exact Ik]. exists ty, (counter ty (counters s)). split; [reflexivity|lia]. }
  unfold step. destruct (stat s).
  2: { specialize (Skip s eq_refl). destruct (run is s) as [l s2]. destruct i as [ty [lab|]|k oa|a ty|l0|a]; exact Skip. }
  2: { specialize (Skip s eq_refl). destruct (run is s) as [l s2]. destruct i as [ty [lab|]|k oa|a ty|l0|a]; exact Skip. }
  destruct i as [ty lab|k oa|a ty|l0|a].
  - destruct lab as [ [|c lab]|].
    + specialize (Skip s eq_refl). destruct (run is s). exact Skip.
    + destruct (find_by_label (c :: lab) (reg s)); [specialize (Skip s eq_refl); destruct (run is s); exact Skip|]. unfold wait. match goal with |- context [run is ?u] => specialize (Skip u eq_refl); destruct (run is u) end. exact Skip.
    + cbn [made]. destruct (member ty singletons) eqn:M; unfold wait.
      * match goal with |- context [run is ?u] => specialize (Skip u eq_refl); destruct (run is u) end. cbn [made app]. exact Skip.
      * match goal with |- context [run is ?u] => specialize (Take ty u eq_refl); destruct (run is u) end. cbn [made app]. apply Take.
  - destruct (nth_error (pending s) k) as [[ty l]|]; [|specialize (Skip s eq_refl); destruct (run is s); exact Skip]. cbv zeta. destruct oa as [a|].
    + unfold register. cbn [reg]. destruct (add _ _ _); match goal with |- context [run is ?u] => specialize (Skip u eq_refl); destruct (run is u) end; exact Skip.
    + match goal with |- context [run is ?u] => specialize (Skip u eq_refl); destruct (run is u) end; exact Skip.
  - destruct ty as [|c ty]; [specialize (Skip s eq_refl); destruct (run is s); exact Skip|]. destruct (_ && _); [specialize (Skip s eq_refl); destruct (run is s); exact Skip|].
    unfold register. destruct (add _ _ _); match goal with |- context [run is ?u] => specialize (Take (c :: ty) u eq_refl); destruct (run is u) end; cbn [made]; apply Take.
  - destruct (find_by_label l0 (reg s)); match goal with |- context [run is ?u] => specialize (Skip u eq_refl); destruct (run is u) end; exact Skip.
  - destruct (remove_actor a (reg s)) as [[c r]|]; match goal with |- context [run is ?u] => specialize (Skip u eq_refl); destruct (run is u) end; exact Skip.
Qed.
(** The labels that the node makes itself are different from each other, in every history. *)
Theorem C82_made : forall is, N.of_nat (length is) < 10 ^ 20 -> NoDup (made is (fst (run is fresh))).
Proof. intros is L. pose proof (made_ok is fresh 0 (fun t => N.le_refl 0) ltac:(lia)) as H. destruct (run is fresh) as [l s]. apply H. Qed.

(** Types of which there must be one (node.cpp:109-111) have at most one component, in every history in
    which they are asked for without labels and do not come from other processes. *)
Definition single : list (list N) := [[105; 110; 100; 101; 120]; [105; 109; 112; 111; 114; 116; 101; 114]; [97; 114; 99; 104; 105; 118; 101]; [102; 105; 108; 101; 115; 121; 115; 116; 101; 109]; [97; 99; 99; 111; 117; 110; 116; 97; 110; 116]; [101; 114; 97; 115; 101; 114]; [100; 105; 115; 107; 45; 109; 111; 110; 105; 116; 111; 114]; [116; 121; 112; 101; 45; 114; 101; 103; 105; 115; 116; 114; 121]].
Definition lawful (i : input) : Prop := match i with Ask t (Some _) => ~ In t single | Put _ t => ~ In t single | _ => True end.
Lemma single_iff : forall t, member t singletons = true <-> In t single.
Proof.
  intros t. unfold member. rewrite existsb_exists. split.
  - intros (x & I & E). apply eqb_iff in E. subst x. unfold singletons in I. unfold single. cbn [In] in *. tauto.
  - intros I. exists t. split; [|apply eqb_refl]. unfold singletons. unfold single in I. cbn [In] in *. tauto.
Qed.
Lemma not_single : forall t, ~ In t single -> member t singletons = false.
Proof. intros t H. destruct (member t singletons) eqn:E; [|reflexivity]. apply single_iff in E. contradiction. Qed.
Definition own (p : list N * list N) : Prop := member (fst p) singletons = true -> snd p = fst p.
Definition tidy (s : node) : Prop := Forall own (map (fun e => (kind (snd e), fst e)) (reg s)) /\ Forall own (pending s).
Lemma tidy_register : forall l c s, tidy s -> own (kind c, l) -> tidy (snd (register l c s)).
Proof. intros l c s [A B] H. unfold register, add. destruct (find_by_label l (reg s)); [split; assumption|]. split; [|exact B]. cbn [snd reg]. rewrite map_app. apply Forall_app. split; [exact A|]. constructor; [exact H|constructor]. Qed.
Lemma tidy_step : forall i s, lawful i -> tidy s -> tidy (snd (step i s)).
Proof.
  intros i s L T. assert (forall t l u, reg u = reg s -> pending u = pending s -> own (t, l) -> tidy (snd (wait t l u))) as W.
  { intros t l u E F H. destruct T as [A B]. unfold wait, tidy. cbn [snd reg pending]. rewrite E, F. split; [exact A|]. apply Forall_app. split; [exact B|]. constructor; [exact H|constructor]. }
  unfold step. destruct (stat s); [|exact T|exact T]. destruct i as [ty lab|k oa|a ty|l|a]; cbn [lawful] in L.
  - destruct lab as [ [|c l]|]; [exact T| |].
    + destruct (find_by_label (c :: l) (reg s)); [exact T|]. apply not_single in L. apply W; auto. intros M. cbn [fst] in M. congruence.
    + destruct (member ty singletons) eqn:M; apply W; auto; intros X; cbn [fst snd] in *; congruence.
  - destruct (nth_error (pending s) k) as [[ty l]|] eqn:E; [|exact T]. cbv zeta. destruct T as [A B].
    assert (Forall own (firstn k (pending s) ++ skipn (S k) (pending s))) as B'.
    { apply Forall_forall. intros x X. rewrite Forall_forall in B. apply B. rewrite <- (firstn_skipn k (pending s)). apply in_app_iff. apply in_app_iff in X. destruct X as [X|X]; [auto|]. right.
      clear - X. revert X. generalize (pending s). induction k as [|k IH]; intros [|y q] X; cbn in *; auto. }
    destruct oa as [a|]; [|split; assumption]. apply tidy_register; [split; assumption|]. cbn [kind]. rewrite Forall_forall in B. apply B. eapply nth_error_In. exact E.
  - destruct ty as [|c ty]; [exact T|]. destruct (_ && _); [exact T|]. apply tidy_register; [exact T|]. apply not_single in L. intros M. cbn [fst kind] in M. congruence.
  - destruct (find_by_label l (reg s)); [|exact T]. destruct T as [A B]. split; [|exact B]. cbn [snd reg]. rewrite Forall_forall in *. intros x X. apply A. apply in_map_iff in X. destruct X as (e & E & I). apply filter_In in I. apply in_map_iff. exists e. tauto.
  - destruct (remove_actor a (reg s)) as [[c r]|] eqn:R; [|exact T]. destruct T as [A B]. split; [|exact B]. cbn [snd reg]. destruct (removed_actor _ _ _ _ R) as (x & k & y & E & -> & _). rewrite E, map_app in A. cbn [map] in A. rewrite map_app.
    apply Forall_app in A. destruct A as [A1 A2]. inversion A2; subst. apply Forall_app. auto.
Qed.
Theorem C82_once : forall is t, NoDup (actors is) -> ~ In 0 (actors is) -> Forall lawful is -> In t single -> (length (find_by_type t (reg (snd (run is fresh)))) <= 1)%nat.
Proof.
  intros is t N Z F M. apply single_iff in M. destruct (fresh_ok is Z) as (A & G & K). pose proof (run_ok is fresh first A G K N) as H.
  assert (forall is s, Forall lawful is -> tidy s -> tidy (snd (run is s))) as T.
  { clear. induction is as [|i is IH]; intros s F T; [exact T|]. inversion F; subst. cbn [run]. pose proof (tidy_step i s ltac:(assumption) T) as T'. destruct (step i s) as [a s1]. specialize (IH s1 ltac:(assumption) T'). destruct (run is s1). exact IH. }
  assert (tidy fresh) as T0 by (split; [constructor; [intros _; reflexivity|constructor]|constructor]). specialize (T is fresh F T0). destruct (run is fresh) as [l s]. destruct H as (_ & _ & H3 & _). destruct T as [T _]. cbn [snd] in *.
  unfold find_by_type. rewrite map_length. apply (NoDup_filter_map fst (fun e => bytes_eqb (kind (snd e)) t)) in H3.
  assert (forall e, In e (filter (fun e => bytes_eqb (kind (snd e)) t) (reg s)) -> fst e = t) as Q.
  { intros e I. apply filter_In in I. destruct I as [I E]. apply eqb_iff in E. rewrite Forall_forall in T. specialize (T (kind (snd e), fst e)). unfold own in T. cbn [fst snd] in T. rewrite E in T. apply T; [|exact M]. apply in_map_iff. exists e. rewrite E. auto. }
  destruct (filter _ (reg s)) as [|e [|e' r] ]; cbn [length]; [lia|lia|]. exfalso. inversion H3 as [|? ? X Y]; subst. apply X. cbn [map]. left. rewrite (Q e), (Q e'); cbn; auto.
Qed.

(** * What is not so *)
Definition index : list N := [105; 110; 100; 101; 120].
Definition source : list N := [115; 111; 117; 114; 99; 101].
Definition importer : list N := [105; 109; 112; 111; 114; 116; 101; 114].
(** With a label of its own a second component is started of a type of which there must be one. *)
Theorem C82_single_refuted : exists is, NoDup (actors is) /\ In index single /\ find_by_type index (reg (snd (run is fresh))) = [1; 2].
Proof. exists [Ask index None; Started 0 (Some 1); Ask index (Some [120]); Started 0 (Some 2)]. split; [repeat constructor; cbn; intuition discriminate|]. split; [cbn; auto|]. vm_compute. reflexivity. Qed.
(** Other processes can add any number of such components, as they are registered under made labels. *)
Theorem C82_put_refuted : exists is, NoDup (actors is) /\ In importer single /\ find_by_type importer (reg (snd (run is fresh))) = [1; 2].
Proof. exists [Put 1 importer; Put 2 importer]. split; [repeat constructor; cbn; intuition discriminate|]. split; [cbn; auto|]. vm_compute. reflexivity. Qed.
(** A label that a user chose may be one that the node makes later; the component asked for without a
    label is then started and not registered. *)
Theorem C82_made_refuted : exists is, fst (run is fresh) = [Accepted (source ++ [45; 48]); Registered (source ++ [45; 48]) {| actor := 1; kind := source |}; Accepted (source ++ [45; 48]); Refused].
Proof. exists [Ask source (Some (source ++ [45; 48])); Started 0 (Some 1); Ask source None; Started 0 (Some 2)]. vm_compute. reflexivity. Qed.
(** A component that has ended when it is killed, with the note of its end still under way, makes the node
    use a component that does not exist. *)
Theorem C82_kill_refuted : exists is k, NoDup (actors is) /\ is = [Ask source (Some [120]); Started 0 (Some 1); Kill [120]; Down k] /\ k = 1 /\ stat (snd (run is fresh)) = Broken.
Proof. eexists. exists 1. split; [|split; [reflexivity|split; [reflexivity|vm_compute; reflexivity] ] ]. repeat constructor. cbn. tauto. Qed.
(** The node goes on without an essential component that is killed. *)
Theorem C82_core_refuted : exists is, stat (snd (run is fresh)) = Up /\ reg (snd (run is fresh)) = [].
Proof. exists [Kill files]. vm_compute. auto. Qed.

Definition story : list input := [Ask index None; Started 0 (Some 1); Ask source None; Ask source None; Started 1 (Some 2); Started 0 (Some 3); Ask source (Some [120]); Started 0 None; Kill (source ++ [45; 49]); Put 4 source; Down 3].
Example C82_example : NoDup (actors story) /\ ~ In 0 (actors story) /\ find_by_label index (reg (snd (run story fresh))) = Some {| actor := 1; kind := index |} /\
  find_by_type source (reg (snd (run story fresh))) = [4] /\ made story (fst (run story fresh)) = [source ++ [45; 48]; source ++ [45; 49]; source ++ [45; 50] ] /\ stat (snd (run story fresh)) = Up.
Proof. split; [repeat constructor; cbn; intuition discriminate|]. split; [cbn; intuition discriminate|]. vm_compute. auto. Qed.

Example C82_once_example : Forall lawful story /\ In index single /\ find_by_type index (reg (snd (run story fresh))) = [1].
Proof. split; [repeat (apply Forall_cons; [cbn; try exact I; intuition discriminate|]); constructor|]. split; [cbn; auto|reflexivity]. Qed.

Definition assumptions_node := (C82_label, C82_type, C82_core, C82_made, C82_once, C82_single_refuted, C82_put_refuted, C82_made_refuted, C82_kill_refuted, C82_core_refuted).
Print Assumptions assumptions_node.
