(** Proofs about the life of partitions (IndexModel.v). *)
From Coq Require Import List Bool Arith Lia Permutation ZifyBool ZifyNat.
From Verif Require Import IndexModel.
Import ListNotations.
Open Scope nat_scope.

(** * Lists *)

Definition cnt (id : nat) (l : list nat) : nat := length (filter (Nat.eqb id) l).
Lemma cnt_app : forall id a b, cnt id (a ++ b) = cnt id a + cnt id b.
Proof. intros. unfold cnt. now rewrite filter_app, app_length. Qed.
Lemma cnt_one : forall id x, cnt id [x] = if id =? x then 1 else 0.
Proof. intros. unfold cnt. cbn. now destruct (id =? x). Qed.
Lemma cnt_In : forall id l, In id l <-> 0 < cnt id l.
Proof.
  intros id l. unfold cnt. split.
  - intros H. assert (X : In id (filter (Nat.eqb id) l)) by (apply filter_In; split; [exact H|apply Nat.eqb_refl]).
    destruct (filter (Nat.eqb id) l); [contradiction|cbn; lia].
  - intros H. destruct (filter (Nat.eqb id) l) as [|x xs] eqn:E; [cbn in H; lia|]. assert (X : In x (x :: xs)) by (now left).
    rewrite <- E in X. apply filter_In in X as [X Y]. apply Nat.eqb_eq in Y. now subst.
Qed.
Lemma has_In : forall id l, has id l = true <-> In id l.
Proof.
  intros id l. unfold has. rewrite existsb_exists. split; [intros (x & H & E); apply Nat.eqb_eq in E; now subst|].
  intros H. exists id. split; [exact H|apply Nat.eqb_refl].
Qed.
Lemma has_cnt : forall id l, has id l = (0 <? cnt id l).
Proof. intros id l. apply eq_true_iff_eq. rewrite has_In, cnt_In. symmetry. apply Nat.ltb_lt. Qed.
Lemma cnt_drop_same : forall id l, cnt id (drop id l) = 0.
Proof.
  intros id l. unfold cnt, drop. induction l as [|x l IH]; [reflexivity|]. cbn [filter]. destruct (Nat.eqb_spec x id) as [->|N]; cbn [negb]; [exact IH|].
  cbn [filter]. destruct (Nat.eqb_spec id x); [congruence|exact IH].
Qed.
Lemma cnt_drop_other : forall id j l, id <> j -> cnt id (drop j l) = cnt id l.
Proof.
  intros id j l D. unfold cnt, drop. induction l as [|x l IH]; [reflexivity|]. cbn [filter]. destruct (Nat.eqb_spec x j) as [->|N]; cbn [negb].
  - rewrite IH. destruct (Nat.eqb_spec id j); [contradiction|reflexivity].
  - cbn [filter]. destruct (id =? x); cbn [length]; now rewrite IH.
Qed.
Lemma cnt_insert_other : forall id j l, id <> j -> cnt id (insert j l) = cnt id l.
Proof.
  intros id j l D. unfold insert. destruct (has j l); [reflexivity|]. rewrite cnt_app, cnt_one. destruct (Nat.eqb_spec id j); [contradiction|lia].
Qed.
Lemma cnt_insert_same : forall id l, cnt id l <= 1 -> cnt id (insert id l) = 1.
Proof.
  intros id l H. unfold insert. rewrite has_cnt. destruct (Nat.ltb_spec 0 (cnt id l)) as [L|L]; [lia|]. rewrite cnt_app, cnt_one, Nat.eqb_refl. lia.
Qed.
Lemma take_spec : forall id l r, take id l = Some r -> cnt id l = S (cnt id r) /\ forall j, j <> id -> cnt j l = cnt j r.
Proof.
  intros id. induction l as [|x l IH]; intros r H; [discriminate|]. cbn [take] in H. destruct (Nat.eqb_spec id x) as [->|N].
  - injection H as <-. split.
    + unfold cnt. cbn [filter]. now rewrite Nat.eqb_refl.
    + intros j D. unfold cnt. cbn [filter]. now destruct (Nat.eqb_spec j x).
  - destruct (take id l) as [t|]; [|discriminate]. injection H as <-. destruct (IH t eq_refl) as [A B]. split.
    + unfold cnt in *. cbn [filter]. destruct (Nat.eqb_spec id x); [contradiction|exact A].
    + intros j D. specialize (B j D). unfold cnt in *. cbn [filter]. destruct (j =? x); cbn [length]; lia.
Qed.
Lemma take_none : forall id l, take id l = None -> cnt id l = 0.
Proof.
  intros id. induction l as [|x l IH]; intros H; [reflexivity|]. cbn [take] in H. destruct (Nat.eqb_spec id x) as [->|N]; [discriminate|].
  destruct (take id l); [discriminate|]. unfold cnt in *. cbn [filter]. destruct (Nat.eqb_spec id x); [contradiction|auto].
Qed.
Lemma put_same : forall A (f : nat -> A) k v, put f k v k = v.
Proof. intros. unfold put. now rewrite Nat.eqb_refl. Qed.
Lemma put_other : forall A (f : nat -> A) k v i, i <> k -> put f k v i = f i.
Proof. intros. unfold put. destruct (Nat.eqb_spec i k); congruence. Qed.

(** * What the system knows about a partition *)

Definition mcs (id : nat) (m : mmsg) : list (list (nat * nat)) := match m with MMerge i c => if id =? i then [c] else [] | _ => [] end.
Definition ers (id : nat) (m : mmsg) : list unit := match m with MErase i => if id =? i then [tt] else [] | _ => [] end.
Definition mds (id : nat) (m : bmsg) : list unit := match m with BMerged i => if id =? i then [tt] else [] | _ => [] end.
Definition eds (id : nat) (m : bmsg) : list unit := match m with BErased i => if id =? i then [tt] else [] | _ => [] end.
Definition kcs (id : nat) (e : nat * list (nat * nat)) : list (list (nat * nat)) := if id =? fst e then [snd e] else [].

Record view := { v_part : part; v_active : bool; v_fresh : bool; v_file : option (list (nat * nat));
  v_unp : nat; v_per : nat; v_rep : nat; v_unl : nat;
  v_mc : list (list (nat * nat)); v_md : list unit; v_er : list unit; v_ed : list unit; v_kc : list (list (nat * nat)) }.
Definition look_at {Q} (st : idx Q) (id : nat) : view :=
  {| v_part := x_parts st id; v_active := match x_active st with Some (a, _) => a =? id | None => false end;
     v_fresh := x_next st <=? id; v_file := x_file st id; v_unp := cnt id (x_unpersisted st); v_per := cnt id (x_persisted st);
     v_rep := cnt id (x_replies st); v_unl := cnt id (x_unlink st); v_mc := flat_map (mcs id) (x_mbox st); v_md := flat_map (mds id) (x_bbox st);
     v_er := flat_map (ers id) (x_mbox st); v_ed := flat_map (eds id) (x_bbox st); v_kc := flat_map (kcs id) (x_known st) |}.
(** The table of what is true of a partition, by its progress. *)
Definition nowhere (v : view) : Prop :=
  v_unp v = 0 /\ v_per v = 0 /\ v_rep v = 0 /\ v_unl v = 0 /\ v_mc v = [] /\ v_md v = [] /\ v_er v = [] /\ v_ed v = [] /\ v_kc v = [].
Definition ok_view (v : view) : Prop :=
  let p := v_part v in let c := p_got p in
  (p_open p = match p_progress p with Feeding => true | _ => false end) /\
  (v_active v = match p_progress p with Feeding => true | _ => false end) /\
  (v_fresh v = match p_progress p with Fresh => true | _ => false end) /\
  match p_progress p with
  | Feeding | Asked => True
  | _ => p_queue p = []
  end /\
  match p_progress p with
  | Fresh => c = [] /\ v_file v = None /\ nowhere v
  | Feeding => v_file v = None /\ nowhere v
  | Asked => v_file v = None /\ v_unp v = 1 /\ v_per v = 0 /\ v_rep v = 0 /\ v_unl v = 0 /\ v_mc v = [] /\ v_md v = [] /\ v_er v = [] /\ v_ed v = [] /\ v_kc v = []
  | Written => v_file v = Some c /\ v_unp v = 1 /\ v_per v = 0 /\ v_rep v = 1 /\ v_unl v = 0 /\ v_mc v = [] /\ v_md v = [] /\ v_er v = [] /\ v_ed v = [] /\ v_kc v = []
  | Merging => v_file v = Some c /\ v_unp v = 1 /\ v_per v = 0 /\ v_rep v = 0 /\ v_unl v = 0 /\ v_er v = [] /\ v_ed v = [] /\
      ((v_mc v = [c] /\ v_md v = [] /\ v_kc v = []) \/ (v_mc v = [] /\ v_md v = [tt] /\ v_kc v = [c]))
  | Settled => v_file v = Some c /\ v_unp v = 0 /\ v_per v = 1 /\ v_rep v = 0 /\ v_unl v = 0 /\ v_mc v = [] /\ v_md v = [] /\ v_er v = [] /\ v_ed v = [] /\ v_kc v = [c]
  | Erasing => v_file v = Some c /\ v_unp v = 0 /\ v_per v = 1 /\ v_rep v = 0 /\ v_unl v = 0 /\ v_mc v = [] /\ v_md v = [] /\
      ((v_er v = [tt] /\ v_ed v = [] /\ v_kc v = [c]) \/ (v_er v = [] /\ v_ed v = [tt] /\ v_kc v = []))
  | Unlinking => v_file v = Some c /\ v_unp v = 0 /\ v_per v = 0 /\ v_rep v = 0 /\ v_unl v = 1 /\ v_mc v = [] /\ v_md v = [] /\ v_er v = [] /\ v_ed v = [] /\ v_kc v = []
  | Gone => v_file v = None /\ nowhere v
  | Lost => c = [] /\ nowhere v
  end.

Definition with_part (v : view) (p : part) : view :=
  {| v_part := p; v_active := v_active v; v_fresh := v_fresh v; v_file := v_file v; v_unp := v_unp v; v_per := v_per v; v_rep := v_rep v;
     v_unl := v_unl v; v_mc := v_mc v; v_md := v_md v; v_er := v_er v; v_ed := v_ed v; v_kc := v_kc v |}.
Ltac simpl_view := cbn [look_at v_part v_active v_fresh v_file v_unp v_per v_rep v_unl v_mc v_md v_er v_ed v_kc] in *.

Section Index.
Context {Q : Type} (hits : Q -> nat * nat -> bool) (look : Q -> list (nat * nat) -> bool) (capacity : nat).
Hypothesis look_sound : forall q c x, In x c -> hits q x = true -> look q c = true.
Notation idx := (idx Q).
Implicit Types st : idx.

Definition is_lost (g : progress) : bool := match g with Erasing | Unlinking | Gone => true | _ => false end.
Definition total st : list (nat * nat) := x_central st ++ flat_map (fun i => p_got (x_parts st i) ++ p_queue (x_parts st i)) (seq 0 (x_next st)).
Definition listed st (id : nat) : Prop := In id (last (x_state_file st :: x_writes st) []).
(** A lookup: everything assigned when it started is still assigned; and unless its
    partition was erased, the partition is a candidate. *)
Definition ok_lookup st (k : nat) : Prop :=
  match nth_error (x_lookups st) k with
  | None => x_found st k = None /\ ~ In (MLookup k) (x_mbox st) /\ (forall ids, ~ In (BFound k ids) (x_bbox st))
  | Some (q, first) =>
    (forall c, x_found st k = Some c -> NoDup c /\ forall id, In id first -> In id c) /\
    forall id x, In x (g_then st k id) -> In x (assigned st id) /\
      (is_lost (p_progress (x_parts st id)) = true \/ In id first \/
       ((In (MLookup k) (x_mbox st) -> p_progress (x_parts st id) = Settled) /\
        (forall ids, In (BFound k ids) (x_bbox st) -> hits q x = true -> In id ids) /\
        (forall c, x_found st k = Some c -> hits q x = true -> In id c)))
  end.
Record inv st : Prop := {
  i_views : forall id, ok_view (look_at st id);
  i_active : forall id cap, x_active st = Some (id, cap) -> cap <= capacity;
  i_central : x_active st = None -> x_central st = [];
  i_total : Permutation (g_in st) (total st);
  i_cached : forall id, In id (x_cached st) -> In id (x_persisted st);
  i_listed : forall id, In id (x_persisted st) \/ In id (x_unpersisted st) -> listed st id;
  i_down : x_down st = true -> last (x_state_file st :: x_writes st) [] = x_persisted st ++ x_unpersisted st;
  i_lookups : forall k, ok_lookup st k }.

Lemma progress_fresh : forall st id, inv st -> (p_progress (x_parts st id) = Fresh <-> x_next st <= id).
Proof.
  intros st id V. destruct (i_views st V id) as (_ & _ & F & _). cbn [look_at v_fresh v_part] in F.
  destruct (p_progress (x_parts st id)); rewrite ?Nat.leb_le, ?Nat.leb_gt in F; split; intros; try discriminate; try lia; auto.
Qed.
Lemma active_feeding : forall st id cap, inv st -> x_active st = Some (id, cap) -> p_progress (x_parts st id) = Feeding /\ p_open (x_parts st id) = true.
Proof.
  intros st id cap V A. destruct (i_views st V id) as (O & B & _). cbn [look_at v_active v_part] in O, B. rewrite A, Nat.eqb_refl in B.
  destruct (p_progress (x_parts st id)); try discriminate. auto.
Qed.
Lemma feeding_active : forall st id, inv st -> p_progress (x_parts st id) = Feeding \/ p_open (x_parts st id) = true -> exists cap, x_active st = Some (id, cap).
Proof.
  intros st id V H. destruct (i_views st V id) as (O & B & _). cbn [look_at v_active v_part] in O, B.
  assert (P : p_progress (x_parts st id) = Feeding) by (destruct H as [H|H]; [exact H|]; rewrite H in O; now destruct (p_progress (x_parts st id))).
  rewrite P in B. destruct (x_active st) as [[a cap]|]; [|discriminate]. apply Nat.eqb_eq in B. subst. eauto.
Qed.
Lemma next_active : forall st id cap, inv st -> x_active st = Some (id, cap) -> id < x_next st.
Proof.
  intros st id cap V A. destruct (active_feeding st id cap V A) as [P _]. destruct (le_lt_dec (x_next st) id) as [L|L]; [|exact L].
  apply (progress_fresh st id V) in L. congruence.
Qed.

(** Lookups after a step that leaves lookups and the meta index alone. *)
Lemma lookup_frame : forall st st' k, x_lookups st' = x_lookups st -> x_found st' = x_found st -> g_then st' = g_then st ->
  (In (MLookup k) (x_mbox st') -> In (MLookup k) (x_mbox st)) -> (forall ids, In (BFound k ids) (x_bbox st') -> In (BFound k ids) (x_bbox st)) ->
  (forall id x, In x (assigned st id) -> In x (assigned st' id)) ->
  (forall id, (is_lost (p_progress (x_parts st id)) = true -> is_lost (p_progress (x_parts st' id)) = true) /\
     (p_progress (x_parts st id) = Settled -> p_progress (x_parts st' id) = Settled \/ is_lost (p_progress (x_parts st' id)) = true)) ->
  ok_lookup st k -> ok_lookup st' k.
Proof.
  intros st st' k L F T M B A P H. unfold ok_lookup in *. rewrite L, F, T. destruct (nth_error (x_lookups st) k) as [[q first]|].
  - destruct H as (H1 & H2). split; [exact H1|]. intros id x X. destruct (H2 id x X) as (H3 & H4). split; [auto|].
    destruct (P id) as [P1 P2]. destruct H4 as [H4|[H4|(H4 & H5 & H6)]]; [left; auto|right; now left|].
    destruct (is_lost (p_progress (x_parts st' id))) eqn:E; [now left|]. right. right. split; [|split]; auto.
    intros Y. destruct (P2 (H4 (M Y))) as [Z|Z]; [exact Z|congruence].
  - destruct H as (H1 & H2 & H3). split; [exact H1|]. split; [auto|]. intros ids X. apply (H3 ids). auto.
Qed.

Lemma view_frame : forall st st' id, look_at st' id = look_at st id -> ok_view (look_at st id) -> ok_view (look_at st' id).
Proof. intros st st' id ->. auto. Qed.

Lemma not_feeding : forall st id, inv st -> (forall cap, x_active st <> Some (id, cap)) -> p_open (x_parts st id) = false.
Proof.
  intros st id V N. destruct (p_open (x_parts st id)) eqn:E; [|reflexivity]. destruct (feeding_active st id V (or_intror E)) as [cap A]. now destruct (N cap).
Qed.

(** * Importing *)

(** Only the active partition grows, by what is in the buffer. *)
Lemma fan_out_part : forall st id, inv st -> x_parts (fan_out st) id =
  match x_active st with Some (a, _) => if id =? a then feed (x_parts st id) (x_central st) else x_parts st id | None => x_parts st id end.
Proof.
  intros st id V. unfold fan_out. destruct (x_active st) as [[a cap]|] eqn:A; [|reflexivity]. cbn [x_parts].
  destruct (Nat.eqb_spec id a) as [->|D].
  - destruct (active_feeding st a cap V A) as [_ ->]. reflexivity.
  - rewrite (not_feeding st id V); [reflexivity|]. intros c E. rewrite A in E. injection E as <- <-. contradiction.
Qed.

Lemma flat_map_change : forall A (f g : nat -> list A) n a s, a < n -> (forall i, i <> a -> f i = g i) -> f a = g a ++ s ->
  Permutation (flat_map f (seq 0 n)) (flat_map g (seq 0 n) ++ s).
Proof.
  intros A f g n a s L O E. replace n with (a + S (n - S a)) by lia. rewrite seq_app, !flat_map_app. cbn [seq flat_map Nat.add].
  assert (X : forall b m, (forall i, b <= i -> i < b + m -> i <> a) -> flat_map f (seq b m) = flat_map g (seq b m)).
  { intros b m. revert b. induction m as [|m IH]; intros b H; [reflexivity|]. cbn [seq flat_map]. rewrite (O b), (IH (S b)); [reflexivity| |]; [|apply (H b); lia]. intros i; intros; apply H; lia. }
  rewrite (X 0 a) by (intros; lia). rewrite (X (S a)) by (intros; lia). rewrite E, <- !app_assoc.
  apply Permutation_app_head. apply Permutation_app_head. apply Permutation_app_comm.
Qed.
Lemma flat_map_same : forall A (f g : nat -> list A) n, (forall i, i < n -> f i = g i) -> flat_map f (seq 0 n) = flat_map g (seq 0 n).
Proof.
  intros A f g n H. assert (X : forall l, (forall i, In i l -> f i = g i) -> flat_map f l = flat_map g l).
  { induction l as [|x l IH]; intros K; [reflexivity|]. cbn [flat_map]. rewrite (K x (or_introl eq_refl)), IH; [reflexivity|]. intros i I. apply K. now right. }
  apply X. intros i I. apply H. apply in_seq in I. lia.
Qed.

Lemma fan_out_assigned : forall st id, inv st -> assigned (fan_out st) id = assigned st id.
Proof.
  intros st id V. unfold assigned. rewrite (fan_out_part st id V). unfold fan_out. destruct (x_active st) as [[a cap]|] eqn:A; [|reflexivity].
  cbn [x_central]. destruct (Nat.eqb_spec id a) as [->|D].
  - cbn [feed p_got p_queue p_open]. destruct (active_feeding st a cap V A) as [_ ->]. now rewrite app_nil_r.
  - rewrite (not_feeding st id V); [reflexivity|]. intros c E. rewrite A in E. injection E as <- <-. contradiction.
Qed.

Lemma fan_out_fields : forall st, x_active (fan_out st) = x_active st /\ x_unpersisted (fan_out st) = x_unpersisted st /\ x_persisted (fan_out st) = x_persisted st /\ x_cached (fan_out st) = x_cached st /\ x_next (fan_out st) = x_next st /\ x_known (fan_out st) = x_known st /\ x_mbox (fan_out st) = x_mbox st /\ x_bbox (fan_out st) = x_bbox st /\ x_replies (fan_out st) = x_replies st /\ x_unlink (fan_out st) = x_unlink st /\ x_file (fan_out st) = x_file st /\ x_state_file (fan_out st) = x_state_file st /\ x_writes (fan_out st) = x_writes st /\ x_lookups (fan_out st) = x_lookups st /\ x_found (fan_out st) = x_found st /\ x_down (fan_out st) = x_down st /\ g_in (fan_out st) = g_in st /\ g_then (fan_out st) = g_then st.
Proof. intros st. unfold fan_out. destruct (x_active st) eqn:E; repeat split; auto. Qed.
Lemma inv_fan_out : forall st, inv st -> inv (fan_out st).
Proof.
  intros st V. destruct (x_active st) as [[a cap]|] eqn:A.
  2:{ unfold fan_out. now rewrite A. }
  pose proof (fan_out_part st) as F. pose proof (fan_out_assigned st) as G.
  assert (P : forall id, p_progress (x_parts (fan_out st) id) = p_progress (x_parts st id)).
  { intros id. rewrite (F id V), A. now destruct (id =? a). }
  destruct (fan_out_fields st) as (F0 & F1 & F2 & F3 & F4 & F5 & F6 & F7 & F8 & F9 & F10 & F11 & F12 & F13 & F14 & F15 & F16 & F17).
  constructor.
  - intros id. destruct (Nat.eqb_spec id a) as [->|D].
    + pose proof (i_views st V a) as W. destruct (active_feeding st a cap V A) as [P1 P2]. assert (K : look_at (fan_out st) a = with_part (look_at st a) (feed (x_parts st a) (x_central st))).
      { unfold look_at, with_part. rewrite (F a V), A, Nat.eqb_refl. unfold fan_out. rewrite ?A. cbn. rewrite ?A, ?Nat.eqb_refl. reflexivity. }
      rewrite K. unfold ok_view, nowhere, with_part in *. simpl_view. cbn [feed p_open p_progress p_got p_queue]. rewrite P1, P2 in *. exact W.
    + apply (view_frame st); [|apply (i_views st V)]. unfold look_at. rewrite (F id V), A. destruct (Nat.eqb_spec id a); [contradiction|].
      unfold fan_out. rewrite ?A. cbn. rewrite ?A. reflexivity.
  - intros id c. rewrite F0. apply (i_active st V).
  - intros E. rewrite F0, A in E. discriminate.
  - unfold total. assert (X : x_central (fan_out st) = []) by (unfold fan_out; rewrite A; auto).
    rewrite X, F16, F4. cbn [app]. rewrite (i_total st V). unfold total. rewrite (Permutation_app_comm (x_central st)). symmetry.
    apply flat_map_change with (a := a); [now apply (next_active st a cap)| |].
    + intros i D. rewrite (F i V), A. now destruct (Nat.eqb_spec i a).
    + rewrite (F a V), A, Nat.eqb_refl. cbn [feed p_got p_queue]. now rewrite app_assoc.
  - rewrite F3, F2. apply (i_cached st V).
  - unfold listed. rewrite F1, F2, F11, F12. apply (i_listed st V).
  - rewrite F1, F2, F11, F12, F15. apply (i_down st V).
  - intros k. apply (lookup_frame st); try assumption; rewrite ?F6, ?F7; auto; [| |apply (i_lookups st V)].
    + intros id x. now rewrite G.
    + intros id. rewrite P. auto.
Qed.

Lemma last_snoc : forall A (a : A) l y d, last (a :: l ++ [y]) d = y.
Proof. intros. rewrite app_comm_cons. apply last_last. Qed.

(** The active partition is closed and asked to persist, and the state written. *)
Definition retired st (a : nat) : part :=
  let p := x_parts st a in {| p_open := false; p_queue := p_queue p ++ x_central st; p_got := p_got p; p_progress := Asked |}.
Lemma inv_retire : forall st, inv st -> inv (flush_to_disk (decommission st)).
Proof.
  intros st V. destruct (x_active st) as [[a cap]|] eqn:A.
  - pose proof (inv_fan_out st V) as V1. destruct (fan_out_fields st) as (F0 & _). rewrite A in F0.
    assert (C : x_central (fan_out st) = []) by (unfold fan_out; rewrite A; reflexivity).
    unfold decommission. rewrite A. set (st1 := fan_out st) in *. clearbody st1.
    destruct (active_feeding st1 a cap V1 F0) as [P1 P2]. pose proof (i_views st1 V1 a) as W.
    assert (U : cnt a (x_unpersisted st1) = 0).
    { unfold ok_view, nowhere in W. simpl_view. rewrite P1 in W. apply W. }
    constructor; unfold flush_to_disk; cbn [x_active x_unpersisted x_persisted x_cached x_central x_next x_parts x_known x_mbox x_bbox x_replies x_unlink x_file x_state_file x_writes x_lookups x_found x_down g_in g_then].
    + intros id. destruct (Nat.eq_dec id a) as [->|D].
      * unfold ok_view, nowhere in *. simpl_view. cbn [x_active x_unpersisted x_persisted x_cached x_central x_next x_parts x_known x_mbox x_bbox x_replies x_unlink x_file].
        rewrite put_same. cbn [p_open p_progress p_got p_queue]. rewrite P1 in W. rewrite cnt_insert_same by lia. intuition.
      * apply (view_frame st1); [|apply (i_views st1 V1)]. unfold look_at. cbn [x_active x_unpersisted x_persisted x_cached x_central x_next x_parts x_known x_mbox x_bbox x_replies x_unlink x_file].
        rewrite put_other, cnt_insert_other by exact D. rewrite F0. destruct (Nat.eqb_spec a id); [congruence|reflexivity].
    + intros; discriminate.
    + auto.
    + eapply Permutation_trans; [apply (i_total st1 V1)|]. unfold total. cbn [x_central x_parts x_next]. rewrite C. cbn [app].
      erewrite flat_map_same; [apply Permutation_refl|]. intros i L. cbn. destruct (Nat.eq_dec i a) as [->|D]; [now rewrite put_same|now rewrite put_other].
    + apply (i_cached st1 V1).
    + intros id H. unfold listed. cbn [x_state_file x_writes x_persisted x_unpersisted]. rewrite last_snoc. apply in_or_app. exact H.
    + intros _. now rewrite last_snoc.
    + intros k. apply (lookup_frame st1); cbn [x_active x_unpersisted x_persisted x_cached x_central x_next x_parts x_known x_mbox x_bbox x_replies x_unlink x_file x_state_file x_writes x_lookups x_found x_down g_in g_then]; auto; [| |apply (i_lookups st1 V1)].
      * intros id x. unfold assigned. cbn [x_parts x_central]. rewrite C. destruct (Nat.eq_dec id a) as [->|D]; [rewrite put_same; cbn [p_got p_queue p_open]; now destruct (p_open _)|now rewrite put_other].
      * intros id. destruct (Nat.eq_dec id a) as [->|D]; [rewrite put_same, P1; cbn; split; intros; discriminate|rewrite put_other by exact D; auto].
  - unfold decommission. rewrite A. destruct V as [V1 V2 V3 V4 V5 V6 V7 V8].
    constructor; unfold flush_to_disk; cbn [x_active x_unpersisted x_persisted x_cached x_central x_next x_parts x_known x_mbox x_bbox x_replies x_unlink x_file x_state_file x_writes x_lookups x_found x_down g_in g_then]; auto.
    + intros id H. unfold listed. cbn [x_state_file x_writes x_persisted x_unpersisted]. rewrite last_snoc. apply in_or_app. exact H.
    + intros _. now rewrite last_snoc.
Qed.
Lemma retire_active : forall st, x_active (flush_to_disk (decommission st)) = None.
Proof. intros st. unfold flush_to_disk, decommission. cbn [x_active]. destruct (x_active st) as [[a cap]|] eqn:A; [reflexivity|exact A]. Qed.

Ltac fields := cbn [x_active x_unpersisted x_persisted x_cached x_central x_next x_parts x_known x_mbox x_bbox x_replies x_unlink x_file x_state_file x_writes x_lookups x_found x_down g_in g_then].
Lemma inv_create : forall st, inv st -> x_active st = None -> inv (create_active_partition capacity st).
Proof.
  intros st V A. pose proof (i_views st V (x_next st)) as W.
  assert (P : p_progress (x_parts st (x_next st)) = Fresh) by (apply (progress_fresh st); auto).
  constructor; unfold create_active_partition; fields.
  - intros id. destruct (Nat.eq_dec id (x_next st)) as [->|D].
    + unfold ok_view, nowhere in *. simpl_view. fields. rewrite put_same. cbn [p_open p_progress p_got p_queue]. rewrite P in W. rewrite Nat.eqb_refl. intuition. apply Nat.leb_gt. lia.
    + apply (view_frame st); [|apply (i_views st V)]. unfold look_at. fields. rewrite put_other by exact D. rewrite A. destruct (Nat.eqb_spec (x_next st) id); [congruence|].
      replace (S (x_next st) <=? id) with (x_next st <=? id); [reflexivity|]. apply eq_true_iff_eq. rewrite !Nat.leb_le. lia.
  - intros id cap E. injection E as <- <-. lia.
  - discriminate.
  - eapply Permutation_trans; [apply (i_total st V)|]. unfold total. fields. apply Permutation_app_head. rewrite seq_S, flat_map_app. cbn [flat_map Nat.add]. rewrite put_same. cbn [p_got p_queue app]. rewrite app_nil_r.
    erewrite flat_map_same; [apply Permutation_refl|]. intros i L. cbn. rewrite put_other by lia. reflexivity.
  - apply (i_cached st V).
  - apply (i_listed st V).
  - apply (i_down st V).
  - intros k. assert (B : p_got (x_parts st (x_next st)) = [] /\ p_queue (x_parts st (x_next st)) = [] /\ p_open (x_parts st (x_next st)) = false).
    { unfold ok_view, nowhere in W. simpl_view. rewrite P in W. intuition. }
    apply (lookup_frame st); fields; auto; [| |apply (i_lookups st V)].
    + intros id x. unfold assigned. fields. destruct (Nat.eq_dec id (x_next st)) as [->|D]; [|now rewrite put_other].
      destruct B as (-> & -> & ->). intros [].
    + intros id. destruct (Nat.eq_dec id (x_next st)) as [->|D]; [rewrite P; cbn; split; intros; discriminate|rewrite put_other by exact D; auto].
Qed.
Lemma inv_push : forall st s id cap cap', inv st -> x_active st = Some (id, cap) -> cap' <= capacity -> inv (push st s cap' id).
Proof.
  intros st s a cap cap' V A L. constructor; unfold push; fields.
  - intros id. apply (view_frame st); [|apply (i_views st V)]. unfold look_at. fields. now rewrite A.
  - intros i c E. injection E as <- <-. exact L.
  - discriminate.
  - eapply Permutation_trans; [apply Permutation_app_tail; apply (i_total st V)|]. unfold total. fields. rewrite <- !app_assoc. apply Permutation_app_head. apply Permutation_app_comm.
  - apply (i_cached st V).
  - apply (i_listed st V).
  - apply (i_down st V).
  - intros k. apply (lookup_frame st); fields; auto; [|apply (i_lookups st V)].
    intros id x. unfold assigned. fields. rewrite !in_app_iff. destruct (p_open (x_parts st id)); [|tauto]. rewrite in_app_iff. tauto.
Qed.
Lemma inv_import : forall st s, inv st -> exists st', import capacity st s = Some st' /\ inv st'.
Proof.
  intros st s V. unfold import. destruct (x_active st) as [[a cap]|] eqn:A.
  - destruct (Nat.ltb_spec cap (rows s)) as [L|L].
    + pose proof (inv_create _ (inv_retire st V) (retire_active st)) as V1. unfold create_active_partition at 1. cbn [x_active]. rewrite Nat.eqb_refl. cbn [andb].
      destruct (Nat.ltb_spec capacity (rows s)) as [M|M].
      * eexists. split; [reflexivity|]. eapply inv_push; [exact V1|reflexivity|lia].
      * destruct (Nat.leb_spec (rows s) capacity); [|lia]. eexists. split; [reflexivity|]. eapply inv_push; [exact V1|reflexivity|lia].
    + rewrite A. pose proof (i_active st V a cap A) as C. destruct (Nat.ltb_spec cap (rows s)); [lia|]. rewrite andb_false_r. destruct (Nat.leb_spec (rows s) cap); [|lia].
      eexists. split; [reflexivity|]. eapply inv_push; [exact V|exact A|lia].
  - pose proof (inv_create _ V A) as V1. unfold create_active_partition at 1. cbn [x_active]. rewrite Nat.eqb_refl. cbn [andb].
    destruct (Nat.ltb_spec capacity (rows s)) as [M|M].
    + eexists. split; [reflexivity|]. eapply inv_push; [exact V1|reflexivity|lia].
    + destruct (Nat.leb_spec (rows s) capacity); [|lia]. eexists. split; [reflexivity|]. eapply inv_push; [exact V1|reflexivity|lia].
Qed.

(** * Steps of one partition *)

Lemma inv_one : forall st st' a, inv st ->
  x_active st' = x_active st -> x_central st' = x_central st -> x_next st' = x_next st -> g_in st' = g_in st ->
  x_state_file st' = x_state_file st -> x_writes st' = x_writes st ->
  (forall id, id <> a -> look_at st' id = look_at st id) -> ok_view (look_at st' a) ->
  p_got (x_parts st' a) ++ p_queue (x_parts st' a) = p_got (x_parts st a) ++ p_queue (x_parts st a) ->
  (forall id, In id (x_cached st') -> In id (x_persisted st')) ->
  (forall id, In id (x_persisted st') \/ In id (x_unpersisted st') -> In id (x_persisted st) \/ In id (x_unpersisted st)) ->
  (x_down st' = true -> x_down st = true /\ x_persisted st' ++ x_unpersisted st' = x_persisted st ++ x_unpersisted st) ->
  (forall k, ok_lookup st' k) -> inv st'.
Proof.
  intros st st' a V E1 E2 E3 E4 E5 E6 O W T C L D K. constructor.
  - intros id. destruct (Nat.eq_dec id a) as [->|N]; [exact W|]. rewrite (O id N). apply (i_views st V).
  - rewrite E1. apply (i_active st V).
  - rewrite E1, E2. apply (i_central st V).
  - rewrite E4. eapply Permutation_trans; [apply (i_total st V)|]. unfold total. rewrite E2, E3. apply Permutation_app_head.
    erewrite flat_map_same; [apply Permutation_refl|]. intros i _. cbn. destruct (Nat.eq_dec i a) as [->|N]; [now rewrite T|].
    specialize (O i N). apply (f_equal v_part) in O. simpl_view. now rewrite O.
  - exact C.
  - intros id H. unfold listed. rewrite E5, E6. apply (i_listed st V). auto.
  - intros H. rewrite E5, E6. destruct (D H) as [H1 ->]. now apply (i_down st V).
  - exact K.
Qed.
Lemma lookup_one : forall st st' a k, inv st -> ok_view (look_at st' a) -> (forall id, id <> a -> look_at st' id = look_at st id) ->
  x_active st' = x_active st -> x_central st' = x_central st ->
  p_got (x_parts st' a) ++ p_queue (x_parts st' a) = p_got (x_parts st a) ++ p_queue (x_parts st a) ->
  (is_lost (p_progress (x_parts st a)) = true -> is_lost (p_progress (x_parts st' a)) = true) ->
  (p_progress (x_parts st a) = Settled -> p_progress (x_parts st' a) = Settled \/ is_lost (p_progress (x_parts st' a)) = true) ->
  x_lookups st' = x_lookups st -> x_found st' = x_found st -> g_then st' = g_then st ->
  (In (MLookup k) (x_mbox st') -> In (MLookup k) (x_mbox st)) -> (forall ids, In (BFound k ids) (x_bbox st') -> In (BFound k ids) (x_bbox st)) ->
  ok_lookup st' k.
Proof.
  intros st st' a k V W O A C T P1 P2 L F G M B.
  assert (Q1 : forall id, id <> a -> x_parts st' id = x_parts st id).
  { intros id N. specialize (O id N). now apply (f_equal v_part) in O. }
  assert (Q2 : p_open (x_parts st' a) = p_open (x_parts st a)).
  { pose proof (i_views st V a) as W0. destruct W as (W1 & W2 & _), W0 as (W3 & W4 & _). simpl_view. rewrite W1, W3, <- W2, <- W4, A. reflexivity. }
  apply (lookup_frame st); auto; [| |apply (i_lookups st V)].
  - intros id x. unfold assigned. rewrite C. destruct (Nat.eq_dec id a) as [->|N]; [|now rewrite (Q1 id N)]. rewrite Q2, !app_assoc, T. auto.
  - intros id. destruct (Nat.eq_dec id a) as [->|N]; [auto|]. rewrite (Q1 id N). auto.
Qed.

Lemma inv_deliver : forall st a, inv st -> inv (deliver st a).
Proof.
  intros st a V. unfold deliver. destruct (p_queue (x_parts st a)) as [|s q] eqn:E; [exact V|].
  pose proof (i_views st V a) as W.
  set (st' := set_part st a _).
  assert (O : forall id, id <> a -> look_at st' id = look_at st id).
  { intros id N. unfold look_at, st', set_part. fields. now rewrite put_other. }
  assert (X : x_parts st' a = {| p_open := p_open (x_parts st a); p_queue := q; p_got := p_got (x_parts st a) ++ [s]; p_progress := p_progress (x_parts st a) |}) by (apply put_same).
  assert (Y : ok_view (look_at st' a)).
  { unfold ok_view, nowhere in *. simpl_view. rewrite X. cbn [p_open p_queue p_got p_progress]. unfold st', set_part. fields. rewrite E in W.
    destruct (p_progress (x_parts st a)); auto; destruct W as (_ & _ & _ & W & _); discriminate W. }
  assert (Z : p_got (x_parts st' a) ++ p_queue (x_parts st' a) = p_got (x_parts st a) ++ p_queue (x_parts st a)).
  { rewrite X, E. cbn [p_got p_queue]. now rewrite <- app_assoc. }
  apply (inv_one st st' a); auto; try reflexivity; try apply V.
  intros k. apply (lookup_one st st' a); auto; rewrite X; auto.
Qed.

Lemma inv_persist : forall st a, inv st -> inv (persist st a).
Proof.
  intros st a V. unfold persist. pose proof (i_views st V a) as W.
  destruct (p_progress (x_parts st a)) eqn:P; try exact V. destruct (p_open (x_parts st a)) eqn:Op; try exact V. destruct (p_queue (x_parts st a)) as [|] eqn:E; try exact V.
  match goal with |- inv ?s => set (st' := s) end.
  assert (X : x_parts st' a = {| p_open := p_open (x_parts st a); p_queue := p_queue (x_parts st a); p_got := p_got (x_parts st a); p_progress := Written |}) by (apply put_same).
  assert (O : forall id, id <> a -> look_at st' id = look_at st id).
  { intros id N. unfold look_at, st', set_progress, set_part. fields. rewrite !put_other by exact N. rewrite cnt_app, cnt_one. destruct (Nat.eqb_spec id a); [contradiction|]. now rewrite Nat.add_0_r. }
  assert (Y : ok_view (look_at st' a)).
  { unfold ok_view, nowhere in *. simpl_view. rewrite X. cbn [p_open p_queue p_got p_progress]. unfold st', set_progress, set_part. fields. rewrite P in W. rewrite E, put_same, cnt_app, cnt_one, Nat.eqb_refl. intuition lia. }
  apply (inv_one st st' a); auto; try reflexivity; try apply V; [now rewrite X|].
  intros k. apply (lookup_one st st' a); auto; rewrite X, ?P; auto; discriminate.
Qed.

Lemma inv_registered : forall st a, inv st -> x_down st = false -> inv (registered st a).
Proof.
  intros st a V D. unfold registered. destruct (take a (x_replies st)) as [r|] eqn:T; [|exact V]. destruct (take_spec a _ _ T) as [T1 T2].
  pose proof (i_views st V a) as W.
  assert (P : p_progress (x_parts st a) = Written).
  { unfold ok_view, nowhere in W. simpl_view. destruct (p_progress (x_parts st a)); auto; exfalso; intuition lia. }
  match goal with |- inv ?s => set (st' := s) end.
  assert (X : x_parts st' a = {| p_open := p_open (x_parts st a); p_queue := p_queue (x_parts st a); p_got := p_got (x_parts st a); p_progress := Merging |}) by (apply put_same).
  assert (O : forall id, id <> a -> look_at st' id = look_at st id).
  { intros id N. unfold look_at, st', set_progress, set_part. fields. rewrite !put_other by exact N. rewrite <- (T2 id N), !flat_map_app. cbn [flat_map mcs ers app].
    destruct (Nat.eqb_spec id a); [contradiction|]. now rewrite !app_nil_r. }
  assert (Y : ok_view (look_at st' a)).
  { unfold ok_view, nowhere in *. simpl_view. rewrite X. cbn [p_open p_queue p_got p_progress]. unfold st', set_progress, set_part. fields. rewrite P in W. rewrite !flat_map_app. cbn [flat_map mcs ers app].
    rewrite Nat.eqb_refl. destruct W as (W1 & W2 & W3 & W4 & W5 & W6 & W7 & W8 & W9 & W10 & W11 & W12 & W13 & W14). rewrite W10, W12. cbn [app]. repeat (split; [assumption || lia|]). split; [reflexivity|]. split; [assumption|]. left. auto. }
  apply (inv_one st st' a); auto; try reflexivity; try apply V; [now rewrite X|].
  intros k. apply (lookup_one st st' a); auto; try (rewrite X, ?P; auto; discriminate).
  unfold st', set_progress, set_part. fields. rewrite in_app_iff. intros [H|[H|[]]]; [exact H|discriminate].
Qed.

Lemma inv_unlink : forall st a, inv st -> inv (unlink st a).
Proof.
  intros st a V. unfold unlink. destruct (take a (x_unlink st)) as [r|] eqn:T; [|exact V]. destruct (take_spec a _ _ T) as [T1 T2].
  pose proof (i_views st V a) as W.
  assert (P : p_progress (x_parts st a) = Unlinking).
  { unfold ok_view, nowhere in W. simpl_view. destruct (p_progress (x_parts st a)); auto; exfalso; intuition lia. }
  match goal with |- inv ?s => set (st' := s) end.
  assert (X : x_parts st' a = {| p_open := p_open (x_parts st a); p_queue := p_queue (x_parts st a); p_got := p_got (x_parts st a); p_progress := Gone |}) by (apply put_same).
  assert (O : forall id, id <> a -> look_at st' id = look_at st id).
  { intros id N. unfold look_at, st', set_progress, set_part. fields. rewrite !put_other by exact N. now rewrite <- (T2 id N). }
  assert (Y : ok_view (look_at st' a)).
  { unfold ok_view, nowhere in *. simpl_view. rewrite X. cbn [p_open p_queue p_got p_progress]. unfold st', set_progress, set_part. fields. rewrite P in W. rewrite put_same. intuition lia. }
  apply (inv_one st st' a); auto; try reflexivity; try apply V; [now rewrite X|].
  intros k. apply (lookup_one st st' a); auto; try (rewrite X, ?P; auto; discriminate).
Qed.

Lemma inv_erase : forall st a, inv st -> x_down st = false -> ~ In (MErase a) (x_mbox st) -> ~ In (BErased a) (x_bbox st) ->
  (In a (x_persisted st) \/ x_file st a = None) -> inv (erase st a).
Proof.
  intros st a V D N1 N2 H. unfold erase. destruct (has a (x_persisted st) || _) eqn:B; [|exact V].
  pose proof (i_views st V a) as W.
  assert (R : 0 < cnt a (x_persisted st)).
  { apply cnt_In. destruct H as [H|H]; [exact H|]. rewrite H, orb_false_r in B. now apply has_In. }
  assert (P : p_progress (x_parts st a) = Settled).
  { unfold ok_view, nowhere in W. simpl_view. destruct (p_progress (x_parts st a)); auto; exfalso; try (intuition lia).
    destruct W as (_ & _ & _ & _ & _ & _ & _ & _ & _ & _ & _ & [(W & _)|(_ & W & _)]).
    - apply N1. assert (I : In tt (flat_map (ers a) (x_mbox st))) by (rewrite W; now left). apply in_flat_map in I as (m & I1 & I2). destruct m; cbn in I2; try contradiction.
      destruct (Nat.eqb_spec a id); [subst; exact I1|contradiction].
    - apply N2. assert (I : In tt (flat_map (eds a) (x_bbox st))) by (rewrite W; now left). apply in_flat_map in I as (m & I1 & I2). destruct m; cbn in I2; try contradiction.
      destruct (Nat.eqb_spec a id); [subst; exact I1|contradiction]. }
  rewrite P. match goal with |- inv ?s => set (st' := s) end.
  assert (X : x_parts st' a = {| p_open := p_open (x_parts st a); p_queue := p_queue (x_parts st a); p_got := p_got (x_parts st a); p_progress := Erasing |}) by (apply put_same).
  assert (O : forall id, id <> a -> look_at st' id = look_at st id).
  { intros id N. unfold look_at, st', set_progress, set_part. fields. rewrite !put_other by exact N. rewrite !flat_map_app. cbn [flat_map mcs ers app].
    destruct (Nat.eqb_spec id a); [contradiction|]. now rewrite !app_nil_r. }
  assert (Y : ok_view (look_at st' a)).
  { unfold ok_view, nowhere in *. simpl_view. rewrite X. cbn [p_open p_queue p_got p_progress]. unfold st', set_progress, set_part. fields. rewrite P in W. rewrite !flat_map_app. cbn [flat_map mcs ers app].
    rewrite Nat.eqb_refl. destruct W as (W1 & W2 & W3 & W4 & W5 & W6 & W7 & W8 & W9 & W10 & W11 & W12 & W13 & W14). rewrite W10, W12. cbn [app]. repeat (split; [assumption || lia || reflexivity|]). left. auto. }
  apply (inv_one st st' a); auto; try reflexivity; try apply V; [now rewrite X|].
  intros k. apply (lookup_one st st' a); auto; try (rewrite X, ?P; auto; discriminate).
  unfold st', set_progress, set_part. fields. rewrite in_app_iff. intros [I|[I|[]]]; [exact I|discriminate].
Qed.

(** * The meta index *)

Lemma kcs_none : forall id (l : list (nat * list (nat * nat))), flat_map (kcs id) l = [] -> existsb (fun e => fst e =? id) l = false.
Proof.
  intros id. induction l as [|e l IH]; intros H; [reflexivity|]. cbn [flat_map] in H. apply app_eq_nil in H as [H1 H2]. cbn [existsb]. rewrite (IH H2), orb_false_r.
  unfold kcs in H1. rewrite Nat.eqb_sym in H1. now destruct (fst e =? id).
Qed.
Lemma kcs_drop_other : forall id a (l : list (nat * list (nat * nat))), id <> a -> flat_map (kcs id) (filter (fun e => negb (fst e =? a)) l) = flat_map (kcs id) l.
Proof.
  intros id a l N. induction l as [|e l IH]; [reflexivity|]. cbn [filter flat_map]. destruct (Nat.eqb_spec (fst e) a) as [E|E]; cbn [negb].
  - rewrite IH. unfold kcs at 2. destruct (Nat.eqb_spec id (fst e)); [congruence|reflexivity].
  - cbn [flat_map]. now rewrite IH.
Qed.
Lemma kcs_drop_same : forall a (l : list (nat * list (nat * nat))), flat_map (kcs a) (filter (fun e => negb (fst e =? a)) l) = [].
Proof.
  intros a l. induction l as [|e l IH]; [reflexivity|]. cbn [filter]. destruct (Nat.eqb_spec (fst e) a) as [E|E]; cbn [negb]; [exact IH|].
  cbn [flat_map]. rewrite IH. unfold kcs. destruct (Nat.eqb_spec a (fst e)); [congruence|reflexivity].
Qed.
Lemma kcs_In : forall id c (l : list (nat * list (nat * nat))), In c (flat_map (kcs id) l) -> In (id, c) l.
Proof.
  intros id c l H. apply in_flat_map in H as ((i & d) & H1 & H2). unfold kcs in H2. cbn in H2. destruct (Nat.eqb_spec id i); [|contradiction].
  destruct H2 as [<-|[]]. now subst.
Qed.

Lemma settled_known : forall st id, inv st -> p_progress (x_parts st id) = Settled ->
  In (id, p_got (x_parts st id)) (x_known st) /\ assigned st id = p_got (x_parts st id).
Proof.
  intros st id V P. pose proof (i_views st V id) as W. unfold ok_view, nowhere in W. simpl_view. rewrite P in W.
  destruct W as (W1 & W2 & W3 & W4 & W5 & W6 & W7 & W8 & W9 & W10 & W11 & W12 & W13 & W14). split.
  - apply kcs_In. rewrite W14. now left.
  - unfold assigned. rewrite W1, W4. now rewrite !app_nil_r.
Qed.

Lemma inv_meta : forall st, inv st -> x_down st = false -> inv (meta look st).
Proof.
  intros st V D. unfold meta. destruct (x_mbox st) as [|m box] eqn:M; [exact V|]. destruct m as [a c|k|a].
  - (* merge *)
    pose proof (i_views st V a) as W.
    assert (P : p_progress (x_parts st a) = Merging /\ flat_map (mcs a) (x_mbox st) = [p_got (x_parts st a)] /\ flat_map (mds a) (x_bbox st) = [] /\ flat_map (kcs a) (x_known st) = []).
    { unfold ok_view, nowhere in W. simpl_view. assert (Z : flat_map (mcs a) (x_mbox st) <> []) by (rewrite M; cbn [flat_map mcs]; rewrite Nat.eqb_refl; discriminate).
      destruct (p_progress (x_parts st a)); intuition congruence. }
    destruct P as (P & P1 & P2 & P3). assert (C : c = p_got (x_parts st a) /\ flat_map (mcs a) box = []).
    { rewrite M in P1. cbn [flat_map mcs] in P1. rewrite Nat.eqb_refl in P1. injection P1. auto. }
    destruct C as [-> C]. rewrite (kcs_none _ _ P3).
    match goal with |- inv ?s => set (st' := s) end.
    assert (X : x_parts st' a = x_parts st a) by reflexivity.
    assert (O : forall id, id <> a -> look_at st' id = look_at st id).
    { intros id N. unfold look_at, st'. fields. rewrite M, !flat_map_app. cbn [flat_map mcs ers mds eds kcs app fst snd]. unfold kcs at 1. cbn [fst snd].
      destruct (Nat.eqb_spec id a); [contradiction|]. now rewrite !app_nil_r. }
    assert (Y : ok_view (look_at st' a)).
    { unfold ok_view, nowhere in *. simpl_view. rewrite X. unfold st'. fields. rewrite P in *. rewrite M in W. rewrite !flat_map_app. cbn [flat_map mcs ers mds eds app] in *. unfold kcs at 1. cbn [fst snd].
      rewrite Nat.eqb_refl in *. rewrite C, P2, P3 in *. cbn [app] in *. rewrite !app_nil_r in *.
      destruct W as (W1 & W2 & W3 & W4 & W5 & W6 & W7 & W8 & W9 & W10 & W11 & W12). repeat (split; [assumption|]). right. unfold kcs. cbn [fst snd]. rewrite Nat.eqb_refl. auto. }
    apply (inv_one st st' a); auto; try reflexivity; try apply V.
    intros k. apply (lookup_one st st' a); auto; unfold st'; fields; rewrite ?M; [intros H; now right|].
    intros ids. rewrite in_app_iff. intros [H|[H|[]]]; [exact H|discriminate].
  - (* lookup *)
    match goal with |- inv ?s => set (st' := s) end.
    assert (O : forall id, look_at st' id = look_at st id).
    { intros id. unfold look_at, st'. fields. rewrite M, !flat_map_app. cbn [flat_map mcs ers mds eds app]. now rewrite !app_nil_r. }
    apply (inv_one st st' 0); auto; try reflexivity; try apply V; [rewrite O; apply V|].
    intros j. pose proof (i_lookups st V j) as L. unfold ok_lookup in *. unfold st'. fields. destruct (nth_error (x_lookups st) j) as [[q first]|] eqn:Ej.
    + destruct L as [L1 L2]. split; [exact L1|]. intros id x H. destruct (L2 id x H) as [L3 L4]. split; [exact L3|].
      destruct L4 as [L4|[L4|(L4 & L5 & L6)]]; [now left|right; now left|]. right. right. split; [|split; [|exact L6]].
      * intros I1. apply L4. rewrite M. now right.
      * intros ids I1 Hx. apply in_app_or in I1 as [I1|[I1|[]]]; [now apply (L5 ids)|]. injection I1 as -> <-. rewrite Ej.
        assert (S1 : p_progress (x_parts st id) = Settled) by (apply L4; rewrite M; now left).
        destruct (settled_known st id V S1) as [K1 K2]. apply in_map_iff. exists (id, p_got (x_parts st id)). split; [reflexivity|]. apply filter_In. split; [exact K1|].
        cbn [snd]. apply (look_sound q _ x); [|exact Hx]. now rewrite <- K2.
    + destruct L as (L1 & L2 & L3). rewrite M in L2. split; [exact L1|]. split; [intros I1; apply L2; now right|].
      intros ids I1. apply in_app_or in I1 as [I1|[I1|[]]]; [now apply (L3 ids)|]. injection I1 as -> <-. apply L2. now left.
  - (* erase *)
    pose proof (i_views st V a) as W.
    assert (P : p_progress (x_parts st a) = Erasing /\ flat_map (ers a) (x_mbox st) = [tt] /\ flat_map (eds a) (x_bbox st) = []).
    { unfold ok_view, nowhere in W. simpl_view. assert (Z : flat_map (ers a) (x_mbox st) <> []) by (rewrite M; cbn [flat_map ers]; rewrite Nat.eqb_refl; discriminate).
      destruct (p_progress (x_parts st a)); intuition congruence. }
    destruct P as (P & P1 & P2). assert (C : flat_map (ers a) box = []).
    { rewrite M in P1. cbn [flat_map ers] in P1. rewrite Nat.eqb_refl in P1. injection P1. auto. }
    match goal with |- inv ?s => set (st' := s) end.
    assert (X : x_parts st' a = x_parts st a) by reflexivity.
    assert (O : forall id, id <> a -> look_at st' id = look_at st id).
    { intros id N. unfold look_at, st'. fields. rewrite M, !flat_map_app, kcs_drop_other by exact N. cbn [flat_map mcs ers mds eds app].
      destruct (Nat.eqb_spec id a); [contradiction|]. now rewrite !app_nil_r. }
    assert (Y : ok_view (look_at st' a)).
    { unfold ok_view, nowhere in *. simpl_view. rewrite X. unfold st'. fields. rewrite P in *. rewrite M in W. rewrite !flat_map_app, kcs_drop_same. cbn [flat_map mcs ers mds eds app] in *.
      rewrite Nat.eqb_refl in *. rewrite C, P2 in *. cbn [app] in *. rewrite !app_nil_r in *.
      destruct W as (W1 & W2 & W3 & W4 & W5 & W6 & W7 & W8 & W9 & W10 & W11 & W12). repeat (split; [assumption|]). right. auto. }
    apply (inv_one st st' a); auto; try reflexivity; try apply V.
    intros k. apply (lookup_one st st' a); auto; unfold st'; fields; rewrite ?M; [intros H; now right|].
    intros ids. rewrite in_app_iff. intros [H|[H|[]]]; [exact H|discriminate].
Qed.

Lemma drop_In : forall j a l, In j (drop a l) <-> In j l /\ j <> a.
Proof. intros j a l. unfold drop. rewrite filter_In. destruct (Nat.eqb_spec j a); cbn; intuition congruence. Qed.
Lemma insert_In : forall j a l, In j (insert a l) <-> j = a \/ In j l.
Proof.
  intros j a l. unfold insert. destruct (has a l) eqn:E; [apply has_In in E; intuition congruence|]. rewrite in_app_iff. cbn. intuition congruence.
Qed.

Lemma inv_from_meta : forall st, inv st -> x_down st = false -> exists st', from_meta st = Some st' /\ inv st'.
Proof.
  intros st V D. unfold from_meta. destruct (x_bbox st) as [|m box] eqn:M; [eauto|]. destruct m as [a|k ids|a].
  - (* merged *)
    pose proof (i_views st V a) as W.
    assert (P : p_progress (x_parts st a) = Merging /\ flat_map (mds a) (x_bbox st) = [tt] /\ flat_map (mcs a) (x_mbox st) = [] /\ flat_map (kcs a) (x_known st) = [p_got (x_parts st a)]).
    { unfold ok_view, nowhere in W. simpl_view. assert (Z : flat_map (mds a) (x_bbox st) <> []) by (rewrite M; cbn [flat_map mds]; rewrite Nat.eqb_refl; discriminate).
      destruct (p_progress (x_parts st a)); intuition congruence. }
    destruct P as (P & P1 & P2 & P3). assert (C : flat_map (mds a) box = []).
    { rewrite M in P1. cbn [flat_map mds] in P1. rewrite Nat.eqb_refl in P1. injection P1. auto. }
    eexists. split; [reflexivity|]. match goal with |- inv ?s => set (st' := s) end.
    assert (X : x_parts st' a = {| p_open := p_open (x_parts st a); p_queue := p_queue (x_parts st a); p_got := p_got (x_parts st a); p_progress := Settled |}) by (apply put_same).
    assert (O : forall id, id <> a -> look_at st' id = look_at st id).
    { intros id N. unfold look_at, st', set_progress, set_part. fields. rewrite put_other, cnt_drop_other, cnt_insert_other by exact N. rewrite M. cbn [flat_map mds eds app].
      destruct (Nat.eqb_spec id a); [contradiction|]. reflexivity. }
    assert (Y : ok_view (look_at st' a)).
    { unfold ok_view, nowhere in *. simpl_view. rewrite X. cbn [p_open p_queue p_got p_progress]. unfold st', set_progress, set_part. fields. rewrite P in *. rewrite M in W. cbn [flat_map mds eds app] in W.
      rewrite Nat.eqb_refl in *. rewrite cnt_drop_same. rewrite C, P2, P3 in *.
      destruct W as (W1 & W2 & W3 & W4 & W5 & W6 & W7 & W8 & W9 & W10 & W11 & W12). rewrite cnt_insert_same by lia. repeat (split; [assumption || reflexivity|]). reflexivity. }
    assert (U : In a (x_unpersisted st)) by (apply cnt_In; unfold ok_view in W; simpl_view; rewrite P in W; intuition lia).
    apply (inv_one st st' a); auto; try reflexivity.
    + now rewrite X.
    + intros id H. unfold st', set_progress, set_part in *. revert H. fields. intros H. apply insert_In. right. now apply (i_cached st V).
    + intros id. unfold st', set_progress, set_part. fields. rewrite insert_In, drop_In. intuition. subst. auto.
    + intros H. unfold st', set_progress, set_part in H. revert H. fields. congruence.
    + intros k. apply (lookup_one st st' a); auto; try (rewrite X, ?P; auto; discriminate).
      intros ids. unfold st', set_progress, set_part. fields. rewrite M. intros H. now right.
  - (* found *)
    eexists. split; [reflexivity|]. match goal with |- inv ?s => set (st' := s) end.
    assert (O : forall id, look_at st' id = look_at st id).
    { intros id. unfold look_at, st'. fields. rewrite M. reflexivity. }
    apply (inv_one st st' 0); auto; try reflexivity; try apply V; [rewrite O; apply V|].
    intros j. pose proof (i_lookups st V j) as L. unfold ok_lookup in *. unfold st'. fields. destruct (nth_error (x_lookups st) j) as [[q first]|] eqn:Ej.
    + destruct L as [L1 L2].
      assert (F : forall c, match nth_error (x_lookups st) k with Some (_, f) => put (x_found st) k (Some (unique (f ++ ids))) | None => x_found st end j = Some c ->
        x_found st j = Some c \/ (j = k /\ c = unique (first ++ ids))).
      { intros c. destruct (Nat.eq_dec j k) as [->|N].
        - rewrite Ej, put_same. intros E. injection E as <-. auto.
        - destruct (nth_error (x_lookups st) k) as [[q' f]|]; rewrite ?put_other by exact N; auto. }
      split.
      * intros c E. destruct (F c E) as [E1|[-> ->]]; [now apply L1|]. split; [apply NoDup_nodup|]. intros id I1. apply nodup_In. apply in_or_app. now left.
      * intros id x H. destruct (L2 id x H) as [L3 L4]. split; [exact L3|]. destruct L4 as [L4|[L4|(L4 & L5 & L6)]]; [now left|right; now left|]. right. right.
        split; [exact L4|]. split; [intros is I1; apply L5; rewrite M; now right|].
        intros c E Hx. destruct (F c E) as [E1|[-> ->]]; [now apply L6|]. apply nodup_In. apply in_or_app. right. apply (L5 ids); [rewrite M; now left|exact Hx].
    + destruct L as (L1 & L2 & L3). split; [|split; [exact L2|intros is I1; apply (L3 is); rewrite M; now right]].
      destruct (Nat.eq_dec j k) as [->|N]; [now rewrite Ej|]. destruct (nth_error (x_lookups st) k) as [[q' f]|]; rewrite ?put_other by exact N; auto.
  - (* erased *)
    pose proof (i_views st V a) as W.
    assert (P : p_progress (x_parts st a) = Erasing /\ flat_map (eds a) (x_bbox st) = [tt] /\ flat_map (ers a) (x_mbox st) = [] /\ flat_map (kcs a) (x_known st) = []).
    { unfold ok_view, nowhere in W. simpl_view. assert (Z : flat_map (eds a) (x_bbox st) <> []) by (rewrite M; cbn [flat_map eds]; rewrite Nat.eqb_refl; discriminate).
      destruct (p_progress (x_parts st a)); intuition congruence. }
    destruct P as (P & P1 & P2 & P3). assert (C : flat_map (eds a) box = []).
    { rewrite M in P1. cbn [flat_map eds] in P1. rewrite Nat.eqb_refl in P1. injection P1. auto. }
    assert (R : In a (x_persisted st)) by (apply cnt_In; unfold ok_view in W; simpl_view; rewrite P in W; intuition lia).
    rewrite (proj2 (has_In _ _) R), orb_true_r. eexists. split; [reflexivity|]. match goal with |- inv ?s => set (st' := s) end.
    assert (X : x_parts st' a = {| p_open := p_open (x_parts st a); p_queue := p_queue (x_parts st a); p_got := p_got (x_parts st a); p_progress := Unlinking |}) by (apply put_same).
    assert (O : forall id, id <> a -> look_at st' id = look_at st id).
    { intros id N. unfold look_at, st', set_progress, set_part. fields. rewrite put_other, cnt_drop_other by exact N. rewrite cnt_app, cnt_one, M. cbn [flat_map mds eds app].
      destruct (Nat.eqb_spec id a); [contradiction|]. now rewrite Nat.add_0_r. }
    assert (Y : ok_view (look_at st' a)).
    { unfold ok_view, nowhere in *. simpl_view. rewrite X. cbn [p_open p_queue p_got p_progress]. unfold st', set_progress, set_part. fields. rewrite P in *. rewrite M in W. cbn [flat_map mds eds app] in W.
      rewrite cnt_drop_same, cnt_app, cnt_one, Nat.eqb_refl in *. rewrite C, P2, P3 in *.
      destruct W as (W1 & W2 & W3 & W4 & W5 & W6 & W7 & W8 & W9 & W10 & W11 & W12). rewrite W9. repeat (split; [assumption || reflexivity|]). reflexivity. }
    apply (inv_one st st' a); auto; try reflexivity.
    + now rewrite X.
    + intros id H. unfold st', set_progress, set_part in *. revert H. fields. rewrite !drop_In. intros [H1 H2]. split; [now apply (i_cached st V)|exact H2].
    + intros id. unfold st', set_progress, set_part. fields. rewrite drop_In. intuition.
    + intros H. unfold st', set_progress, set_part in H. revert H. fields. congruence.
    + intros k. apply (lookup_one st st' a); auto; try (rewrite X, ?P; auto; discriminate).
      intros ids. unfold st', set_progress, set_part. fields. rewrite M. intros H. now right.
Qed.

(** * Queries *)

Lemma inv_query : forall st q, inv st -> x_down st = false -> inv (start_query st q).
Proof.
  intros st q V D. unfold start_query. match goal with |- inv ?s => set (st' := s) end.
  assert (O : forall id, look_at st' id = look_at st id).
  { intros id. unfold look_at, st'. fields. rewrite !flat_map_app. cbn [flat_map mcs ers app]. now rewrite !app_nil_r. }
  apply (inv_one st st' 0); auto; try reflexivity; try apply V; [rewrite O; apply V|].
  intros j. pose proof (i_lookups st V j) as L. unfold ok_lookup in *. unfold st'. fields.
  destruct (lt_eq_lt_dec j (length (x_lookups st))) as [[N|N]|N].
  - rewrite nth_error_app1 by exact N. rewrite put_other by lia. destruct (nth_error (x_lookups st) j) as [[q' f]|] eqn:E; [|apply nth_error_None in E; lia].
    destruct L as [L1 L2]. split; [exact L1|]. intros id x H. destruct (L2 id x H) as [L3 L4]. split; [exact L3|].
    destruct L4 as [L4|[L4|(L4 & L5)]]; [now left|right; now left|]. right. right. split; [|exact L5]. intros I1. apply in_app_or in I1 as [I1|[I1|[]]]; [auto|]. injection I1 as I1. lia.
  - subst j. rewrite nth_error_app2 by lia. rewrite Nat.sub_diag. cbn [nth_error]. rewrite (proj2 (nth_error_None _ _) (le_n _)) in L. destruct L as (L1 & L2 & L3).
    split; [intros c E; congruence|]. intros id x. rewrite put_same. intros H. split; [exact H|].
    pose proof (i_views st V id) as W. unfold ok_view, nowhere in W. simpl_view.
    destruct (p_progress (x_parts st id)) eqn:P; try (left; reflexivity); right; try (left; apply in_or_app; right; apply cnt_In; intuition lia).
    + exfalso. unfold assigned in H. destruct W as (W1 & _ & _ & W2 & W3 & _). rewrite W1, W2, W3 in H. destruct H.
    + left. apply in_or_app. left. destruct W as (_ & W & _). destruct (x_active st) as [[a cap]|]; [|discriminate]. apply Nat.eqb_eq in W. now left.
    + right. split; [reflexivity|]. split; [intros ids I1; now destruct (L3 ids)|]. intros c E. congruence.
    + exfalso. unfold assigned in H. destruct W as (W1 & _ & _ & W2 & W3 & _). rewrite W1, W2, W3 in H. destruct H.
  - rewrite (proj2 (nth_error_None _ _)) by (rewrite app_length; cbn; lia). rewrite (proj2 (nth_error_None _ _)) in L by lia. destruct L as (L1 & L2 & L3).
    split; [exact L1|]. split; [|exact L3]. intros I1. apply in_app_or in I1 as [I1|[I1|[]]]; [auto|]. injection I1 as I1. lia.
Qed.

Lemma inv_cache : forall st ids, inv st -> inv (cache st ids).
Proof.
  intros st ids V. apply (inv_one st (cache st ids) 0); auto; try reflexivity; try apply V.
  intros id H. apply filter_In in H as [_ H]. now apply has_In.
Qed.

(** * Stopping and starting *)

Lemma inv_write : forall st, inv st -> inv (write_state st).
Proof.
  intros st V. unfold write_state. destruct (x_writes st) as [|ids w] eqn:E; [exact V|].
  assert (X : last (x_state_file st :: x_writes st) [] = last (ids :: w) []) by (rewrite E; reflexivity).
  constructor; fields; try apply V.
  - intros id H. unfold listed. fields. rewrite <- X. now apply (i_listed st V).
  - intros H. rewrite <- X. now apply (i_down st V).
Qed.
Lemma inv_exit : forall st, inv st -> inv (exit st).
Proof.
  intros st V. unfold exit. destruct (x_down st) eqn:D; [exact V|]. pose proof (inv_retire st V) as V1.
  assert (X : last (x_state_file (flush_to_disk (decommission st)) :: x_writes (flush_to_disk (decommission st))) [] =
    x_persisted (flush_to_disk (decommission st)) ++ x_unpersisted (flush_to_disk (decommission st))) by (unfold flush_to_disk at 2; cbn [x_writes]; now rewrite last_snoc).
  set (st1 := flush_to_disk (decommission st)) in *. clearbody st1. constructor; fields; try apply V1.
  - intros id [].
  - intros _. exact X.
Qed.

Lemma unique_cnt : forall l id, cnt id (unique l) <= 1.
Proof.
  intros l id. assert (X : NoDup (unique l)) by apply NoDup_nodup. unfold cnt. induction X as [|x l' N X IH]; [cbn; lia|]. cbn [filter].
  destruct (Nat.eqb_spec id x) as [->|E]; [|exact IH]. cbn [length]. destruct (filter (Nat.eqb x) l') as [|y ys] eqn:F; [cbn; lia|].
  exfalso. assert (I1 : In y (filter (Nat.eqb x) l')) by (rewrite F; now left). apply filter_In in I1 as [I1 I2]. apply Nat.eqb_eq in I2. now subst.
Qed.
Lemma kcs_map : forall id (f : nat -> list (nat * nat)) l, NoDup l -> flat_map (kcs id) (map (fun i => (i, f i)) l) = if has id l then [f id] else [].
Proof.
  intros id f l X. induction X as [|x l N X IH]; [reflexivity|]. cbn [map flat_map has existsb]. fold (has id l). rewrite IH. unfold kcs. cbn [fst snd].
  destruct (Nat.eqb_spec id x) as [->|E]; cbn [orb app]; [|reflexivity]. destruct (has x l) eqn:H; [apply has_In in H; contradiction|reflexivity].
Qed.
Lemma flat_map_sub : forall A (f : nat -> list A) l n, NoDup l -> (forall i, In i l -> i < n) ->
  Permutation (flat_map f l) (flat_map (fun i => if has i l then f i else []) (seq 0 n)).
Proof.
  intros A f l n X L.
  assert (Y : flat_map (fun i => if has i l then f i else []) (seq 0 n) = flat_map f (filter (fun i => has i l) (seq 0 n))).
  { induction (seq 0 n) as [|x xs IH]; [reflexivity|]. cbn [flat_map filter]. rewrite IH. now destruct (has x l). }
  rewrite Y. apply Permutation_flat_map. apply NoDup_Permutation; [exact X|apply NoDup_filter; apply seq_NoDup|].
  intros x. rewrite filter_In, has_In, in_seq. split; [intros H; split; [specialize (L x H); lia|exact H]|tauto].
Qed.

Lemma inv_reload : forall st, inv st -> inv (reload st).
Proof.
  intros st V. unfold reload. set (ids := unique (filter (on_disk st) (x_state_file st))).
  assert (N : NoDup ids) by apply NoDup_nodup.
  assert (I1 : forall i, In i ids <-> In i (x_state_file st) /\ on_disk st i = true) by (intros i; unfold ids, unique; now rewrite nodup_In, filter_In).
  assert (F : forall i, In i ids -> p_progress (x_parts st i) <> Fresh).
  { intros i H P. apply I1 in H as [_ H]. unfold on_disk in H. pose proof (i_views st V i) as W. unfold ok_view, nowhere in W. simpl_view. rewrite P in W.
    destruct W as (_ & _ & _ & _ & _ & W & _). now rewrite W in H. }
  assert (C : forall i, cnt i ids <= 1) by (intros; apply unique_cnt).
  constructor; fields.
  - intros id. pose proof (i_views st V id) as W. unfold ok_view, nowhere in *. simpl_view. fields. cbn [flat_map]. rewrite (kcs_map _ _ _ N).
    destruct (has id ids) eqn:H.
    + apply has_In in H. pose proof (F id H) as P. pose proof (C id) as C1. assert (0 < cnt id ids) by now apply cnt_In. apply I1 in H as [_ H]. unfold on_disk in H. cbn [p_open p_queue p_got p_progress].
      destruct (x_file st id) as [c|]; [|discriminate]. destruct W as (_ & _ & W & _). rewrite W. change (cnt id []) with 0.
      destruct (p_progress (x_parts st id)); try contradiction; repeat split; auto; lia.
    + assert (Z : cnt id ids = 0) by (destruct (cnt id ids) eqn:E; [reflexivity|]; exfalso; assert (X : In id ids) by (apply cnt_In; lia); apply has_In in X; congruence).
      cbn [p_open p_queue p_got p_progress]. rewrite Z. change (cnt id []) with 0. destruct W as (_ & _ & W & _ & W1). rewrite W.
      destruct (p_progress (x_parts st id)); repeat split; auto; intuition.
  - discriminate.
  - auto.
  - unfold total. fields. cbn [app]. eapply Permutation_trans; [apply (flat_map_sub _ _ ids (x_next st) N)|].
    + intros i H. destruct (le_lt_dec (x_next st) i) as [L|L]; [|exact L]. apply (progress_fresh st) in L; [|exact V]. now destruct (F i H).
    + erewrite flat_map_same; [apply Permutation_refl|]. intros i L. cbn. destruct (has i ids); cbn [p_got p_queue]; now rewrite ?app_nil_r.
  - intros id [].
  - intros id [H|[]]. unfold listed. fields. cbn [last]. now apply I1.
  - discriminate.
  - intros k. unfold ok_lookup. fields. destruct k; cbn [nth_error]; auto.
Qed.

(** * Runs *)

(** Erasing is only asked for partitions that are persisted, and not twice. *)
Definition ok_op st (o : @iop Q) : Prop :=
  match o with
  | Erase id => ~ In (MErase id) (x_mbox st) /\ ~ In (BErased id) (x_bbox st) /\ (In id (x_persisted st) \/ x_file st id = None)
  | _ => True
  end.
Lemma inv_step : forall st o, inv st -> ok_op st o -> exists st', istep look capacity st o = Some st' /\ inv st'.
Proof.
  intros st o V H. destruct o; cbn [istep ok_op] in *; destruct (x_down st) eqn:D; try (eexists; split; [reflexivity|]; exact V).
  all: try (now apply inv_import). all: try (now apply inv_from_meta).
  all: eexists; split; [reflexivity|].
  all: auto using inv_fan_out, inv_deliver, inv_persist, inv_registered, inv_meta, inv_query, inv_cache, inv_unlink, inv_write, inv_exit, inv_reload.
  destruct H as (H1 & H2 & H3). now apply inv_erase.
Qed.
Lemma inv_init : inv init.
Proof.
  constructor; unfold init; fields; try discriminate; auto; try (intros id []; fail).
  - intros id. unfold ok_view, nowhere. simpl_view. fields. cbn. auto 20.
  - intros id [[]|[]].
  - intros k. unfold ok_lookup. fields. destruct k; cbn; auto.
Qed.
Inductive reach : idx -> Prop :=
| reach_init : reach init
| reach_step : forall st o st', reach st -> ok_op st o -> istep look capacity st o = Some st' -> reach st'.
Lemma reach_inv : forall st, reach st -> inv st.
Proof.
  intros st H. induction H as [|st o st' H IH Ho E]; [apply inv_init|]. destruct (inv_step st o IH Ho) as (s & E1 & V). congruence.
Qed.
End Index.
