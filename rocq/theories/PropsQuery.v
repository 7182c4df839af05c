(** C28 and C30: how queries are driven (QueryModel.v). *)
From Coq Require Import List Bool Arith Lia Permutation ZifyBool ZifyNat.
From Verif Require Import QueryModel QueryProofs QueryLive.
Import ListNotations.
Open Scope nat_scope.

Lemma NoDup_prefix : forall A (a b : list A), NoDup (a ++ b) -> NoDup a.
Proof.
  intros A a b. induction a as [|x a IH]; intros H; [constructor|]. inversion H; subst. constructor; [|auto].
  intros I. match goal with X : ~ In x _ |- _ => apply X end. apply in_app_iff. now left.
Qed.

(** * C28: every candidate is scheduled once *)

(** One request for [n] more partitions. Whatever order the loaded partitions are put in and
    whichever partitions fail to load: the candidates are split into those scheduled, those
    skipped, and those that stay. Only partitions that can be loaded are scheduled, at most
    [n], and fewer only if nothing stays. Only partitions that cannot be loaded are skipped. *)
Theorem C28_request : forall arrange up n ps scheduled skipped rest, (forall l, Permutation (arrange l) l) ->
  collect_query_actors arrange up n ps = (scheduled, skipped, rest) ->
  Permutation ps (scheduled ++ skipped ++ rest) /\ (forall p, In p scheduled -> up p = true) /\ (forall p, In p skipped -> up p = false) /\
  length scheduled <= n /\ (length scheduled = n \/ rest = []).
Proof.
  intros arrange up n ps a s r P H. destruct (collect_spec _ _ _ _ _ _ _ P H) as (A & B & C & D & E & _).
  rewrite Forall_forall in B, C. auto.
Qed.
(** Partitions that are loaded go first: if a partition that is not loaded was taken, then
    no loaded one stays. *)
Theorem C28_loaded_first : forall arrange up loaded n ps scheduled skipped rest, (forall l, Permutation (arrange l) l) ->
  (forall l, exists a b, arrange l = a ++ b /\ (forall p, In p a -> loaded p = true) /\ (forall p, In p b -> loaded p = false)) ->
  collect_query_actors arrange up n ps = (scheduled, skipped, rest) ->
  (exists p, In p (scheduled ++ skipped) /\ loaded p = false) -> forall p, In p rest -> loaded p = false.
Proof.
  intros arrange up loaded n ps a s r P L H (x & X & Lx) p I. unfold collect_query_actors in H.
  destruct (_ || _); [injection H as <- <- <-; contradiction|].
  destruct (collect_loop_spec _ _ _ _ _ _ H) as (t & E & -> & -> & _). destruct (L ps) as (u & v & F & Lu & Lv). rewrite F in E.
  assert (Xt : In x t) by (apply in_app_iff in X as [X|X]; now apply filter_In in X as [X _]).
  clear -E Lu Lv Xt Lx I. revert t E Xt. induction u as [|y u IH]; intros t E Xt.
  - apply Lv. cbn in E. rewrite E. apply in_app_iff. now right.
  - destruct t as [|z t]; [contradiction|]. injection E as <- E. destruct Xt as [->|Xt].
    + rewrite (Lu x) in Lx by (now left). discriminate.
    + apply (IH (fun q Q => Lu q (or_intror Q)) t E Xt).
Qed.

(** A sequence of requests of one client for one query, as the index serves them: what is
    pending after a request is what stays, or nothing once nothing stays. *)
Fixpoint serve (reqs : list (nat * env)) (pending : option (list nat)) : list nat * list nat * option (list nat) :=
  match reqs with
  | [] => ([], [], pending)
  | (n, e) :: reqs' =>
    if n =? 0 then serve reqs' None
    else match pending with
         | None => serve reqs' None
         | Some ps =>
           let '(a, s, r) := collect_query_actors (e_arrange e) (e_avail e) n ps in
           let '(a', s', p') := serve reqs' (match r with [] => None | _ => Some r end) in
           (a ++ a', s ++ s', p')
         end
  end.
(** The index serves requests this way. *)
Theorem C28_index_serves : forall taste st c q n e st', handle_index taste st (IMore c q n) e = Some (Some st') ->
  let '(a, s, p) := serve [(n, e)] (s_pending st q) in
  s_pending st' q = p /\ (forall q', q' <> q -> s_pending st' q' = s_pending st q') /\
  (0 < n -> s_pending st q <> None ->
    g_asked st' q = g_asked st q ++ a /\ g_skipped st' q = g_skipped st q ++ s /\
    exists w idle, s_idle st = w :: idle /\ s_idle st' = idle /\
      match a with
      | [] => s_busy st' = s_busy st /\ s_clients st' c = with_box (s_clients st c) (c_box (s_clients st c) ++ [CDone]) /\ s_box st' = s_box st ++ [IWorker w]
      | _ => s_busy st' = (w, {| j_client := c; j_qid := q; j_open := a |}) :: s_busy st /\ s_clients st' = s_clients st /\ s_box st' = s_box st
      end).
Proof.
  intros taste st c q n e st' H. cbn [serve handle_index] in *. destruct (Nat.eqb_spec n 0) as [->|N].
  - injection H as <-. cbn [s_pending set_pending]. rewrite upd_same. split; [reflexivity|]. split; [intros; now apply upd_other|lia].
  - destruct (s_pending st q) as [ps|] eqn:P.
    + destruct (s_idle st) as [|w idle]; [discriminate|]. destruct (collect_query_actors _ _ n ps) as [[a s] r].
      cbn [serve]. rewrite !app_nil_r. unfold supervise in H. destruct (existsb _ _); [discriminate|]. destruct a as [|a0 a]; injection H as <-;
        cbn [s_pending s_clients s_box s_busy s_idle g_asked g_skipped set_box set_busy to_client note_asked set_pending set_idle]; rewrite !upd_same;
        (split; [reflexivity|]; split; [intros; now apply upd_other|]; intros _ _; split; [reflexivity|]; split; [reflexivity|];
         exists w, idle; auto).
    + injection H as <-. cbn [s_pending to_client]. split; [exact P|]. split; [reflexivity|]. now intros _ [].
Qed.
Lemma serve_none : forall reqs, serve reqs None = ([], [], None).
Proof. induction reqs as [|[n e] reqs IH]; [reflexivity|]. cbn [serve]. now destruct (n =? 0). Qed.
(** For all sequences of requests with any batch sizes: every candidate is scheduled at
    most once, and skipped at most once, and not both. Once as many partitions as there are
    candidates were requested, all of them were scheduled or skipped, and the query is
    forgotten. *)
Theorem C28_sequence : forall reqs ps asked skipped rest, NoDup ps -> Forall (fun x => ok_env (snd x) /\ 0 < fst x) reqs ->
  serve reqs (Some ps) = (asked, skipped, rest) ->
  Permutation ps (asked ++ skipped ++ match rest with Some r => r | None => [] end) /\ NoDup (asked ++ skipped) /\
  (length ps <= list_sum (map fst reqs) -> 0 < length reqs -> rest = None /\ forall p, In p ps <-> In p asked \/ In p skipped).
Proof.
  assert (G : forall reqs ps asked skipped rest, Forall (fun x => ok_env (snd x) /\ 0 < fst x) reqs ->
    serve reqs (Some ps) = (asked, skipped, rest) ->
    Permutation ps (asked ++ skipped ++ match rest with Some r => r | None => [] end) /\
    (length ps <= list_sum (map fst reqs) -> 0 < length reqs -> rest = None)).
  { induction reqs as [|[n e] reqs IH]; intros ps asked skipped rest F H.
    - injection H as <- <- <-. cbn. split; [reflexivity|lia].
    - inversion F as [|? ? [[_ K] L] F']; subst. cbn [snd fst serve] in *. destruct (Nat.eqb_spec n 0) as [->|N]; [lia|].
      destruct (collect_query_actors _ _ n ps) as [[a s] r] eqn:C. destruct (collect_spec _ _ _ _ _ _ _ K C) as (P & _ & _ & _ & _ & M).
      destruct r as [|r0 r].
      + rewrite serve_none in H. injection H as <- <- <-. rewrite !app_nil_r in *. split; [exact P|auto].
      + destruct (serve reqs _) as [[a' s'] p'] eqn:E. injection H as <- <- <-. destruct (IH _ _ _ _ F' E) as (IH1 & IH2). split.
        * rewrite P, IH1, <- !app_assoc. apply Permutation_app_head. rewrite (app_assoc s a'), (app_assoc a' s). apply Permutation_app_tail, Permutation_app_comm.
        * intros Q1 Q2. change (list_sum (map fst ((n, e) :: reqs))) with (n + list_sum (map fst reqs)) in Q1.
          apply Permutation_length in P. rewrite !app_length in P. cbn [length] in P. apply IH2; [cbn [length]; lia|].
          destruct reqs; [|cbn; lia]. cbn in Q1. lia. }
  intros reqs ps asked skipped rest N F H. destruct (G _ _ _ _ _ F H) as (P & D). split; [exact P|]. split.
  - rewrite P, app_assoc in N. eapply NoDup_prefix. exact N.
  - intros Q1 Q2. specialize (D Q1 Q2). subst rest. split; [reflexivity|]. intros p. rewrite app_nil_r in P. rewrite <- in_app_iff.
    split; apply Permutation_in; [exact P|now symmetry].
Qed.

(** The same in the whole system, with any number of clients and queries, and any
    interleaving of messages: per query, the candidates are those scheduled, those skipped,
    and those pending, each once. A query is pending only while its client works on it. *)
Theorem C28_system : forall W taste exporter st q, 0 < taste -> reachable W taste exporter st -> 1 <= q < s_next st ->
  NoDup (g_cands st q) /\
  Permutation (g_cands st q) (g_asked st q ++ g_skipped st q ++ match s_pending st q with Some l => l | None => [] end) /\
  (current (s_clients st (g_owner st q)) <> Some q -> s_pending st q = None).
Proof.
  intros W taste exporter st q Tp R Q. destruct (reachable_inv _ _ _ _ Tp R) as ((_ & HQ & _) & _). destruct (HQ q) as (_ & _ & H).
  destruct (H Q) as (A & B & C). split; [exact B|]. split; [exact A|]. intros X. destruct C as [C|[C _]]; [contradiction|exact C].
Qed.

(** * C30: query drivers terminate *)

(** No assertion fails, no counter wraps. *)
Theorem C30_no_assertion : forall W taste exporter os, 0 < taste -> Forall ok_op os -> exists st, run taste exporter (start W) os = Some st.
Proof. intros W taste exporter os Tp F. destruct (inv_run W taste exporter os _ Tp F (inv_initial W)) as (st & E & _). now exists st. Qed.

(** When a client is idle, every candidate of each of its queries was asked once and
    answered once, or could not be loaded, and the index has forgotten the queries. *)
Theorem C30_complete : forall W taste exporter st c q, 0 < taste -> reachable W taste exporter st -> c_phase (s_clients st c) = Idle ->
  1 <= q < s_next st -> g_owner st q = c ->
  s_pending st q = None /\ Permutation (g_cands st q) (g_answered st q ++ g_skipped st q) /\ NoDup (g_answered st q) /\ Permutation (g_asked st q) (g_answered st q).
Proof.
  intros W taste exporter st c q Tp R P Q O. destruct (reachable_inv _ _ _ _ Tp R) as ((_ & HQ & _) & _). destruct (HQ q) as (_ & _ & H).
  destruct (H Q) as (A & B & C). assert (F : finished st q).
  { destruct C as [C|C]; [|exact C]. rewrite O in C. unfold current in C. rewrite P in C. discriminate. }
  destruct F as [F1 F2]. unfold rem in A. rewrite F1, app_nil_r in A. split; [exact F1|].
  assert (X : Permutation (g_cands st q) (g_answered st q ++ g_skipped st q)) by (rewrite A; now apply Permutation_app_tail).
  split; [exact X|]. split; [|exact F2]. rewrite X in B. now apply NoDup_prefix in B.
Qed.
(** While a client works on a query, it was told the right number of candidates, and asked
    for no more than there are. *)
Theorem C30_counts : forall W taste exporter st c, 0 < taste -> reachable W taste exporter st -> c_phase (s_clients st c) = Await ->
  let k := s_clients st c in
  (c_total k = 0 /\ c_sched k = 0 /\ c_recv k = 0) \/
  (c_total k = length (g_cands st (c_qid k)) /\ g_owner st (c_qid k) = c /\ 0 < c_sched k /\ c_recv k + c_sched k <= c_total k).
Proof.
  intros W taste exporter st c Tp R P k. destruct (reachable_inv _ _ _ _ Tp R) as ((HC & _) & _). specialize (HC c). unfold inv_c in HC. rewrite P in HC.
  destruct HC as (tk & _ & _ & [(A & B & C & _)|(A & B & _ & C & D & _)]); [left|right]; auto.
Qed.

(** What is on its way for a client: requests to the index, partitions being asked, and
    reports of being done. *)
Definition requests_of (c : nat) (st : sys) : nat := length (filter (fun m => match m with IMore d _ n => (d =? c) && negb (n =? 0) | _ => false end) (s_box st)).
Definition jobs_of (c : nat) (st : sys) : nat := length (filter (fun x => j_client (snd x) =? c) (s_busy st)).
Definition dones_of (c : nat) (st : sys) : nat := length (filter (fun m => match m with CDone => true | _ => false end) (c_box (s_clients st c))).
Lemma tokens_count : forall st c, requests_of c st + jobs_of c st + dones_of c st <= length (tokens st c).
Proof.
  intros st c. unfold tokens, toks. rewrite !app_length.
  assert (A : requests_of c st <= length (flat_map (boxtok c) (s_box st))).
  { unfold requests_of. induction (s_box st) as [|m box IH]; [reflexivity|]. cbn [filter flat_map]. rewrite app_length.
    destruct m as [d|d|d q n|w]; cbn [boxtok]; try lia. destruct ((d =? c) && negb (n =? 0)); cbn [length]; lia. }
  assert (B : jobs_of c st = length (flat_map (jobtok c) (s_busy st))).
  { unfold jobs_of. induction (s_busy st) as [|x busy IH]; [reflexivity|]. cbn [filter flat_map]. rewrite app_length. unfold jobtok at 1.
    destruct (j_client (snd x) =? c); cbn [length]; lia. }
  assert (C : dones_of c st = length (flat_map mailtok (c_box (s_clients st c)))).
  { unfold dones_of. induction (c_box (s_clients st c)) as [|x l IH]; [reflexivity|]. cbn [filter flat_map]. rewrite app_length. destruct x; cbn [mailtok length]; lia. }
  lia.
Qed.
(** At any time there is at most one of these per client, and none if it is idle: a request
    is answered with done exactly once, and only after all partitions of the request. *)
Theorem C30_done_once : forall W taste exporter st c, 0 < taste -> reachable W taste exporter st ->
  requests_of c st + jobs_of c st + dones_of c st <= 1 /\
  (c_phase (s_clients st c) = Idle -> requests_of c st + jobs_of c st + dones_of c st = 0) /\
  (c_phase (s_clients st c) = Await -> requests_of c st + jobs_of c st + dones_of c st = 1).
Proof.
  intros W taste exporter st c Tp R. destruct (reachable_inv _ _ _ _ Tp R) as ((HC & _) & _). pose proof (tokens_count st c) as T. specialize (HC c).
  split; [|split].
  - destruct (inv_one st c HC) as [E|[x E]]; rewrite E in T; cbn in T; lia.
  - intros P. unfold inv_c in HC. rewrite P in HC. destruct HC as [_ E]. rewrite E in T. cbn in T. lia.
  - intros P. unfold inv_c in HC. rewrite P in HC. destruct HC as (tk & E & _ & G). rewrite E in T. cbn in T.
    assert (X : requests_of c st + jobs_of c st + dones_of c st <> 0); [|lia]. intros Z.
    assert (Z1 : requests_of c st = 0) by lia. assert (Z2 : jobs_of c st = 0) by lia. assert (Z3 : dones_of c st = 0) by lia.
    assert (Tk : match tk with TMore q n => In (IMore c q n) (s_box st) /\ n <> 0 | TJob q o => exists x, In x (s_busy st) /\ j_client (snd x) = c
                 | TDone => In CDone (c_box (s_clients st c)) | _ => False end).
    { assert (I : In tk (tokens st c)) by (rewrite E; now left). unfold tokens, toks in I. apply in_app_iff in I as [I|I]; [|apply in_app_iff in I as [I|I]].
      - apply in_flat_map in I as (m & Im & I). destruct m as [d|d|d q n|w]; cbn [boxtok] in I; try contradiction.
        + destruct (d =? c); [|contradiction]. destruct I as [<-|[]]. destruct G as [(_ & _ & _ & _ & G)|(_ & _ & _ & _ & _ & G)]; [discriminate|exact G].
        + destruct (d =? c); [|contradiction]. destruct I as [<-|[]]. destruct G as [(_ & _ & _ & _ & G)|(_ & _ & _ & _ & _ & G)]; [discriminate|exact G].
        + destruct (Nat.eqb_spec d c) as [->|]; [|contradiction]. destruct (Nat.eqb_spec n 0) as [|N]; [contradiction|]. destruct I as [<-|[]]. auto.
      - apply in_flat_map in I as (m & Im & I). unfold jobtok in I. destruct (Nat.eqb_spec (j_client (snd m)) c) as [D|]; [|contradiction].
        destruct I as [<-|[]]. eauto.
      - apply in_flat_map in I as (m & Im & I). destruct m; [contradiction|]. destruct I as [<-|[]]. exact Im. }
    destruct tk as [| |q n|q o|]; try contradiction.
    + destruct Tk as [I N]. unfold requests_of in Z1. apply length_zero_iff_nil in Z1.
      assert (Y : In (IMore c q n) []); [|contradiction]. rewrite <- Z1. apply filter_In. split; [exact I|]. rewrite Nat.eqb_refl. cbn. now destruct (Nat.eqb_spec n 0).
    + destruct Tk as (x & I & D). unfold jobs_of in Z2. apply length_zero_iff_nil in Z2.
      assert (Y : In x []); [|contradiction]. rewrite <- Z2. apply filter_In. split; [exact I|]. now apply Nat.eqb_eq.
    + unfold dones_of in Z3. apply length_zero_iff_nil in Z3. assert (Y : In CDone []); [|contradiction]. rewrite <- Z3. now apply filter_In.
Qed.
(** Supervisors are never lost and never used for two requests at once: each is idle, busy
    or announced to the index, in exactly one way. *)
Theorem C30_pool : forall W taste exporter st, 0 < taste -> reachable W taste exporter st ->
  Permutation (s_idle st ++ map fst (s_busy st) ++ flat_map (fun m => match m with IWorker w => [w] | _ => [] end) (s_box st)) (seq 0 W).
Proof. intros W taste exporter st Tp R. now destruct (reachable_inv _ _ _ _ Tp R) as ((_ & _ & H & _) & _). Qed.

(** No run goes on forever: after finitely many steps that change something, nothing is
    left to do but start further queries. *)
Theorem C30_terminates : forall W taste exporter (f : nat -> sys), 0 < taste -> reachable W taste exporter (f 0) ->
  ~ (forall i, exists o, ok_op o /\ proceeds o /\ step taste exporter (f i) o = Some (f (S i)) /\ f (S i) <> f i).
Proof.
  intros W taste exporter f Tp R. destruct (reachable_inv _ _ _ _ Tp R) as (V & N & Bd).
  now apply (no_endless W taste exporter N Tp (queries (f 0)) (weight N (f 0)) (f 0)).
Qed.
(** And where nothing is left to do, with at least one supervisor, all queries are done:
    all clients and supervisors are idle and no message is on its way. *)
Theorem C30_no_deadlock : forall W taste exporter st, 0 < taste -> 0 < W -> reachable W taste exporter st ->
  (forall o st', ok_op o -> proceeds o -> step taste exporter st o = Some st' -> st' = st) ->
  s_box st = [] /\ s_busy st = [] /\ Permutation (s_idle st) (seq 0 W) /\ forall c, c_phase (s_clients st c) = Idle.
Proof.
  intros W taste exporter st Tp Wp R H. destruct (reachable_inv _ _ _ _ Tp R) as (V & N & Bd). apply deadlock_free; auto.
  intros o Ko Po E. destruct (inv_step W taste exporter st o Tp Ko V) as (st' & S & _).
  destruct (closer_step N W taste exporter st o st' Tp Ko Po V Bd S) as [[X _]|X]; [contradiction|].
  rewrite (H o st' Ko Po S) in X. unfold closer in X. lia.
Qed.

(** * Cases *)

Definition env_of (found : list nat) (down : list nat) : env :=
  {| e_found := found; e_arrange := fun l => l; e_avail := fun p => negb (existsb (Nat.eqb p) down) |}.
Lemma env_of_ok : forall found down, NoDup found -> ok_env (env_of found down).
Proof. intros found down H. split; [exact H|reflexivity]. Qed.

(** Three partitions, asked for two at a time, one of them cannot be loaded. *)
Example C28_example :
  let e := env_of [] [8] in
  serve [(2, e)] (Some [7; 8; 9; 10]) = ([7; 9], [8], Some [10]) /\ serve [(2, e); (2, e)] (Some [7; 8; 9; 10]) = ([7; 9; 10], [8], None) /\
  serve [(1, e); (0, e)] (Some [7; 8; 9]) = ([7], [], None).
Proof. repeat split. Qed.

Definition none := env_of [] [].
(** A query processor (client 0) and an exporter (client 1) share one supervisor. *)
Definition sample_run : list op :=
  [Index (IWorker 0) none; Start 0; Start 1; Index (IQuery 0) none; Index (IQuery 1) none; Index (ILookup 1) (env_of [7; 8; 9] []);
   Index (ILookup 0) (env_of [8; 9] []); Index (IMore 1 1 1) none; Index (IMore 0 2 1) none; Client 1; Client 0; Answer 0 7; Client 1;
   Index (IWorker 0) none; Index (IMore 0 2 1) none; Index (IMore 1 1 2) none; Answer 0 8; Index (IWorker 0) none; Index (IMore 1 1 2) (env_of [] [8]);
   Client 0; Index (IMore 0 2 1) none; Answer 0 9; Index (IWorker 0) none; Client 1; Index (IMore 0 2 1) (env_of [] [9]); Index (IMore 1 1 0) none; Client 0; Index (IWorker 0) none].
Lemma sample_run_ok : Forall ok_op sample_run.
Proof. repeat (constructor; [try exact I; apply env_of_ok; repeat (constructor; [cbn; lia|]); constructor|]). constructor. Qed.
Example C30_example : exists st, run 1 (fun c => c =? 1) (start 1) sample_run = Some st /\ reachable 1 1 (fun c => c =? 1) st /\
  s_box st = [] /\ s_busy st = [] /\ s_idle st = [0] /\ c_phase (s_clients st 0) = Idle /\ c_phase (s_clients st 1) = Idle /\
  s_next st = 3 /\ g_owner st 1 = 1 /\ g_answered st 1 = [7; 9] /\ g_skipped st 1 = [8] /\ g_answered st 2 = [8] /\ g_skipped st 2 = [9].
Proof.
  destruct (run 1 (fun c => c =? 1) (start 1) sample_run) as [st|] eqn:E; [|vm_compute in E; discriminate]. exists st.
  split; [reflexivity|]. split; [exists sample_run; split; [exact sample_run_ok|exact E]|]. vm_compute in E. injection E as <-. repeat split.
Qed.
(** A state in the middle of a run, for the theorems about clients that wait. *)
Example C30_waiting_example : exists st, reachable 1 1 (fun c => c =? 1) st /\ c_phase (s_clients st 1) = Await /\ c_total (s_clients st 1) = 3 /\
  c_recv (s_clients st 1) = 1 /\ jobs_of 0 st = 1 /\ requests_of 1 st = 1.
Proof.
  destruct (run 1 (fun c => c =? 1) (start 1) (firstn 15 sample_run)) as [st|] eqn:E; [|vm_compute in E; discriminate]. exists st.
  split; [exists (firstn 15 sample_run); split; [|exact E]|].
  - apply Forall_forall. intros o H. pose proof sample_run_ok as K. rewrite Forall_forall in K. apply K.
    rewrite <- (firstn_skipn 15 sample_run). apply in_app_iff. now left.
  - vm_compute in E. injection E as <-. repeat split.
Qed.

(** With a taste of zero partitions, which nothing forbids, a query never ends: the client
    is told that no partition was scheduled, the index drops the query, and nobody reports
    done. *)
Definition stuck_run : list op := [Index (IWorker 0) none; Start 0; Index (IQuery 0) none; Index (ILookup 0) (env_of [7] []); Client 0; Index (IMore 0 1 0) none].
Theorem C30_taste_zero_refuted : exists st, Forall ok_op stuck_run /\ run 0 (fun _ => false) (start 1) stuck_run = Some st /\
  c_phase (s_clients st 0) = Await /\ forall o, proceeds o -> step 0 (fun _ => false) st o = Some st.
Proof.
  destruct (run 0 (fun _ => false) (start 1) stuck_run) as [st|] eqn:E; [|vm_compute in E; discriminate]. exists st.
  split; [repeat (constructor; [try exact I; apply env_of_ok; repeat (constructor; [cbn; lia|]); constructor|]); constructor|].
  split; [reflexivity|]. vm_compute in E. injection E as <-. split; [reflexivity|]. intros o P. destruct o as [c|m e|w p|c]; [contradiction|reflexivity|reflexivity|].
  unfold step, client_step. cbn [s_clients]. destruct c as [|c]; reflexivity.
Qed.
(** Without supervisors nothing happens to a query. *)
Theorem C30_no_supervisors_refuted : exists st, reachable 0 1 (fun _ => false) st /\
  c_phase (s_clients st 0) = AwaitId /\ forall o, proceeds o -> step 1 (fun _ => false) st o = Some st.
Proof.
  exists (client_start (start 0) 0). split; [exists [Start 0]; split; [now repeat constructor|reflexivity]|]. split; [reflexivity|].
  intros o P. destruct o as [c|m e|w p|c]; [contradiction| |reflexivity|].
  - cbn [step]. destruct (take_msg m (s_box (client_start (start 0) 0))) as [b|] eqn:T; [|reflexivity].
    destruct m as [d|d|d q n|w]; cbn in T; try discriminate. reflexivity.
  - unfold step, client_step. cbn. unfold upd. destruct (c =? 0); reflexivity.
Qed.

Definition assumptions_query := (C28_request, C28_loaded_first, C28_index_serves, C28_sequence, C28_system, C30_no_assertion, C30_complete, C30_counts,
  C30_done_once, C30_pool, C30_terminates, C30_no_deadlock, C28_example, C30_example, C30_waiting_example, C30_taste_zero_refuted, C30_no_supervisors_refuted).
Print Assumptions assumptions_query.
