(** Proofs about how queries are driven (QueryModel.v). *)
From Coq Require Import List Bool Arith Lia Permutation ZifyBool ZifyNat.
From Verif Require Import QueryModel.
Import ListNotations.
Open Scope nat_scope.

(** * Scheduling *)

Lemma collect_loop_spec : forall up ps n a s r, collect_loop up n ps = (a, s, r) ->
  exists taken, ps = taken ++ r /\ a = filter up taken /\ s = filter (fun p => negb (up p)) taken /\
    length a <= n /\ (length a = n \/ r = []) /\ (n = 0 -> taken = []) /\ Nat.min n (length ps) <= length taken.
Proof.
  intros up. induction ps as [|p ps IH]; intros n a s r H.
  - destruct n; injection H as <- <- <-; exists []; cbn; repeat split; auto; lia.
  - destruct n as [|n]; [injection H as <- <- <-; exists []; cbn; repeat split; auto; lia|]. cbn [collect_loop] in H.
    destruct (up p) eqn:U.
    + destruct (collect_loop up n ps) as [[a' s'] r'] eqn:E. injection H as <- <- <-.
      destruct (IH _ _ _ _ E) as (t & -> & -> & -> & L & F & Z & M). exists (p :: t). cbn [filter app length] in *. rewrite U. cbn [negb length].
      repeat split; auto; try lia; try discriminate. destruct F as [F|F]; [left; lia|now right].
    + destruct (collect_loop up (S n) ps) as [[a' s'] r'] eqn:E. injection H as <- <- <-.
      destruct (IH _ _ _ _ E) as (t & -> & -> & -> & L & F & Z & M). exists (p :: t). cbn [filter app length] in *. rewrite U. cbn [negb].
      repeat split; auto; try lia; try discriminate.
Qed.
Lemma filter_split_perm : forall A (f : A -> bool) l, Permutation l (filter f l ++ filter (fun x => negb (f x)) l).
Proof.
  intros A f. induction l as [|x l IH]; [constructor|]. cbn [filter]. destruct (f x); cbn [negb app]; [now constructor|].
  now apply Permutation_cons_app.
Qed.
(** What a request does: it takes candidates off the list, schedules those that are
    available, at most the number asked for, and fewer only if no candidate is left. *)
Lemma collect_spec : forall arrange up n ps a s r, (forall l, Permutation (arrange l) l) ->
  collect_query_actors arrange up n ps = (a, s, r) ->
  Permutation ps (a ++ s ++ r) /\ Forall (fun p => up p = true) a /\ Forall (fun p => up p = false) s /\
  length a <= n /\ (length a = n \/ r = []) /\ Nat.min n (length ps) <= length a + length s.
Proof.
  intros arrange up n ps a s r P H. unfold collect_query_actors in H.
  destruct (Nat.eqb_spec n 0) as [->|N]; cbn [orb] in H.
  { injection H as <- <- <-. cbn. repeat split; auto; lia. }
  destruct ps as [|p ps]; [injection H as <- <- <-; cbn; repeat split; auto; lia|].
  destruct (collect_loop_spec _ _ _ _ _ _ H) as (t & E & -> & -> & L & F & _ & M).
  pose proof (filter_split_perm _ up t) as S. split.
  { rewrite <- (P (p :: ps)), E, app_assoc. now apply Permutation_app_tail. }
  split; [apply Forall_forall; intros x Hx; now apply filter_In in Hx|].
  split; [apply Forall_forall; intros x Hx; apply filter_In in Hx as [_ Hx]; now destruct (up x)|].
  rewrite <- (Permutation_length (P (p :: ps))). apply Permutation_length in S. rewrite app_length in S.
  repeat split; auto; lia.
Qed.

(** * What is in flight for a client *)

Inductive tok := TQuery | TLookup | TMore (q n : nat) | TJob (q : nat) (open : list nat) | TDone.
Definition boxtok (c : nat) (m : imsg) : list tok :=
  match m with
  | IQuery d => if d =? c then [TQuery] else []
  | ILookup d => if d =? c then [TLookup] else []
  | IMore d q n => if (d =? c) && negb (n =? 0) then [TMore q n] else []
  | IWorker _ => []
  end.
Definition jobtok (c : nat) (x : nat * job) : list tok := if j_client (snd x) =? c then [TJob (j_qid (snd x)) (j_open (snd x))] else [].
Definition mailtok (m : cmsg) : list tok := match m with CDone => [TDone] | CReply _ _ _ => [] end.
Definition toks (box : list imsg) (busy : list (nat * job)) (mail : list cmsg) (c : nat) : list tok :=
  flat_map (boxtok c) box ++ flat_map (jobtok c) busy ++ flat_map mailtok mail.
Definition tokens (st : sys) (c : nat) : list tok := toks (s_box st) (s_busy st) (c_box (s_clients st c)) c.

Definition rem (st : sys) (q : nat) : list nat := match s_pending st q with Some l => l | None => [] end.
(** How the token of a running query relates to the query. *)
Definition round (st : sys) (q t s r : nat) (tk : tok) : Prop :=
  match tk with
  | TMore q' n => q' = q /\ n = s /\ length (rem st q) <= t - r /\ Permutation (g_asked st q) (g_answered st q)
  | TJob q' open => q' = q /\ open <> [] /\ length (rem st q) <= t - r - s /\ Permutation (g_asked st q) (g_answered st q ++ open)
  | TDone => length (rem st q) <= t - r - s /\ Permutation (g_asked st q) (g_answered st q)
  | _ => False
  end.
Definition live (st : sys) (c q t s r : nat) (mail : list cmsg) : Prop :=
  exists tk, tokens st c = [tk] /\ Forall (fun m => m = CDone) mail /\
    ((t = 0 /\ s = 0 /\ r = 0 /\ q = 0 /\ tk = TDone) \/
     (0 < s /\ r + s <= t /\ 1 <= q < s_next st /\ g_owner st q = c /\ length (g_cands st q) = t /\ round st q t s r tk)).
Definition inv_c (st : sys) (c : nat) : Prop :=
  let k := s_clients st c in
  match c_phase k with
  | Idle => c_box k = [] /\ tokens st c = []
  | AwaitId => c_recv k = 0 /\
      ((c_box k = [] /\ (tokens st c = [TQuery] \/ tokens st c = [TLookup])) \/
       (exists q t s mail, c_box k = CReply q t s :: mail /\ live st c q t s 0 mail))
  | Await => live st c (c_qid k) (c_total k) (c_sched k) (c_recv k) (c_box k)
  end.
(** The query a client works on. *)
Definition current (k : client) : option nat :=
  match c_phase k, c_box k with
  | Await, _ => Some (c_qid k)
  | AwaitId, CReply q _ _ :: _ => Some q
  | _, _ => None
  end.
Definition finished (st : sys) (q : nat) : Prop := s_pending st q = None /\ Permutation (g_asked st q) (g_answered st q).
Definition inv_q (st : sys) (q : nat) : Prop :=
  s_pending st q <> Some [] /\
  (s_pending st q <> None -> 1 <= q < s_next st) /\
  (1 <= q < s_next st -> Permutation (g_cands st q) (g_asked st q ++ g_skipped st q ++ rem st q) /\ NoDup (g_cands st q) /\
     (current (s_clients st (g_owner st q)) = Some q \/ finished st q)).
Definition boxworker (m : imsg) : list nat := match m with IWorker w => [w] | _ => [] end.
Definition inv_w (workers : nat) (st : sys) : Prop :=
  Permutation (s_idle st ++ map fst (s_busy st) ++ flat_map boxworker (s_box st)) (seq 0 workers).
(** A client drops a query only after it is finished. *)
Definition inv_d (st : sys) : Prop := forall c q, In (IMore c q 0) (s_box st) -> s_pending st q = None /\ q < s_next st.
Definition inv (workers : nat) (st : sys) : Prop :=
  (forall c, inv_c st c) /\ (forall q, inv_q st q) /\ inv_w workers st /\ inv_d st /\ 1 <= s_next st.

(** * Lists *)

Lemma take_msg_spec : forall m box box', take_msg m box = Some box' -> exists l r, box = l ++ m :: r /\ box' = l ++ r.
Proof.
  intros m. induction box as [|x box IH]; intros box' H; [discriminate|]. cbn [take_msg] in H. destruct (imsg_eqb m x) eqn:E.
  - injection H as <-. assert (m = x) as ->.
    { destruct m, x; cbn in E; try discriminate; try (apply Nat.eqb_eq in E; now subst).
      apply andb_true_iff in E as [E E3]. apply andb_true_iff in E as [E1 E2]. apply Nat.eqb_eq in E1, E2, E3. now subst. }
    now exists [], box.
  - destruct (take_msg m box) as [b|]; [|discriminate]. injection H as <-. destruct (IH _ eq_refl) as (l & r & -> & ->).
    now exists (x :: l), r.
Qed.
Lemma take_part_spec : forall p ps ps', take_part p ps = Some ps' -> Permutation ps (p :: ps').
Proof.
  intros p. induction ps as [|x ps IH]; intros ps' H; [discriminate|]. cbn [take_part] in H. destruct (Nat.eqb_spec p x) as [->|N].
  - now injection H as <-.
  - destruct (take_part p ps) as [l|]; [|discriminate]. injection H as <-. specialize (IH _ eq_refl). rewrite IH. constructor.
Qed.
Lemma take_job_spec : forall w js j js', take_job w js = Some (j, js') -> exists l r, js = l ++ (w, j) :: r /\ js' = l ++ r.
Proof.
  intros w. induction js as [|[v k] js IH]; intros j js' H; [discriminate|]. cbn [take_job] in H. destruct (Nat.eqb_spec w v) as [->|N].
  - injection H as <- <-. now exists [], js.
  - destruct (take_job w js) as [[k' r']|]; [|discriminate]. injection H as <- <-. destruct (IH _ _ eq_refl) as (l & r & -> & ->).
    now exists ((v, k) :: l), r.
Qed.
Lemma upd_same : forall A (f : nat -> A) k v, upd f k v k = v.
Proof. intros. unfold upd. now rewrite Nat.eqb_refl. Qed.
Lemma upd_other : forall A (f : nat -> A) k v i, i <> k -> upd f k v i = f i.
Proof. intros. unfold upd. destruct (Nat.eqb_spec i k); congruence. Qed.
Lemma single : forall A (l r : list A) x y, l ++ x :: r = [y] -> x = y /\ l = [] /\ r = [].
Proof. intros A [|a l] r x y H; cbn in H; [injection H as -> ->; auto|]. injection H as _ H. now destruct l. Qed.
Lemma nil_app : forall A (l r : list A), l ++ r = [] -> l = [] /\ r = [].
Proof. intros A [|a l] r H; [auto|discriminate]. Qed.

(** * Frames *)

Lemma live_frame : forall st st' c q t s r mail mail', tokens st' c = tokens st c -> s_next st <= s_next st' ->
  Forall (fun m => m = CDone) mail' ->
  (forall q, 1 <= q < s_next st -> g_owner st q = c ->
     g_owner st' q = c /\ g_cands st' q = g_cands st q /\ s_pending st' q = s_pending st q /\ g_asked st' q = g_asked st q /\
     g_answered st' q = g_answered st q) ->
  live st c q t s r mail -> live st' c q t s r mail'.
Proof.
  intros st st' c q t s r mail mail' T L M G (tk & E & _ & H). exists tk. rewrite T. split; [exact E|]. split; [exact M|].
  destruct H as [H|(H1 & H2 & H3 & H4 & H5 & H6)]; [now left|right]. destruct (G q H3 H4) as (G1 & G2 & G3 & G4 & G5).
  repeat split; auto; try lia; try congruence. unfold round, rem in *. rewrite G3, G4, G5. exact H6.
Qed.
Lemma live_mail : forall st c q t s r mail, live st c q t s r mail -> Forall (fun m => m = CDone) mail.
Proof. now intros st c q t s r mail (tk & _ & H & _). Qed.
Lemma inv_c_frame : forall st st' c, s_clients st' c = s_clients st c -> tokens st' c = tokens st c -> s_next st <= s_next st' ->
  (forall q, 1 <= q < s_next st -> g_owner st q = c ->
     g_owner st' q = c /\ g_cands st' q = g_cands st q /\ s_pending st' q = s_pending st q /\ g_asked st' q = g_asked st q /\
     g_answered st' q = g_answered st q) ->
  inv_c st c -> inv_c st' c.
Proof.
  intros st st' c C T L G H. unfold inv_c in *. rewrite C, T. destruct (c_phase (s_clients st c)); [exact H| |].
  - destruct H as [R H]. split; [exact R|]. destruct H as [H|(q & t & s & mail & E & H)]; [now left|right].
    exists q, t, s, mail. split; [exact E|]. eapply live_frame; eauto. eapply live_mail; eauto.
  - eapply live_frame; eauto. eapply live_mail; eauto.
Qed.
(** Clients that a message does not concern. *)
Lemma toks_box : forall l m r busy mail c, boxtok c m = [] -> toks (l ++ m :: r) busy mail c = toks (l ++ r) busy mail c.
Proof. intros l m r busy mail c H. unfold toks. rewrite !flat_map_app. cbn [flat_map]. now rewrite H. Qed.
Lemma toks_snoc : forall box m busy mail c, boxtok c m = [] -> toks (box ++ [m]) busy mail c = toks box busy mail c.
Proof. intros box m busy mail c H. rewrite toks_box by exact H. now rewrite app_nil_r. Qed.
Lemma toks_job : forall box l x r mail c, jobtok c x = [] -> toks box (l ++ x :: r) mail c = toks box (l ++ r) mail c.
Proof. intros box l x r mail c H. unfold toks. rewrite !flat_map_app. cbn [flat_map]. now rewrite H. Qed.

(** The token of a message in the mailbox of the index is the token of its client. *)
Lemma only_token : forall l m r busy mail c x, boxtok c m = [x] ->
  forall y, toks (l ++ m :: r) busy mail c = [y] -> x = y /\ toks (l ++ r) busy mail c = [].
Proof.
  intros l m r busy mail c x B y H. unfold toks in *. rewrite flat_map_app in *. cbn [flat_map] in H. rewrite B, <- !app_assoc in H. cbn [app] in H.
  apply single in H as (-> & E1 & E2). apply nil_app in E2 as (E2 & E3). rewrite E1, E2, E3. auto.
Qed.
Lemma only_job : forall box l j r mail c x, jobtok c j = [x] ->
  forall y, toks box (l ++ j :: r) mail c = [y] -> x = y /\ toks box (l ++ r) mail c = [].
Proof.
  intros box l j r mail c x B y H. unfold toks in *. rewrite (flat_map_app _ l) in *. cbn [flat_map] in H.
  rewrite B, <- !app_assoc in H. cbn [app] in H. rewrite app_assoc in H.
  apply single in H as (-> & E1 & E2). apply nil_app in E1 as (E1 & E4). apply nil_app in E2 as (E2 & E3). rewrite E1, E2, E3, E4. auto.
Qed.
Lemma toks_nil : forall box busy mail c, toks box busy mail c = [] ->
  flat_map (boxtok c) box = [] /\ flat_map (jobtok c) busy = [] /\ flat_map mailtok mail = [].
Proof. intros box busy mail c H. unfold toks in H. apply nil_app in H as (A & H). apply nil_app in H as (B & C). auto. Qed.
(** A client has at most one token. *)
Lemma inv_one : forall st c, inv_c st c -> tokens st c = [] \/ exists x, tokens st c = [x].
Proof.
  intros st c H. unfold inv_c in H. destruct (c_phase (s_clients st c)); [left; apply H| |].
  - destruct H as [_ [[_ [H|H]]|(q & t & s & mail & _ & tk & H & _)]]; right; eexists; exact H.
  - destruct H as (tk & H & _). right. eexists. exact H.
Qed.
(** A running query. *)
Lemma live_of_token : forall st c, inv_c st c -> tokens st c <> [] -> tokens st c <> [TQuery] -> tokens st c <> [TLookup] ->
  exists q t s r mail, live st c q t s r mail /\ current (s_clients st c) = Some q /\
    ((c_phase (s_clients st c) = AwaitId /\ r = 0 /\ c_recv (s_clients st c) = 0 /\ c_box (s_clients st c) = CReply q t s :: mail) \/
     (c_phase (s_clients st c) = Await /\ c_qid (s_clients st c) = q /\ c_total (s_clients st c) = t /\ c_sched (s_clients st c) = s /\
      c_recv (s_clients st c) = r /\ c_box (s_clients st c) = mail)).
Proof.
  intros st c H A B C. unfold inv_c, current in *. destruct (c_phase (s_clients st c)) eqn:P; [now destruct H| |].
  - destruct H as [R [[_ [H|H]]|(q & t & s & mail & E & H)]]; [contradiction..|]. exists q, t, s, 0, mail. rewrite E. split; [exact H|]. split; [reflexivity|]. left. auto.
  - do 5 eexists. split; [exact H|]. split; [reflexivity|]. right. repeat split.
Qed.
(** Rebuilding the invariant of a client whose mail grew. *)
Lemma inv_c_running : forall st c q t s r mail, live st c q t s r mail ->
  ((c_phase (s_clients st c) = AwaitId /\ r = 0 /\ c_recv (s_clients st c) = 0 /\ c_box (s_clients st c) = CReply q t s :: mail) \/
   (c_phase (s_clients st c) = Await /\ c_qid (s_clients st c) = q /\ c_total (s_clients st c) = t /\ c_sched (s_clients st c) = s /\
    c_recv (s_clients st c) = r /\ c_box (s_clients st c) = mail)) -> inv_c st c.
Proof.
  intros st c q t s r mail L H. unfold inv_c. destruct H as [(P & -> & R & E)|(P & Q & T & S & R & E)]; rewrite P.
  - split; [exact R|]. right. exists q, t, s, mail. auto.
  - now rewrite Q, T, S, R, E.
Qed.

Lemma inv_q_frame : forall st st' q, s_pending st' q = s_pending st q -> g_owner st' q = g_owner st q -> g_cands st' q = g_cands st q ->
  g_asked st' q = g_asked st q -> g_skipped st' q = g_skipped st q -> g_answered st' q = g_answered st q ->
  (s_next st <= s_next st' /\ (q < s_next st' -> q < s_next st)) -> (current (s_clients st (g_owner st q)) = Some q -> 1 <= q < s_next st -> current (s_clients st' (g_owner st q)) = Some q \/ finished st q) ->
  inv_q st q -> inv_q st' q.
Proof.
  intros st st' q E1 E2 E3 E4 E5 E6 E7 C (A & B & D). unfold inv_q, rem, finished in *. rewrite E1, E2, E3, E4, E5, E6.
  split; [exact A|]. split; [intros X; specialize (B X); lia|]. intros R0. assert (R : 1 <= q < s_next st) by lia. destruct (D R) as (D1 & D2 & D3). split; [exact D1|]. split; [exact D2|].
  destruct D3 as [D3|D3]; [|now right]. destruct (C D3 R) as [C'|C']; [now left|now right].
Qed.
(** A message is taken out of the mailbox and others are put in. *)
Lemma in_mid : forall A (l r : list A) m x, In x (l ++ r) -> In x (l ++ m :: r).
Proof. intros A l r m x H. apply in_app_iff in H. apply in_app_iff. cbn. tauto. Qed.
Lemma inv_d_sub : forall st st', (forall c q, In (IMore c q 0) (s_box st') -> In (IMore c q 0) (s_box st)) ->
  (forall q, q < s_next st -> s_pending st q = None -> s_pending st' q = None) -> s_next st <= s_next st' -> inv_d st -> inv_d st'.
Proof. intros st st' B P N H c q I. apply B in I. destruct (H _ _ I) as [H1 H2]. split; [now apply P|lia]. Qed.
Lemma workers_mid : forall l m r, boxworker m = [] -> flat_map boxworker (l ++ m :: r) = flat_map boxworker (l ++ r).
Proof. intros l m r H. rewrite !flat_map_app. cbn [flat_map]. now rewrite H. Qed.
Lemma workers_snoc : forall l m, boxworker m = [] -> flat_map boxworker (l ++ [m]) = flat_map boxworker l.
Proof. intros l m H. rewrite workers_mid by exact H. now rewrite app_nil_r. Qed.
Lemma boxtok_other : forall c d m, c <> d -> (m = IQuery d \/ m = ILookup d \/ (exists q n, m = IMore d q n) \/ exists w, m = IWorker w) -> boxtok c m = [].
Proof.
  intros c d m N [-> | [-> | [(q & n & ->) | (w & ->)] ] ]; cbn [boxtok]; try reflexivity; destruct (Nat.eqb_spec d c); auto; congruence.
Qed.

(** * Steps *)

Lemma inv_start : forall W st c, inv W st -> inv W (client_start st c).
Proof.
  intros W st c V. pose proof V as (HC & HQ & HW & HD & HN). unfold client_start. destruct (c_phase (s_clients st c)) eqn:P; [|exact V..].
  pose proof (HC c) as H. unfold inv_c in H. rewrite P in H. destruct H as (Hb & Ht).
  set (st' := set_box _ _). split; [|split; [|split; [|split]]].
  - intros d. destruct (Nat.eq_dec d c) as [->|N].
    + unfold inv_c, tokens, st', set_box, set_client. cbn [s_clients s_box s_busy]. rewrite upd_same. cbn [c_phase c_recv c_box]. split; [reflexivity|].
      left. split; [exact Hb|]. left. unfold tokens in Ht. apply toks_nil in Ht as (T1 & T2 & T3). unfold toks. rewrite flat_map_app, T1, T2, T3.
      cbn. now rewrite Nat.eqb_refl.
    + apply (inv_c_frame st); [| |auto|auto|apply HC].
      * unfold st', set_box, set_client. cbn. now rewrite upd_other.
      * unfold tokens, st', set_box, set_client. cbn [s_clients s_box s_busy]. rewrite upd_other by exact N. apply toks_snoc.
        apply (boxtok_other d c); auto.
  - intros q. apply (inv_q_frame st); try reflexivity; [now split| |apply HQ]. intros Cq _. left. unfold st', set_box, set_client. cbn [s_clients].
    destruct (Nat.eq_dec (g_owner st q) c) as [E|N]; [|now rewrite upd_other]. rewrite E in Cq. unfold current in Cq. now rewrite P in Cq.
  - unfold inv_w in *. cbn. rewrite workers_snoc by reflexivity. exact HW.
  - eapply inv_d_sub; [| | |exact HD]; auto. cbn. intros d q I. apply in_app_iff in I as [I|[I|[]]]; [exact I|discriminate].
  - exact HN.
Qed.

(** Replacing a message of a client by another one with a token. *)
Lemma inv_lookup : forall W st l r c, inv W st -> s_box st = l ++ IQuery c :: r -> inv W (set_box st ((l ++ r) ++ [ILookup c])).
Proof.
  intros W st l r c (HC & HQ & HW & HD & HN) B. split; [|split; [|split; [|split]]].
  - intros d. destruct (Nat.eq_dec d c) as [->|N].
    + pose proof (HC c) as H. destruct (inv_one st c H) as [T|[x T]].
      { unfold tokens in T. rewrite B in T. apply toks_nil in T as (T & _). rewrite flat_map_app in T. apply nil_app in T as [_ T].
        cbn in T. rewrite Nat.eqb_refl in T. discriminate. }
      pose proof T as T'. unfold tokens in T'. rewrite B in T'. apply (only_token _ _ _ _ _ _ TQuery) in T' as (<- & T'); [|cbn; now rewrite Nat.eqb_refl].
      unfold inv_c in *. cbn [s_clients set_box]. destruct (c_phase (s_clients st c)); [destruct H; congruence| |].
      * destruct H as [R [[Hb _]|(q & t & s & mail & E & tk & F & _ & G)]].
        -- split; [exact R|]. left. split; [exact Hb|]. right. unfold tokens. cbn [s_box s_busy s_clients set_box].
           apply toks_nil in T' as (T1 & T2 & T3). unfold toks. rewrite flat_map_app, T1, T2, T3. cbn. now rewrite Nat.eqb_refl.
        -- rewrite T in F. injection F as <-. destruct G as [(_ & _ & _ & _ & G)|(_ & _ & _ & _ & _ & G)]; [discriminate|contradiction].
      * destruct H as (tk & F & _ & G). rewrite T in F. injection F as <-.
        destruct G as [(_ & _ & _ & _ & G)|(_ & _ & _ & _ & _ & G)]; [discriminate|contradiction].
    + apply (inv_c_frame st); try reflexivity; [|auto|apply HC]. unfold tokens. cbn [s_box s_busy s_clients set_box]. rewrite B.
      rewrite toks_snoc, toks_box; [reflexivity|eapply boxtok_other; eauto..].
  - intros q. apply (inv_q_frame st); try reflexivity; [now split|auto|apply HQ].
  - unfold inv_w in *. cbn [s_idle s_busy s_box set_box]. rewrite B, workers_mid in HW by reflexivity. now rewrite workers_snoc.
  - eapply inv_d_sub; [| | |exact HD]; auto. cbn. intros d q I. rewrite B. apply in_app_iff in I as [I|[I|[]]]; [|discriminate]. now apply in_mid.
  - exact HN.
Qed.

(** The state of a client that waits for its query ID. *)
Lemma lookup_client : forall st l r c, inv_c st c -> s_box st = l ++ ILookup c :: r ->
  c_phase (s_clients st c) = AwaitId /\ c_recv (s_clients st c) = 0 /\ c_box (s_clients st c) = [] /\
  toks (l ++ r) (s_busy st) [] c = [].
Proof.
  intros st l r c H B. destruct (inv_one st c H) as [T|[x T]].
  { unfold tokens in T. rewrite B in T. apply toks_nil in T as (T & _). rewrite flat_map_app in T. apply nil_app in T as [_ T].
    cbn in T. rewrite Nat.eqb_refl in T. discriminate. }
  pose proof T as T'. unfold tokens in T'. rewrite B in T'. apply (only_token _ _ _ _ _ _ TLookup) in T' as (<- & T'); [|cbn; now rewrite Nat.eqb_refl].
  unfold inv_c in H. destruct (c_phase (s_clients st c)) eqn:P; [destruct H; congruence| |].
  - destruct H as [R [[Hb _]|(q & t & s & mail & E & tk & F & _ & G)]].
    + rewrite Hb in T'. auto.
    + rewrite T in F. injection F as <-. destruct G as [(_ & _ & _ & _ & G)|(_ & _ & _ & _ & _ & G)]; [discriminate|contradiction].
  - destruct H as (tk & F & _ & G). rewrite T in F. injection F as <-.
    destruct G as [(_ & _ & _ & _ & G)|(_ & _ & _ & _ & _ & G)]; [discriminate|contradiction].
Qed.

Lemma inv_nothing : forall W st l r c, inv W st -> s_box st = l ++ ILookup c :: r ->
  inv W (to_client (set_box st (l ++ r)) c [CReply 0 0 0; CDone]).
Proof.
  intros W st l r c (HC & HQ & HW & HD & HN) B. destruct (lookup_client st l r c (HC c) B) as (P & R & M & T).
  set (st' := to_client _ _ _). split; [|split; [|split; [|split]]].
  - intros d. destruct (Nat.eq_dec d c) as [->|N].
    + assert (T' : tokens st' c = [TDone]).
      { unfold tokens, st', to_client, set_box. cbn [s_clients s_box s_busy]. rewrite upd_same. cbn [c_box]. rewrite M. cbn [app].
        apply toks_nil in T as (T1 & T2 & _). unfold toks. now rewrite T1, T2. }
      assert (K : s_clients st' c = {| c_phase := AwaitId; c_qid := c_qid (s_clients st c); c_total := c_total (s_clients st c);
        c_sched := c_sched (s_clients st c); c_recv := 0; c_box := [CReply 0 0 0; CDone] |}).
      { unfold st', to_client, set_box. cbn [s_clients]. now rewrite upd_same, P, R, M. }
      unfold inv_c. rewrite K. cbn [c_phase c_recv c_box].
      split; [reflexivity|]. right. exists 0, 0, 0, [CDone]. split; [reflexivity|]. exists TDone. split; [exact T'|].
      split; [now repeat constructor|]. left. auto.
    + apply (inv_c_frame st); [| |auto|auto|apply HC].
      * unfold st', to_client, set_box. cbn. now rewrite upd_other.
      * unfold tokens, st', to_client, set_box. cbn [s_clients s_box s_busy]. rewrite upd_other by exact N. rewrite B, toks_box; [reflexivity|].
        eapply boxtok_other; eauto.
  - intros q. apply (inv_q_frame st); try reflexivity; [now split| |apply HQ]. intros Cq Rq. left. unfold st', to_client, set_box. cbn [s_clients].
    destruct (Nat.eq_dec (g_owner st q) c) as [E|N]; [|now rewrite upd_other]. rewrite E in *. unfold current in Cq. now rewrite P, M in Cq.
  - unfold inv_w in *. cbn. now rewrite B, workers_mid in HW.
  - eapply inv_d_sub; [| | |exact HD]; auto. cbn. intros d q I. rewrite B. now apply in_mid.
  - exact HN.
Qed.

Lemma inv_found : forall W taste st l r c cands, 0 < taste -> cands <> [] -> NoDup cands -> inv W st -> s_box st = l ++ ILookup c :: r ->
  let q := s_next st in let n := Nat.min (length cands) taste in
  let st2 := to_client (set_pending (note_query (set_box st (l ++ r)) c cands) q (Some cands)) c [CReply q (length cands) n] in
  inv W (set_box st2 (s_box st2 ++ [IMore c q n])).
Proof.
  intros W taste st l r c cands Tp Cn Nd (HC & HQ & HW & HD & HN) B q n st2. destruct (lookup_client st l r c (HC c) B) as (P & R & M & T).
  assert (Lc : 0 < length cands) by (destruct cands; [contradiction|cbn; lia]). assert (Np : 0 < n) by (unfold n; lia).
  set (st' := set_box _ _).
  assert (K : s_clients st' c = {| c_phase := AwaitId; c_qid := c_qid (s_clients st c); c_total := c_total (s_clients st c);
    c_sched := c_sched (s_clients st c); c_recv := 0; c_box := [CReply q (length cands) n] |}).
  { unfold st', st2, to_client, set_box, set_pending, note_query. cbn [s_next s_clients]. now rewrite upd_same, P, R, M. }
  assert (Ko : forall d, d <> c -> s_clients st' d = s_clients st d).
  { intros d N. unfold st', st2, to_client, set_box, set_pending, note_query. cbn [s_next s_clients]. now rewrite upd_other. }
  assert (Bx : s_box st' = (l ++ r) ++ [IMore c q n]) by reflexivity.
  split; [|split; [|split; [|split]]].
  - intros d. destruct (Nat.eq_dec d c) as [->|N].
    + unfold inv_c. rewrite K. cbn [c_phase c_recv c_box]. split; [reflexivity|]. right. exists q, (length cands), n, []. split; [reflexivity|].
      exists (TMore q n). split.
      { unfold tokens. rewrite K, Bx. cbn [c_box]. change (s_busy st') with (s_busy st). apply toks_nil in T as (T1 & T2 & _).
        unfold toks. rewrite flat_map_app, T1, T2. cbn. rewrite Nat.eqb_refl. assert ((n =? 0) = false) as -> by lia. reflexivity. }
      split; [constructor|]. right. split; [exact Np|]. split; [unfold n; lia|]. split; [change (s_next st') with (S (s_next st)); unfold q; lia|].
      change (g_owner st' q) with (upd (g_owner st) (s_next st) c q). change (g_cands st' q) with (upd (g_cands st) (s_next st) cands q).
      rewrite !upd_same. split; [reflexivity|]. split; [reflexivity|]. cbn [round]. split; [reflexivity|]. split; [reflexivity|].
      unfold rem. change (s_pending st' q) with (upd (s_pending st) (s_next st) (Some cands) q).
      change (g_asked st' q) with (upd (g_asked st) (s_next st) [] q). change (g_answered st' q) with (upd (g_answered st) (s_next st) [] q).
      rewrite !upd_same. split; [lia|constructor].
    + apply (inv_c_frame st); [now apply Ko| | | |apply HC].
      * unfold tokens. rewrite Ko by exact N. rewrite Bx, B. change (s_busy st') with (s_busy st).
        rewrite toks_snoc, toks_box; [reflexivity|eapply boxtok_other; eauto 6..].
      * change (s_next st') with (S (s_next st)). lia.
      * intros p Rp Op. unfold st', st2, to_client, set_box, set_pending, note_query. cbn [s_next g_owner g_cands s_pending g_asked g_answered].
        rewrite !upd_other by (try unfold q; lia). auto.
  - intros p. destruct (Nat.eq_dec p q) as [->|N].
    + assert (Pq : s_pending st' q = Some cands) by (change (s_pending st' q) with (upd (s_pending st) (s_next st) (Some cands) q); apply upd_same).
      split; [rewrite Pq; congruence|]. split; [intros _; change (s_next st') with (S (s_next st)); unfold q; lia|]. intros _.
      unfold rem. rewrite Pq. unfold st', st2, to_client, set_box, set_pending, note_query. cbn [s_next g_owner g_cands g_asked g_skipped s_clients].
      fold q. rewrite !upd_same. cbn [app]. split; [reflexivity|]. split; [exact Nd|]. left. unfold current. rewrite P, M. reflexivity.
    + unfold q in N. apply (inv_q_frame st); [..|apply HQ].
      * unfold st', st2, to_client, set_box, set_pending, note_query. cbn [s_next s_pending]. now rewrite upd_other.
      * unfold st', st2, to_client, set_box, set_pending, note_query. cbn [s_next g_owner]. now rewrite upd_other.
      * unfold st', st2, to_client, set_box, set_pending, note_query. cbn [s_next g_cands]. now rewrite upd_other.
      * unfold st', st2, to_client, set_box, set_pending, note_query. cbn [s_next g_asked]. now rewrite upd_other.
      * unfold st', st2, to_client, set_box, set_pending, note_query. cbn [s_next g_skipped]. now rewrite upd_other.
      * unfold st', st2, to_client, set_box, set_pending, note_query. cbn [s_next g_answered]. now rewrite upd_other.
      * change (s_next st') with (S (s_next st)). lia.
      * intros Cq Rq. left. destruct (Nat.eq_dec (g_owner st p) c) as [E|E]; [|now rewrite Ko].
        rewrite E in Cq. unfold current in Cq. now rewrite P, M in Cq.
  - unfold inv_w in *. change (s_idle st') with (s_idle st). change (s_busy st') with (s_busy st). rewrite Bx, workers_snoc by reflexivity.
    now rewrite B, workers_mid in HW.
  - eapply inv_d_sub; [| | |exact HD].
    + rewrite Bx. intros d p I. apply in_app_iff in I as [I|[I|[]]]; [rewrite B; now apply in_mid|]. injection I as _ _ I. lia.
    + intros p Lp Np'. unfold st', st2, to_client, set_box, set_pending, note_query. cbn [s_next s_pending]. now rewrite upd_other by (try unfold q; lia).
    + change (s_next st') with (S (s_next st)). lia.
  - change (s_next st') with (S (s_next st)). lia.
Qed.

(** The state of a client whose request is in the mailbox of the index. *)
Lemma more_client : forall st l r c q n, inv_c st c -> s_box st = l ++ IMore c q n :: r -> 0 < n ->
  exists t k mail, live st c q t n k mail /\ mail = [] /\ current (s_clients st c) = Some q /\ toks (l ++ r) (s_busy st) (c_box (s_clients st c)) c = [] /\
    1 <= q < s_next st /\ g_owner st q = c /\ length (g_cands st q) = t /\ 0 < n /\ k + n <= t /\
    length (rem st q) <= t - k /\ Permutation (g_asked st q) (g_answered st q) /\
    ((c_phase (s_clients st c) = AwaitId /\ k = 0 /\ c_recv (s_clients st c) = 0 /\ c_box (s_clients st c) = CReply q t n :: mail) \/
     (c_phase (s_clients st c) = Await /\ c_qid (s_clients st c) = q /\ c_total (s_clients st c) = t /\ c_sched (s_clients st c) = n /\
      c_recv (s_clients st c) = k /\ c_box (s_clients st c) = mail)).
Proof.
  intros st l r c q n H B Np.
  assert (Bt : boxtok c (IMore c q n) = [TMore q n]) by (cbn; rewrite Nat.eqb_refl; now assert ((n =? 0) = false) as -> by lia).
  destruct (inv_one st c H) as [T|[x T]].
  { unfold tokens in T. rewrite B in T. apply toks_nil in T as (T & _). rewrite flat_map_app in T. apply nil_app in T as [_ T].
    cbn [flat_map] in T. rewrite Bt in T. discriminate. }
  pose proof T as T'. unfold tokens in T'. rewrite B in T'. apply (only_token _ _ _ _ _ _ _ Bt) in T' as (<- & T').
  destruct (live_of_token st c H) as (q' & t & s & k & mail & L & Cu & F); [rewrite T; discriminate..|].
  pose proof L as (tk & E & Fm & G). rewrite T in E. injection E as <-.
  destruct G as [(_ & _ & _ & _ & G)|(G1 & G2 & G3 & G4 & G5 & G6)]; [discriminate|]. cbn [round] in G6. destruct G6 as (-> & -> & G6 & G7).
  assert (Me : mail = []).
  { apply toks_nil in T' as (_ & _ & T'). destruct F as [(_ & _ & _ & F)|(_ & _ & _ & _ & _ & F)]; rewrite F in T'; cbn [flat_map mailtok app] in T';
      destruct mail as [|m mail]; auto; inversion Fm; subst; discriminate. }
  exists t, k, mail. repeat split; auto; try lia.
Qed.

(** * Progress of a running query *)

Definition with_box (k : client) (b : list cmsg) : client :=
  {| c_phase := c_phase k; c_qid := c_qid k; c_total := c_total k; c_sched := c_sched k; c_recv := c_recv k; c_box := b |}.
Definition running (st : sys) (c q t s k : nat) : Prop :=
  1 <= q < s_next st /\ g_owner st q = c /\ length (g_cands st q) = t /\ 0 < s /\ k + s <= t /\ current (s_clients st c) = Some q /\
  ((c_phase (s_clients st c) = AwaitId /\ k = 0 /\ c_recv (s_clients st c) = 0 /\ c_box (s_clients st c) = [CReply q t s]) \/
   (c_phase (s_clients st c) = Await /\ c_qid (s_clients st c) = q /\ c_total (s_clients st c) = t /\ c_sched (s_clients st c) = s /\
    c_recv (s_clients st c) = k /\ c_box (s_clients st c) = [])).
Lemma inv_progress : forall st st' c q t s k extra tk, (forall d, inv_c st d) -> (forall p, inv_q st p) -> running st c q t s k ->
  extra = [] \/ extra = [CDone] ->
  (forall d, d <> c -> s_clients st' d = s_clients st d /\ tokens st' d = tokens st d) ->
  s_clients st' c = with_box (s_clients st c) (c_box (s_clients st c) ++ extra) -> tokens st' c = [tk] ->
  s_next st' = s_next st -> (forall p, g_owner st' p = g_owner st p /\ g_cands st' p = g_cands st p) ->
  (forall p, p <> q -> s_pending st' p = s_pending st p /\ g_asked st' p = g_asked st p /\ g_skipped st' p = g_skipped st p /\
     g_answered st' p = g_answered st p) ->
  round st' q t s k tk -> Permutation (g_cands st q) (g_asked st' q ++ g_skipped st' q ++ rem st' q) -> s_pending st' q <> Some [] ->
  (forall d, inv_c st' d) /\ (forall p, inv_q st' p).
Proof.
  intros st st' c q t s k extra tk HC HQ (R1 & R2 & R3 & R4 & R5 & R6 & R7) X O K T N G P Rd Pm Pn.
  assert (Fx : Forall (fun m => m = CDone) extra) by (destruct X as [-> | ->]; repeat constructor).
  assert (Kc : current (s_clients st' c) = Some q).
  { rewrite K. unfold current, with_box in *. cbn [c_phase c_box c_qid].
    destruct R7 as [(P1 & _ & _ & P4)|(P1 & P2 & _ & _ & _ & P6)]; rewrite P1 in *; [now rewrite P4|now rewrite P2]. }
  split.
  - intros d. destruct (Nat.eq_dec d c) as [->|D].
    + assert (L : live st' c q t s k extra).
      { exists tk. split; [exact T|]. split; [exact Fx|]. right. rewrite N, (proj1 (G q)), (proj2 (G q)). auto 8. }
      apply (inv_c_running _ _ _ _ _ _ _ L). rewrite K. unfold with_box. cbn [c_phase c_qid c_total c_sched c_recv c_box].
      destruct R7 as [(P1 & P2 & P3 & P4)|(P1 & P2 & P3 & P5 & P6 & P7)]; [left; rewrite P4|right; rewrite P7]; auto 8.
    + destruct (O d D) as [O1 O2]. apply (inv_c_frame st); auto; [lia|]. intros p Rp Op. destruct (G p) as [G1 G2]. rewrite G1, G2.
      destruct (Nat.eq_dec p q) as [->|E]; [congruence|]. destruct (P p E) as (P1 & P2 & P3 & P4). auto.
  - intros p. destruct (Nat.eq_dec p q) as [->|E].
    + destruct (HQ q) as (A & B & D). destruct (D R1) as (_ & D2 & _). split; [exact Pn|]. split; [intros _; lia|]. intros _.
      rewrite (proj2 (G q)). split; [exact Pm|]. split; [exact D2|]. left. rewrite (proj1 (G q)), R2. exact Kc.
    + destruct (P p E) as (P1 & P2 & P3 & P4). destruct (G p) as [G1 G2].
      apply (inv_q_frame st); auto; [lia|]. intros Cp _. left. destruct (Nat.eq_dec (g_owner st p) c) as [F|F].
      * rewrite F in *. congruence.
      * now rewrite (proj1 (O _ F)).
Qed.

Lemma more_running : forall st l r c q n, inv_c st c -> s_box st = l ++ IMore c q n :: r -> 0 < n ->
  exists t k, running st c q t n k /\ toks (l ++ r) (s_busy st) (c_box (s_clients st c)) c = [] /\
    length (rem st q) <= t - k /\ Permutation (g_asked st q) (g_answered st q).
Proof.
  intros st l r c q n H B Np. destruct (more_client st l r c q n H B Np) as (t & k & mail & _ & -> & Cu & T & G1 & G2 & G3 & G4 & G5 & G6 & G7 & F).
  exists t, k. split; [|auto]. unfold running. auto 8.
Qed.

Lemma inv_unknown : forall W st l r c q n, inv W st -> s_box st = l ++ IMore c q n :: r -> 0 < n -> s_pending st q = None ->
  inv W (to_client (set_box st (l ++ r)) c [CDone]).
Proof.
  intros W st l r c q n (HC & HQ & HW & HD & HN) B Np Pq. destruct (more_running st l r c q n (HC c) B Np) as (t & k & Rn & T & L & Pm).
  set (st' := to_client _ _ _).
  assert (K : s_clients st' c = with_box (s_clients st c) (c_box (s_clients st c) ++ [CDone])).
  { unfold st', to_client, set_box. cbn [s_clients]. now rewrite upd_same. }
  assert (Ko : forall d, d <> c -> s_clients st' d = s_clients st d) by (intros d N; unfold st', to_client; cbn [s_clients]; now rewrite upd_other).
  destruct (inv_progress st st' c q t n k [CDone] TDone HC HQ Rn) as [A1 A2]; auto.
  - intros d N. split; [now apply Ko|]. unfold tokens. rewrite Ko by exact N. change (s_box st') with (l ++ r). rewrite B, toks_box; [reflexivity|].
    eapply boxtok_other; eauto 6.
  - unfold tokens. rewrite K. change (s_box st') with (l ++ r). change (s_busy st') with (s_busy st). cbn [c_box with_box].
    apply toks_nil in T as (T1 & T2 & T3). unfold toks. rewrite T1, T2, flat_map_app, T3. reflexivity.
  - cbn [round]. change (rem st' q) with (rem st q). unfold rem. rewrite Pq. cbn. split; [lia|exact Pm].
  - change (rem st' q) with (rem st q). apply HQ. apply Rn.
  - change (s_pending st' q) with (s_pending st q). congruence.
  - split; [exact A1|]. split; [exact A2|]. split; [|split; [|exact HN]].
    + unfold inv_w in *. cbn. now rewrite B, workers_mid in HW.
    + eapply inv_d_sub; [| | |exact HD]; auto. cbn. intros d p I. rewrite B. now apply in_mid.
Qed.

Lemma inv_drop : forall W st l r c q, inv W st -> s_box st = l ++ IMore c q 0 :: r -> inv W (set_pending (set_box st (l ++ r)) q None).
Proof.
  intros W st l r c q (HC & HQ & HW & HD & HN) B. set (st' := set_pending _ _ _).
  assert (Pq : forall p, s_pending st' p = s_pending st p).
  { intros p. unfold st', set_pending. cbn [s_pending set_box]. destruct (Nat.eq_dec p q) as [->|N]; [|now apply upd_other].
    rewrite upd_same. symmetry. apply (HD c). rewrite B. apply in_app_iff. right. now left. }
  split; [|split; [|split; [|split; [|exact HN]]]].
  - intros d. apply (inv_c_frame st); auto. unfold tokens. change (s_box st') with (l ++ r). rewrite B, toks_box; [reflexivity|].
    cbn. now rewrite andb_false_r.
  - intros p. apply (inv_q_frame st); auto.
  - unfold inv_w in *. cbn. now rewrite B, workers_mid in HW.
  - eapply inv_d_sub; [| | |exact HD]; auto.
    + cbn. intros d p I. rewrite B. now apply in_mid.
    + intros p _. now rewrite Pq.
Qed.

Lemma inv_worker : forall W st l r w, inv W st -> s_box st = l ++ IWorker w :: r -> inv W (set_idle (set_box st (l ++ r)) (w :: s_idle st)).
Proof.
  intros W st l r w (HC & HQ & HW & HD & HN) B. split; [|split; [|split; [|split; [|exact HN]]]].
  - intros d. apply (inv_c_frame st); auto. unfold tokens. cbn [s_box set_idle set_box s_busy s_clients]. rewrite B, toks_box; reflexivity.
  - intros p. apply (inv_q_frame st); auto.
  - unfold inv_w in *. cbn. rewrite B, flat_map_app in HW. cbn [flat_map boxworker app] in HW. rewrite flat_map_app, <- HW.
    rewrite !app_assoc. now apply Permutation_cons_app.
  - eapply inv_d_sub; [| | |exact HD]; auto. cbn. intros d p I. rewrite B. now apply in_mid.
Qed.

Lemma idle_free : forall W st w idle, inv_w W st -> s_idle st = w :: idle -> existsb (fun x => fst x =? w) (s_busy st) = false.
Proof.
  intros W st w idle H E. unfold inv_w in H. rewrite E in H. assert (D : NoDup (w :: idle ++ map fst (s_busy st) ++ flat_map boxworker (s_box st))).
  { eapply Permutation_NoDup; [symmetry; exact H|apply seq_NoDup]. }
  inversion D as [|? ? D1 _]; subst. apply not_true_is_false. intros X. apply existsb_exists in X as ([v j] & I & X). cbn [fst] in X.
  apply Nat.eqb_eq in X. subst v. apply D1. apply in_app_iff. right. apply in_app_iff. left. now apply (in_map fst) in I.
Qed.

Lemma inv_schedule : forall W st l r c q n parts w idle arrange up a sk rest, inv W st -> s_box st = l ++ IMore c q n :: r -> 0 < n ->
  s_pending st q = Some parts -> s_idle st = w :: idle -> (forall x, Permutation (arrange x) x) ->
  collect_query_actors arrange up n parts = (a, sk, rest) ->
  exists st', supervise (note_asked (set_pending (set_idle (set_box st (l ++ r)) idle) q (match rest with [] => None | _ => Some rest end)) q a sk) w c q a
    = Some st' /\ inv W st'.
Proof.
  intros W st l r c q n parts w idle arrange up a sk rest (HC & HQ & HW & HD & HN) B Np Pq Id Ar Co.
  destruct (more_running st l r c q n (HC c) B Np) as (t & k & Rn & T & L & Pm).
  destruct (collect_spec _ _ _ _ _ _ _ Ar Co) as (C1 & _ & _ & C4 & C5 & C6).
  set (v := match rest with [] => None | _ => Some rest end).
  assert (Rv : match v with Some x => x | None => [] end = rest) by (unfold v; now destruct rest).
  assert (Vn : v <> Some []) by (unfold v; destruct rest; discriminate).
  assert (Lr : length rest <= t - k - n).
  { unfold rem in L. rewrite Pq in L. apply Permutation_length in C1. rewrite !app_length in C1. lia. }
  assert (Pc : Permutation (g_cands st q) ((g_asked st q ++ a) ++ (g_skipped st q ++ sk) ++ rest)).
  { destruct (HQ q) as (_ & _ & D). destruct (D (proj1 Rn)) as (D1 & _). unfold rem in D1. rewrite Pq, C1 in D1. rewrite D1, <- !app_assoc.
    apply Permutation_app_head. rewrite (app_assoc (g_skipped st q) a), (app_assoc a (g_skipped st q)). apply Permutation_app_tail. apply Permutation_app_comm. }
  unfold supervise. cbn [s_busy note_asked set_pending set_idle set_box].
  rewrite (idle_free W st w idle HW Id). set (st1 := note_asked _ _ _ _).
  assert (Dp : forall p, p <> q -> s_pending st1 p = s_pending st p /\ g_asked st1 p = g_asked st p /\ g_skipped st1 p = g_skipped st p /\ g_answered st1 p = g_answered st p).
  { intros p N. unfold st1, note_asked, set_pending, set_idle, set_box. cbn [s_pending g_asked g_skipped g_answered]. now rewrite !upd_other. }
  assert (Eq1 : s_pending st1 q = v /\ g_asked st1 q = g_asked st q ++ a /\ g_skipped st1 q = g_skipped st q ++ sk /\ g_answered st1 q = g_answered st q).
  { unfold st1, note_asked, set_pending, set_idle, set_box. cbn [s_pending g_asked g_skipped g_answered]. now rewrite !upd_same. }
  destruct Eq1 as (E1 & E2 & E3 & E4).
  assert (Hd : forall st', (forall d p, In (IMore d p 0) (s_box st') -> In (IMore d p 0) (l ++ r)) -> (forall p, s_pending st' p = s_pending st1 p) -> s_next st' = s_next st -> inv_d st').
  { intros st' Hb Hp Hn. eapply inv_d_sub; [| | |exact HD].
    - intros d p I. rewrite B. apply in_mid. now apply (Hb d p).
    - intros p Lp Np'. rewrite Hp. destruct (Nat.eq_dec p q) as [->|N]; [congruence|]. now rewrite (proj1 (Dp p N)).
    - lia. }
  destruct a as [|a0 a'].
  - eexists. split; [reflexivity|]. set (st' := set_box _ _).
    assert (K : s_clients st' c = with_box (s_clients st c) (c_box (s_clients st c) ++ [CDone])).
    { unfold st', to_client, set_box. cbn [s_clients]. now rewrite upd_same. }
    assert (Ko : forall d, d <> c -> s_clients st' d = s_clients st d).
    { intros d N. unfold st', to_client, set_box. cbn [s_clients]. now rewrite upd_other. }
    assert (Bx : s_box st' = (l ++ r) ++ [IWorker w]) by reflexivity. assert (By : s_busy st' = s_busy st) by reflexivity.
    destruct (inv_progress st st' c q t n k [CDone] TDone HC HQ Rn) as [A1 A2]; auto.
    + intros d N. split; [now apply Ko|]. unfold tokens. rewrite Ko by exact N. rewrite Bx, By, B, toks_snoc, toks_box; [reflexivity| |reflexivity].
      eapply boxtok_other; eauto 6.
    + unfold tokens. rewrite K, Bx, By. cbn [c_box with_box]. rewrite toks_snoc by reflexivity.
      apply toks_nil in T as (T1 & T2 & T3). unfold toks. rewrite T1, T2, flat_map_app, T3. reflexivity.
    + cbn [round]. unfold rem. change (s_pending st' q) with (s_pending st1 q). change (g_asked st' q) with (g_asked st1 q).
      change (g_answered st' q) with (g_answered st1 q). rewrite E1, E2, E4, Rv, app_nil_r. auto.
    + unfold rem. change (s_pending st' q) with (s_pending st1 q). change (g_asked st' q) with (g_asked st1 q).
      change (g_skipped st' q) with (g_skipped st1 q). now rewrite E1, E2, E3, Rv.
    + change (s_pending st' q) with (s_pending st1 q). now rewrite E1.
    + split; [exact A1|]. split; [exact A2|]. split; [|split; [|exact HN]].
      * unfold inv_w in *. rewrite Bx, By. change (s_idle st') with idle. rewrite Id, B, workers_mid in HW by reflexivity.
        rewrite flat_map_app. cbn [flat_map boxworker app]. rewrite <- HW. cbn [app].
        rewrite !app_assoc. symmetry. apply Permutation_cons_append.
      * apply Hd; auto. rewrite Bx. intros d p I. apply in_app_iff in I as [I|[I|[]]]; [exact I|discriminate].
  - eexists. split; [reflexivity|]. set (j := {| j_client := c; j_qid := q; j_open := a0 :: a' |}). set (st' := set_busy _ _).
    assert (Bx : s_box st' = l ++ r) by reflexivity. assert (By : s_busy st' = (w, j) :: s_busy st) by reflexivity.
    assert (Ko : forall d, s_clients st' d = s_clients st d) by reflexivity.
    destruct (inv_progress st st' c q t n k [] (TJob q (a0 :: a')) HC HQ Rn) as [A1 A2]; auto.
    + intros d N. split; [apply Ko|]. unfold tokens. rewrite Ko, Bx, By, B. change ((w, j) :: s_busy st) with ([] ++ (w, j) :: s_busy st). rewrite toks_job.
      * cbn [app]. rewrite toks_box; [reflexivity|]. eapply boxtok_other; eauto 6.
      * unfold jobtok. cbn. destruct (Nat.eqb_spec c d); congruence.
    + rewrite Ko, app_nil_r. now destruct (s_clients st c).
    + unfold tokens. rewrite Ko, Bx, By. apply toks_nil in T as (T1 & T2 & T3). unfold toks. cbn [flat_map]. rewrite T1, T2, T3.
      unfold jobtok. cbn. now rewrite Nat.eqb_refl.
    + cbn [round]. unfold rem. change (s_pending st' q) with (s_pending st1 q). change (g_asked st' q) with (g_asked st1 q).
      change (g_answered st' q) with (g_answered st1 q). rewrite E1, E2, E4, Rv. split; [reflexivity|]. split; [discriminate|]. split; [exact Lr|].
      now apply Permutation_app_tail.
    + unfold rem. change (s_pending st' q) with (s_pending st1 q). change (g_asked st' q) with (g_asked st1 q).
      change (g_skipped st' q) with (g_skipped st1 q). now rewrite E1, E2, E3, Rv.
    + change (s_pending st' q) with (s_pending st1 q). now rewrite E1.
    + split; [exact A1|]. split; [exact A2|]. split; [|split; [|exact HN]].
      * unfold inv_w in *. rewrite Bx, By. change (s_idle st') with idle. rewrite Id, B, workers_mid in HW by reflexivity.
        cbn [map fst]. rewrite <- HW. cbn [app]. symmetry. apply Permutation_middle.
      * apply Hd; auto.
Qed.

Lemma job_running : forall st l r w j, inv_c st (j_client j) -> s_busy st = l ++ (w, j) :: r ->
  exists t s k, running st (j_client j) (j_qid j) t s k /\ toks (s_box st) (l ++ r) (c_box (s_clients st (j_client j))) (j_client j) = [] /\
    length (rem st (j_qid j)) <= t - k - s /\ Permutation (g_asked st (j_qid j)) (g_answered st (j_qid j) ++ j_open j).
Proof.
  intros st l r w j H B. set (c := j_client j) in *.
  assert (Bt : jobtok c (w, j) = [TJob (j_qid j) (j_open j)]) by (unfold jobtok; cbn [snd]; fold c; now rewrite Nat.eqb_refl).
  destruct (inv_one st c H) as [T|[x T]].
  { unfold tokens in T. rewrite B in T. apply toks_nil in T as (_ & T & _). rewrite flat_map_app in T. apply nil_app in T as [_ T].
    cbn [flat_map] in T. rewrite Bt in T. discriminate. }
  pose proof T as T'. unfold tokens in T'. rewrite B in T'. apply (only_job _ _ _ _ _ _ _ Bt) in T' as (<- & T').
  destruct (live_of_token st c H) as (q' & t & s & k & mail & L & Cu & F); [rewrite T; discriminate..|].
  pose proof L as (tk & E & Fm & G). rewrite T in E. injection E as <-.
  destruct G as [(_ & _ & _ & _ & G)|(G1 & G2 & G3 & G4 & G5 & G6)]; [discriminate|]. cbn [round] in G6. destruct G6 as (<- & _ & G6 & G7).
  assert (Me : mail = []).
  { apply toks_nil in T' as (_ & _ & T'). destruct F as [(_ & _ & _ & F)|(_ & _ & _ & _ & _ & F)]; rewrite F in T'; cbn [flat_map mailtok app] in T';
      destruct mail as [|m mail]; auto; inversion Fm; subst; discriminate. }
  subst mail. exists t, s, k. unfold running. repeat split; auto; try lia.
Qed.

Lemma inv_answer : forall W st w p, inv W st -> inv W (answered st w p).
Proof.
  intros W st w p V. pose proof V as (HC & HQ & HW & HD & HN). unfold answered.
  destruct (take_job w (s_busy st)) as [[j busy]|] eqn:J; [|exact V].
  apply take_job_spec in J as (l & r & B & ->). destruct (take_part p (j_open j)) as [open|] eqn:O; [|exact V]. apply take_part_spec in O.
  destruct (job_running st l r w j (HC _) B) as (t & s & k & Rn & T & L & Pm). set (c := j_client j) in *. set (q := j_qid j) in *.
  destruct (HQ q) as (Q1 & _ & Q3). destruct (Q3 (proj1 Rn)) as (Q4 & _). rewrite O in Pm.
  destruct open as [|o open].
  - set (st' := set_box _ _).
    assert (K : s_clients st' c = with_box (s_clients st c) (c_box (s_clients st c) ++ [CDone])).
    { unfold st', to_client, set_box. cbn [s_clients]. now rewrite upd_same. }
    assert (Ko : forall d, d <> c -> s_clients st' d = s_clients st d).
    { intros d N. unfold st', to_client, set_box. cbn [s_clients]. now rewrite upd_other. }
    assert (Bx : s_box st' = s_box st ++ [IWorker w]) by reflexivity. assert (By : s_busy st' = l ++ r) by reflexivity.
    destruct (inv_progress st st' c q t s k [CDone] TDone HC HQ Rn) as [A1 A2]; auto.
    + intros d N. split; [now apply Ko|]. unfold tokens. rewrite Ko by exact N. rewrite Bx, By, B, toks_snoc, toks_job; [reflexivity| |reflexivity].
      unfold jobtok. cbn [snd]. fold c. destruct (Nat.eqb_spec c d); congruence.
    + unfold tokens. rewrite K, Bx, By. cbn [c_box with_box]. rewrite toks_snoc by reflexivity.
      apply toks_nil in T as (T1 & T2 & T3). unfold toks. rewrite T1, T2, flat_map_app, T3. reflexivity.
    + intros p' N. unfold st', note_answer, to_client, set_box, set_busy. cbn [s_pending g_asked g_skipped g_answered]. now rewrite upd_other.
    + cbn [round]. split; [exact L|]. change (g_asked st' q) with (g_asked st q).
      change (g_answered st' q) with (upd (g_answered st) q (g_answered st q ++ [p]) q). now rewrite upd_same.
    + split; [exact A1|]. split; [exact A2|]. split; [|split; [|exact HN]].
      * unfold inv_w in *. rewrite Bx, By. change (s_idle st') with (s_idle st). rewrite <- HW, B, flat_map_app, !map_app.
        cbn [map fst flat_map boxworker app]. apply Permutation_app_head. rewrite <- !app_assoc. apply Permutation_app_head.
        rewrite !app_assoc. symmetry. apply (Permutation_cons_append (map fst r ++ flat_map boxworker (s_box st)) w).
      * eapply inv_d_sub; [| | |exact HD]; auto. rewrite Bx. intros d p' I. apply in_app_iff in I as [I|[I|[]]]; [exact I|discriminate].
  - set (j' := {| j_client := c; j_qid := q; j_open := o :: open |}). set (st' := note_answer _ _ _).
    assert (Ko : forall d, s_clients st' d = s_clients st d) by reflexivity.
    assert (Bx : s_box st' = s_box st) by reflexivity. assert (By : s_busy st' = [] ++ (w, j') :: l ++ r) by reflexivity.
    destruct (inv_progress st st' c q t s k [] (TJob q (o :: open)) HC HQ Rn) as [A1 A2]; auto.
    + intros d N. split; [apply Ko|]. unfold tokens. rewrite Ko, Bx, By, B. rewrite !toks_job; [reflexivity| |];
        unfold jobtok, j'; cbn [snd j_client]; fold c; destruct (Nat.eqb_spec c d); congruence.
    + rewrite Ko, app_nil_r. now destruct (s_clients st c).
    + unfold tokens. rewrite Ko, Bx, By. apply toks_nil in T as (T1 & T2 & T3). unfold toks. cbn [flat_map app]. rewrite T1, T2, T3.
      unfold jobtok. cbn. now rewrite Nat.eqb_refl.
    + intros p' N. unfold st', note_answer, to_client, set_box, set_busy. cbn [s_pending g_asked g_skipped g_answered]. now rewrite upd_other.
    + cbn [round]. split; [reflexivity|]. split; [discriminate|]. split; [exact L|]. change (g_asked st' q) with (g_asked st q).
      change (g_answered st' q) with (upd (g_answered st) q (g_answered st q ++ [p]) q). now rewrite upd_same, <- app_assoc.
    + split; [exact A1|]. split; [exact A2|]. split; [|split; [|exact HN]].
      * unfold inv_w in *. rewrite Bx, By. change (s_idle st') with (s_idle st). rewrite <- HW, B, !map_app.
        cbn [map fst app]. rewrite map_app. apply Permutation_app_head. rewrite <- !app_assoc. cbn [app]. apply Permutation_middle.
      * eapply inv_d_sub; [| | |exact HD]; auto.
Qed.

(** A client changes and perhaps sends a request. *)
Lemma inv_client_upd : forall W st c k' extra, inv W st ->
  let st' := set_box (set_client st c k') (s_box st ++ extra) in
  extra = [] \/ (exists q n, extra = [IMore c q n] /\ (n = 0 -> s_pending st q = None /\ q < s_next st)) ->
  inv_c st' c ->
  (forall q, current (s_clients st c) = Some q -> 1 <= q < s_next st -> current k' = Some q \/ finished st q) ->
  inv W st'.
Proof.
  intros W st c k' extra (HC & HQ & HW & HD & HN) st' X I C.
  assert (Kc : s_clients st' c = k') by apply upd_same.
  assert (Ko : forall d, d <> c -> s_clients st' d = s_clients st d) by (intros d N; now apply upd_other).
  split; [|split; [|split; [|split; [|exact HN]]]].
  - intros d. destruct (Nat.eq_dec d c) as [->|N]; [exact I|]. apply (inv_c_frame st); auto. unfold tokens. rewrite Ko by exact N.
    change (s_box st') with (s_box st ++ extra). change (s_busy st') with (s_busy st).
    destruct X as [-> |(q & n & -> & _)]; [now rewrite app_nil_r|]. apply toks_snoc. eapply boxtok_other; eauto 6.
  - intros p. apply (inv_q_frame st); auto. intros Cp Rp. destruct (Nat.eq_dec (g_owner st p) c) as [E|E]; [|left; now rewrite Ko].
    rewrite E in *. rewrite Kc. now apply C.
  - unfold inv_w in *. change (s_idle st') with (s_idle st). change (s_busy st') with (s_busy st). change (s_box st') with (s_box st ++ extra).
    destruct X as [-> |(q & n & -> & _)]; [now rewrite app_nil_r|]. now rewrite workers_snoc.
  - intros d p J. change (s_box st') with (s_box st ++ extra) in J. change (s_pending st' p) with (s_pending st p). change (s_next st') with (s_next st).
    apply in_app_iff in J as [J|J]; [now apply (HD d p)|]. destruct X as [-> |(q & n & -> & X)]; [contradiction|].
    destruct J as [J|[]]. injection J as <- <- ->. auto.
Qed.

Lemma flat_boxtok_done : forall c box, ~ In TDone (flat_map (boxtok c) box).
Proof.
  intros c box H. apply in_flat_map in H as (m & _ & H). destruct m as [d|d|d q n|w]; cbn [boxtok] in H;
    try destruct (d =? c); try destruct (n =? 0); cbn in H; intuition discriminate.
Qed.
Lemma flat_jobtok_done : forall c busy, ~ In TDone (flat_map (jobtok c) busy).
Proof.
  intros c busy H. apply in_flat_map in H as (m & _ & H). unfold jobtok in H. destruct (_ =? _); cbn in H; intuition discriminate.
Qed.
Lemma done_only : forall box busy mail c, toks box busy mail c = [TDone] ->
  flat_map (boxtok c) box = [] /\ flat_map (jobtok c) busy = [] /\ flat_map mailtok mail = [TDone].
Proof.
  intros box busy mail c H. unfold toks in H.
  destruct (flat_map (boxtok c) box) as [|x xs] eqn:A.
  - destruct (flat_map (jobtok c) busy) as [|y ys] eqn:B; [auto|]. injection H as -> _. destruct (flat_jobtok_done c busy). rewrite B. now left.
  - injection H as -> _. destruct (flat_boxtok_done c box). rewrite A. now left.
Qed.

Definition settle (k : client) (ph : phase) (q t s r : nat) (b : list cmsg) : client :=
  {| c_phase := ph; c_qid := q; c_total := t; c_sched := s; c_recv := r; c_box := b |}.

Lemma set_box_self : forall st, set_box st (s_box st) = st.
Proof. now intros []. Qed.

Lemma inv_client : forall W st c exporter, inv W st -> exists st', client_step exporter st c = Some st' /\ inv W st'.
Proof.
  intros W st c exporter V. pose proof V as (HC & HQ & HW & HD & HN). pose proof (HC c) as H. unfold inv_c in H.
  assert (Same : exists st', Some st = Some st' /\ inv W st') by (exists st; auto).
  unfold client_step. destruct (c_box (s_clients st c)) as [|[q t s|] box] eqn:Eb; [exact Same| |];
    destruct (c_phase (s_clients st c)) eqn:Ep; try exact Same.
  - (* the reply *)
    destruct H as [R [[H _]|(q' & t' & s' & mail & E & H)]]; [discriminate|]. injection E as <- <- <- <-.
    assert (Cu : current (s_clients st c) = Some q) by (unfold current; now rewrite Ep, Eb).
    assert (St : s <= t) by (destruct H as (? & _ & _ & [H|H]); lia).
    assert (Go : inv W (set_client st c {| c_phase := Await; c_qid := q; c_total := t; c_sched := s; c_recv := 0; c_box := box |})).
    { set (k' := {| c_phase := Await |}). replace (set_client st c k') with (set_box (set_client st c k') (s_box st ++ [])) by (now rewrite app_nil_r).
      apply inv_client_upd; auto.
      - unfold inv_c. cbn [s_clients set_box set_client]. rewrite upd_same. cbn [c_phase c_qid c_total c_sched c_recv c_box k'].
        apply (live_frame st _ c q t s 0 box); auto; [|eapply live_mail; eauto]. unfold tokens. cbn [s_clients set_box set_client s_box s_busy].
        rewrite upd_same, Eb, app_nil_r. reflexivity.
      - intros p Cp _. left. rewrite Cu in Cp. injection Cp as <-. reflexivity. }
    destruct exporter.
    + rewrite R. destruct (Nat.ltb_spec 0 t) as [Lt|Lt]; [eexists; split; [reflexivity|exact Go]|].
      eexists. split; [reflexivity|]. destruct H as (tk & Et & Fm & [(-> & -> & _ & -> & ->)|H]); [|lia].
      cbn [s_box set_client]. change (0 =? 0) with true. cbn iota.
      unfold tokens in Et. apply done_only in Et as (T1 & T2 & _).
      apply inv_client_upd; [exact V| | |].
      * right. exists 0, 0. split; [reflexivity|]. intros _. split; [|lia]. destruct (HQ 0) as (_ & Q2 & _).
        destruct (s_pending st 0); [|reflexivity]. exfalso. assert (X : 1 <= 0 < s_next st) by (apply Q2; discriminate). lia.
      * unfold inv_c. cbn [s_clients set_box set_client]. rewrite upd_same. cbn [c_phase c_box]. split; [reflexivity|].
        unfold tokens. cbn [s_clients set_box set_client s_box s_busy]. rewrite upd_same. cbn [c_box]. rewrite toks_snoc by (cbn; now rewrite andb_false_r).
        unfold toks. now rewrite T1, T2.
      * intros p Cp Rp. rewrite Cu in Cp. injection Cp as <-. lia.
    + assert ((s <=? t) = true) as -> by lia. eexists. split; [reflexivity|exact Go].
  - (* done *)
    set (k := s_clients st c) in *. destruct H as (tk & Et & Fm & G).
    assert (Ed : tk = TDone /\ box = []).
    { unfold tokens in Et. fold k in Et. rewrite Eb in Et. inversion Fm as [|? ? _ Fb]; subst. unfold toks in Et. cbn [flat_map mailtok] in Et.
      rewrite app_assoc in Et. apply single in Et as (<- & _ & Et). split; [reflexivity|]. destruct box as [|m box]; [reflexivity|].
      inversion Fb; subst. discriminate. }
    destruct Ed as [-> ->]. unfold tokens in Et. apply done_only in Et as (T1 & T2 & _).
    assert (Cu : current k = Some (c_qid k)) by (unfold current; now rewrite Ep).
    assert (Stop : forall k' extra, c_phase k' = Idle -> c_box k' = [] -> c_total k <= c_recv k + c_sched k ->
              extra = [] \/ extra = [IMore c (c_qid k) 0] ->
              inv W (set_box (set_client st c k') (s_box st ++ extra))).
    { intros k' extra Kp Kb Tt X.
      assert (Fin : 1 <= c_qid k < s_next st -> finished st (c_qid k)).
      { intros Rq. destruct G as [(_ & _ & _ & G & _)|(G1 & G2 & G3 & G4 & G5 & G6)]; [lia|]. cbn [round] in G6. destruct G6 as [G6 G7].
        destruct (HQ (c_qid k)) as (Q1 & _). split; [|exact G7]. unfold rem in G6. destruct (s_pending st (c_qid k)) as [[|x xs]|]; [congruence| |reflexivity].
        cbn in G6. lia. }
      apply inv_client_upd; [exact V| | |].
      - destruct X as [-> | ->]; [now left|right]. do 2 eexists. split; [reflexivity|]. intros _.
        destruct G as [(_ & _ & _ & G & _)|(G1 & G2 & G3 & G4 & G5 & G6)]; [|split; [now apply Fin|lia]].
        rewrite G. destruct (HQ 0) as (_ & Q2 & _). split; [|lia].
        destruct (s_pending st 0); [|reflexivity]. exfalso. assert (Z : 1 <= 0 < s_next st) by (apply Q2; discriminate). lia.
      - unfold inv_c. cbn [s_clients set_box set_client]. rewrite upd_same, Kp, Kb. split; [reflexivity|].
        unfold tokens. cbn [s_clients set_box set_client s_box s_busy]. rewrite upd_same, Kb. unfold toks. rewrite flat_map_app, T1, T2.
        destruct X as [-> | ->]; [reflexivity|]. cbn. now rewrite andb_false_r.
      - intros p Cp Rp. fold k in Cp. rewrite Cu in Cp. injection Cp as <-. right. auto. }
    assert (Go : forall n, 0 < n -> c_recv k + c_sched k + n <= c_total k ->
              inv W (set_box (set_client st c {| c_phase := Await; c_qid := c_qid k; c_total := c_total k; c_sched := n; c_recv := c_recv k + c_sched k; c_box := [] |})
                       (s_box st ++ [IMore c (c_qid k) n]))).
    { intros n Np Ln. destruct G as [G|(G1 & G2 & G3 & G4 & G5 & G6)]; [lia|]. cbn [round] in G6. destruct G6 as [G6 G7].
      apply inv_client_upd; [exact V| | |].
      - right. do 2 eexists. split; [reflexivity|lia].
      - unfold inv_c. cbn [s_clients set_box set_client]. rewrite upd_same. cbn [c_phase c_qid c_total c_sched c_recv c_box].
        exists (TMore (c_qid k) n). split.
        { unfold tokens. cbn [s_clients set_box set_client s_box s_busy]. rewrite upd_same. cbn [c_box]. unfold toks. rewrite flat_map_app, T1, T2.
          cbn. rewrite Nat.eqb_refl. now assert ((n =? 0) = false) as -> by lia. }
        split; [constructor|]. right. cbn [s_next g_owner g_cands set_box set_client round]. repeat split; auto; try lia.
        change (length (rem st (c_qid k)) <= c_total k - (c_recv k + c_sched k)). lia.
      - intros p Cp Rp. fold k in Cp. rewrite Cu in Cp. injection Cp as <-. now left. }
    assert (Tl : c_recv k + c_sched k <= c_total k) by (destruct G as [G|G]; lia).
    unfold more_or_stop. cbn [c_phase c_qid c_total c_sched c_recv c_box s_box set_client]. destruct exporter.
    + destruct (Nat.ltb_spec (c_recv k + c_sched k) (c_total k)) as [Lt|Lt].
      * eexists. split; [reflexivity|]. apply Go; lia.
      * eexists. split; [reflexivity|]. apply Stop; auto.
    + destruct (Nat.ltb_spec (c_total k) (c_recv k + c_sched k)) as [Lt|_]; [lia|].
      destruct (Nat.eqb_spec (Nat.min (c_total k - (c_recv k + c_sched k)) (c_sched k)) 0) as [Z|Z].
      * eexists. split; [reflexivity|]. set (k' := {| c_phase := Idle |}).
        replace (set_client st c k') with (set_box (set_client st c k') (s_box st ++ [])) by (now rewrite app_nil_r).
        apply Stop; auto. destruct G as [G|G]; lia.
      * eexists. split; [reflexivity|]. apply Go; lia.
Qed.

(** * Runs *)

(** What the environment may choose: the candidates of a query are distinct (they are
    sorted and made unique, index.cpp:806-808), and arranging partitions only changes
    their order. *)
Definition ok_env (e : env) : Prop := NoDup (e_found e) /\ forall l, Permutation (e_arrange e l) l.
Definition ok_op (o : op) : Prop := match o with Index _ e => ok_env e | _ => True end.

Lemma inv_step : forall W taste exporter st o, 0 < taste -> ok_op o -> inv W st ->
  exists st', step taste exporter st o = Some st' /\ inv W st'.
Proof.
  intros W taste exporter st o Tp K V. destruct o as [c|m e|w p|c]; cbn [step].
  - eexists. split; [reflexivity|]. now apply inv_start.
  - destruct (take_msg m (s_box st)) as [box|] eqn:E; [|exists st; auto].
    apply take_msg_spec in E as (l & r & B & ->). destruct K as [Kn Ka]. destruct m as [c|c|c q n|w]; cbn [handle_index].
    + cbn [s_idle set_box]. destruct (s_idle st); [exists st; auto|]. eexists. split; [reflexivity|]. cbn [s_box set_box].
      change (inv W (set_box st ((l ++ r) ++ [ILookup c]))). now apply inv_lookup.
    + destruct (e_found e) as [|x xs] eqn:F.
      * eexists. split; [reflexivity|]. now apply inv_nothing.
      * eexists. split; [reflexivity|]. apply (inv_found W taste st l r c (x :: xs)); auto. discriminate.
    + destruct (Nat.eqb_spec n 0) as [->|N].
      * eexists. split; [reflexivity|]. now apply inv_drop with c.
      * cbn [s_pending set_box s_idle]. destruct (s_pending st q) as [parts|] eqn:Pq.
        -- destruct (s_idle st) as [|w idle] eqn:Id; [exists st; auto|].
           destruct (collect_query_actors (e_arrange e) (e_avail e) n parts) as [[a sk] rest] eqn:Co.
           destruct (inv_schedule W st l r c q n parts w idle (e_arrange e) (e_avail e) a sk rest V B) as (st' & S & I'); auto; [lia|].
           rewrite S. exists st'. auto.
        -- eexists. split; [reflexivity|]. apply inv_unknown with q n; auto. lia.
    + eexists. split; [reflexivity|]. cbn [s_idle set_box]. now apply inv_worker.
  - eexists. split; [reflexivity|]. now apply inv_answer.
  - destruct (inv_client W st c (exporter c) V) as (st' & E & I'). exists st'. auto.
Qed.
Lemma inv_run : forall W taste exporter os st, 0 < taste -> Forall ok_op os -> inv W st ->
  exists st', run taste exporter st os = Some st' /\ inv W st'.
Proof.
  intros W taste exporter. induction os as [|o os IH]; intros st Tp F V; [exists st; auto|]. inversion F; subst.
  destruct (inv_step W taste exporter st o Tp) as (st1 & E & V1); auto. cbn [run]. rewrite E. now apply IH.
Qed.
Lemma inv_initial : forall W, inv W (start W).
Proof.
  intros W. split; [|split; [|split; [|split; [|auto]]]].
  - intros c. split; [reflexivity|]. unfold tokens, toks. cbn [s_busy start s_clients c_box flat_map s_box app]. rewrite app_nil_r.
    generalize 0. induction W as [|W IH]; intros a; [reflexivity|]. apply IH.
  - intros q. split; [discriminate|]. split; [now intros []|]. cbn. lia.
  - unfold inv_w. cbn [s_idle s_busy s_box start map app]. rewrite flat_map_concat_map, map_map. cbn [boxworker].
    generalize (seq 0 W). intros l. induction l as [|x l IH]; [constructor|]. cbn. now constructor.
  - intros c q I. cbn [start s_box] in I. apply in_map_iff in I as (x & X & _). discriminate.
Qed.
