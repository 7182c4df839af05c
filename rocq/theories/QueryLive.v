(** Progress of the query system (QueryModel.v): every step that changes the state brings
    the running queries closer to their end, and some step does so until all are done. *)
From Coq Require Import List Bool Arith Lia Permutation ZifyBool ZifyNat.
From Verif Require Import QueryModel QueryProofs.
Import ListNotations.
Open Scope nat_scope.

(** * The measure *)

(** What is left to do for a client whose query has [f] candidates to hear of, [n] of them in this round. *)
Definition tw (f n : nat) (tks : list tok) : nat :=
  match tks with
  | [TMore _ _] => 8 * f
  | [TJob _ o] => 8 * (f - n) + 5 * n + length o + 1
  | [TDone] => 8 * (f - n) + 3 * n + 2
  | _ => 0
  end.
Definition cw (st : sys) (c : nat) : nat :=
  let k := s_clients st c in
  match c_phase k with
  | Idle => 0
  | AwaitId => match c_box k with CReply _ t s :: _ => 1 + tw t s (tokens st c) | _ => 0 end
  | Await => tw (c_total k - c_recv k) (c_sched k) (tokens st c)
  end.
Definition nsum {A : Type} (f : A -> nat) (l : list A) : nat := list_sum (map f l).
Definition heavy (m : imsg) : nat := match m with IWorker _ => 1 | IMore _ _ 0 => 1 | _ => 0 end.
Definition asks (m : imsg) : nat := match m with IQuery _ => 2 | ILookup _ => 1 | _ => 0 end.
Definition queries (st : sys) : nat := nsum asks (s_box st).
Definition weight (N : nat) (st : sys) : nat := nsum (cw st) (seq 0 N) + nsum heavy (s_box st).
Definition closer (N : nat) (st' st : sys) : Prop := queries st' < queries st \/ (queries st' = queries st /\ weight N st' < weight N st).

Lemma nsum_app : forall A (f : A -> nat) a b, nsum f (a ++ b) = nsum f a + nsum f b.
Proof. intros. unfold nsum. now rewrite map_app, list_sum_app. Qed.
Lemma nsum_cons : forall A (f : A -> nat) x b, nsum f (x :: b) = f x + nsum f b.
Proof. reflexivity. Qed.
Lemma nsum_mid : forall A (f : A -> nat) a x b, nsum f (a ++ x :: b) = f x + nsum f (a ++ b).
Proof. intros. rewrite !nsum_app, nsum_cons. lia. Qed.
Lemma nsum_ext : forall A (f g : A -> nat) l, (forall x, In x l -> f x = g x) -> nsum f l = nsum g l.
Proof. intros A f g l H. unfold nsum. f_equal. now apply map_ext_in. Qed.
Lemma nsum_one : forall (f g : nat -> nat) c N, (forall d, d <> c -> f d = g d) -> c < N ->
  nsum f (seq 0 N) + g c = nsum g (seq 0 N) + f c.
Proof.
  intros f g c N H L. replace N with (c + S (N - c - 1)) by lia. rewrite seq_app. cbn [seq Nat.add]. rewrite !nsum_mid, !nsum_app.
  rewrite (nsum_ext _ f g (seq 0 c)), (nsum_ext _ f g (seq (S c) _)).
  - lia.
  - intros x X. apply in_seq in X. apply H. lia.
  - intros x X. apply in_seq in X. apply H. lia.
Qed.

Definition bounded (N : nat) (st : sys) : Prop := forall c, N <= c -> c_phase (s_clients st c) = Idle.
Lemma cw_same : forall st st' c, s_clients st' c = s_clients st c -> tokens st' c = tokens st c -> cw st' c = cw st c.
Proof. intros st st' c H T. unfold cw. now rewrite H, T. Qed.
Lemma running_bound : forall N st c q t s k, bounded N st -> running st c q t s k -> c < N.
Proof.
  intros N st c q t s k B (_ & _ & _ & _ & _ & _ & R). destruct (le_lt_dec N c) as [L|L]; [|exact L]. specialize (B c L).
  destruct R as [(P & _)|(P & _)]; congruence.
Qed.

(** A running query whose token changes. *)
Lemma weight_progress : forall N st st' c q t s k tk0 tk extra, bounded N st -> running st c q t s k -> tokens st c = [tk0] ->
  (forall d, d <> c -> s_clients st' d = s_clients st d /\ tokens st' d = tokens st d) ->
  s_clients st' c = with_box (s_clients st c) (c_box (s_clients st c) ++ extra) -> tokens st' c = [tk] ->
  nsum (cw st') (seq 0 N) + tw (t - k) s [tk0] = nsum (cw st) (seq 0 N) + tw (t - k) s [tk].
Proof.
  intros N st st' c q t s k tk0 tk extra B R T0 O K T. pose proof (running_bound _ _ _ _ _ _ _ B R) as Lc.
  assert (S : nsum (cw st') (seq 0 N) + cw st c = nsum (cw st) (seq 0 N) + cw st' c).
  { apply nsum_one; [|exact Lc]. intros d D. destruct (O d D). now apply cw_same. }
  destruct R as (_ & _ & _ & _ & _ & _ & R). unfold cw at 2 4 in S. rewrite K, T0, T in S. unfold with_box in S. cbn [c_phase c_box c_total c_recv c_sched] in S.
  destruct R as [(P1 & -> & P3 & P4)|(P1 & _ & P3 & P4 & P5 & _)]; rewrite P1 in S.
  - rewrite P4 in S. cbn [app] in S. rewrite Nat.sub_0_r. lia.
  - rewrite P3, P4, P5 in S. exact S.
Qed.

Lemma more_token : forall st l r c q n, inv_c st c -> s_box st = l ++ IMore c q n :: r -> 0 < n -> tokens st c = [TMore q n].
Proof.
  intros st l r c q n H B Np.
  assert (Bt : boxtok c (IMore c q n) = [TMore q n]) by (cbn; rewrite Nat.eqb_refl; now assert ((n =? 0) = false) as -> by lia).
  destruct (inv_one st c H) as [T|[x T]].
  { unfold tokens in T. rewrite B in T. apply toks_nil in T as (T & _). rewrite flat_map_app in T. apply nil_app in T as [_ T].
    cbn [flat_map] in T. rewrite Bt in T. discriminate. }
  rewrite T. unfold tokens in T. rewrite B in T. now apply (only_token _ _ _ _ _ _ _ Bt) in T as (<- & _).
Qed.
Lemma job_token : forall st l r w j, inv_c st (j_client j) -> s_busy st = l ++ (w, j) :: r ->
  tokens st (j_client j) = [TJob (j_qid j) (j_open j)].
Proof.
  intros st l r w j H B. set (c := j_client j) in *.
  assert (Bt : jobtok c (w, j) = [TJob (j_qid j) (j_open j)]) by (unfold jobtok; cbn [snd]; fold c; now rewrite Nat.eqb_refl).
  destruct (inv_one st c H) as [T|[x T]].
  { unfold tokens in T. rewrite B in T. apply toks_nil in T as (_ & T & _). rewrite flat_map_app in T. apply nil_app in T as [_ T].
    cbn [flat_map] in T. rewrite Bt in T. discriminate. }
  rewrite T. unfold tokens in T. rewrite B in T. now apply (only_job _ _ _ _ _ _ _ Bt) in T as (<- & _).
Qed.
Lemma job_size : forall st l r w j, inv_c st (j_client j) -> s_busy st = l ++ (w, j) :: r -> j_open j <> [].
Proof.
  intros st l r w j H B. pose proof (job_token st l r w j H B) as T.
  destruct (live_of_token st _ H) as (q & t & s & k & mail & (tk & E & _ & G) & _); [rewrite T; discriminate..|].
  rewrite T in E. injection E as <-. destruct G as [(_ & _ & _ & _ & G)|(_ & _ & _ & _ & _ & G)]; [discriminate|]. cbn [round] in G. tauto.
Qed.

(** * Steps *)

Lemma near_unknown : forall N W st l r c q n, inv W st -> bounded N st -> s_box st = l ++ IMore c q n :: r -> 0 < n ->
  closer N (to_client (set_box st (l ++ r)) c [CDone]) st.
Proof.
  intros N W st l r c q n (HC & _) Bd B Np. destruct (more_running st l r c q n (HC c) B Np) as (t & k & Rn & T & _).
  pose proof (more_token st l r c q n (HC c) B Np) as T0. set (st' := to_client _ _ _).
  assert (K : s_clients st' c = with_box (s_clients st c) (c_box (s_clients st c) ++ [CDone])).
  { unfold st', to_client, set_box. cbn [s_clients]. now rewrite upd_same. }
  assert (Ko : forall d, d <> c -> s_clients st' d = s_clients st d) by (intros d D; unfold st', to_client; cbn [s_clients]; now rewrite upd_other).
  assert (S : nsum (cw st') (seq 0 N) + tw (t - k) n [TMore q n] = nsum (cw st) (seq 0 N) + tw (t - k) n [TDone]).
  { apply weight_progress with c q [CDone]; auto.
    - intros d D. split; [now apply Ko|]. unfold tokens. rewrite Ko by exact D. change (s_box st') with (l ++ r). rewrite B, toks_box; [reflexivity|].
      eapply boxtok_other; eauto 6.
    - unfold tokens. rewrite K. change (s_box st') with (l ++ r). change (s_busy st') with (s_busy st). cbn [c_box with_box].
      apply toks_nil in T as (T1 & T2 & T3). unfold toks. rewrite T1, T2, flat_map_app, T3. reflexivity. }
  destruct Rn as (_ & _ & _ & _ & Rn & _).
  right. unfold queries, weight. change (s_box st') with (l ++ r). rewrite B, !nsum_mid. cbn [asks tw] in *.
  assert (heavy (IMore c q n) = 0) as -> by (cbn; destruct n; lia). lia.
Qed.
Lemma near_drop : forall N st l r c q, s_box st = l ++ IMore c q 0 :: r ->
  closer N (set_pending (set_box st (l ++ r)) q None) st.
Proof.
  intros N st l r c q B. right. set (st' := set_pending _ _ _). unfold queries, weight. change (s_box st') with (l ++ r). rewrite B, !nsum_mid.
  cbn [asks heavy]. split; [reflexivity|]. rewrite (nsum_ext _ (cw st') (cw st)); [lia|]. intros d _. apply cw_same; [reflexivity|].
  unfold tokens. change (s_box st') with (l ++ r). rewrite B, toks_box; [reflexivity|]. cbn. now rewrite andb_false_r.
Qed.
Lemma near_worker : forall N st l r w, s_box st = l ++ IWorker w :: r -> closer N (set_idle (set_box st (l ++ r)) (w :: s_idle st)) st.
Proof.
  intros N st l r w B. right. set (st' := set_idle _ _). unfold queries, weight. change (s_box st') with (l ++ r). rewrite B, !nsum_mid.
  cbn [asks heavy]. split; [reflexivity|]. rewrite (nsum_ext _ (cw st') (cw st)); [lia|]. intros d _. apply cw_same; [reflexivity|].
  unfold tokens. change (s_box st') with (l ++ r). rewrite B, toks_box; reflexivity.
Qed.

Lemma near_schedule : forall N W st l r c q n v w idle a sk st', inv W st -> bounded N st -> s_box st = l ++ IMore c q n :: r -> 0 < n ->
  length a <= n ->
  supervise (note_asked (set_pending (set_idle (set_box st (l ++ r)) idle) q v) q a sk) w c q a = Some st' -> closer N st' st.
Proof.
  intros N W st l r c q n v w idle a sk st' (HC & _) Bd B Np La S. unfold supervise in S. destruct (existsb _ _); [discriminate|].
  destruct (more_running st l r c q n (HC c) B Np) as (t & k & Rn & T & _).
  pose proof (more_token st l r c q n (HC c) B Np) as T0. assert (Kt : k + n <= t) by (destruct Rn as (_ & _ & _ & _ & R & _); exact R).
  assert (Hz : heavy (IMore c q n) = 0) by (cbn; destruct n; lia).
  destruct a as [|a0 a']; injection S as S.
  - assert (K : s_clients st' c = with_box (s_clients st c) (c_box (s_clients st c) ++ [CDone])).
    { rewrite <- S. unfold to_client, set_box. cbn [s_clients]. now rewrite upd_same. }
    assert (Ko : forall d, d <> c -> s_clients st' d = s_clients st d).
    { intros d D. rewrite <- S. unfold to_client, set_box. cbn [s_clients]. now rewrite upd_other. }
    assert (Bx : s_box st' = (l ++ r) ++ [IWorker w]) by (now rewrite <- S). assert (By : s_busy st' = s_busy st) by (now rewrite <- S).
    assert (M : nsum (cw st') (seq 0 N) + tw (t - k) n [TMore q n] = nsum (cw st) (seq 0 N) + tw (t - k) n [TDone]).
    { apply weight_progress with c q [CDone]; auto.
      - intros d D. split; [now apply Ko|]. unfold tokens. rewrite Ko by exact D. rewrite Bx, By, B, toks_snoc, toks_box; [reflexivity| |reflexivity].
        eapply boxtok_other; eauto 6.
      - unfold tokens. rewrite K, Bx, By. cbn [c_box with_box]. rewrite toks_snoc by reflexivity.
        apply toks_nil in T as (T1 & T2 & T3). unfold toks. rewrite T1, T2, flat_map_app, T3. reflexivity. }
    right. unfold queries, weight. rewrite Bx, B, !nsum_app, !nsum_cons, Hz. cbn [tw heavy asks nsum map list_sum fold_right] in *. lia.
  - set (j := {| j_client := c; j_qid := q; j_open := a0 :: a' |}) in *.
    assert (Ko : forall d, s_clients st' d = s_clients st d) by (now rewrite <- S).
    assert (Bx : s_box st' = l ++ r) by (now rewrite <- S). assert (By : s_busy st' = [] ++ (w, j) :: s_busy st) by (now rewrite <- S).
    assert (M : nsum (cw st') (seq 0 N) + tw (t - k) n [TMore q n] = nsum (cw st) (seq 0 N) + tw (t - k) n [TJob q (a0 :: a')]).
    { apply weight_progress with c q []; auto.
      - intros d D. split; [apply Ko|]. unfold tokens. rewrite Ko, Bx, By, B. rewrite toks_job.
        + cbn [app]. rewrite toks_box; [reflexivity|]. eapply boxtok_other; eauto 6.
        + unfold jobtok. cbn. destruct (Nat.eqb_spec c d); congruence.
      - rewrite Ko, app_nil_r. now destruct (s_clients st c).
      - unfold tokens. rewrite Ko, Bx, By. apply toks_nil in T as (T1 & T2 & T3). unfold toks. cbn [flat_map app]. rewrite T1, T2, T3.
        unfold jobtok. cbn. now rewrite Nat.eqb_refl. }
    right. unfold queries, weight. rewrite Bx, B, !nsum_mid, Hz. cbn [tw asks] in *. lia.
Qed.

Lemma take_part_in : forall p ps, In p ps -> exists r, take_part p ps = Some r.
Proof.
  intros p. induction ps as [|x ps IH]; intros H; [contradiction|]. cbn [take_part]. destruct (Nat.eqb_spec p x) as [->|D]; [eauto|].
  destruct H as [H|H]; [congruence|]. destruct (IH H) as (r & ->). cbn. eauto.
Qed.
Lemma take_msg_in : forall m box, In m box -> exists r, take_msg m box = Some r.
Proof.
  intros m. induction box as [|x box IH]; intros H; [contradiction|]. cbn [take_msg]. destruct (imsg_eqb m x) eqn:E; [eauto|].
  destruct H as [->|H]; [destruct m; cbn in E; rewrite ?Nat.eqb_refl in E; discriminate|]. destruct (IH H) as (r & ->). cbn. eauto.
Qed.

Lemma near_answer : forall N W st w p j busy open, inv W st -> bounded N st -> take_job w (s_busy st) = Some (j, busy) ->
  take_part p (j_open j) = Some open -> closer N (answered st w p) st.
Proof.
  intros N W st w p j busy open (HC & _) Bd J O. unfold answered. rewrite J, O. apply take_job_spec in J as (l & r & B & ->).
  apply take_part_spec in O. apply Permutation_length in O. cbn [length] in O.
  destruct (job_running st l r w j (HC _) B) as (t & s & k & Rn & T & _). pose proof (job_token st l r w j (HC _) B) as T0.
  assert (Sp : 0 < s) by (destruct Rn as (_ & _ & _ & Rs & _); exact Rs).
  set (c := j_client j) in *. set (q := j_qid j) in *. destruct open as [|o open].
  - set (st' := set_box _ _).
    assert (K : s_clients st' c = with_box (s_clients st c) (c_box (s_clients st c) ++ [CDone])).
    { unfold st', to_client, set_box. cbn [s_clients]. now rewrite upd_same. }
    assert (Ko : forall d, d <> c -> s_clients st' d = s_clients st d).
    { intros d D. unfold st', to_client, set_box. cbn [s_clients]. now rewrite upd_other. }
    assert (Bx : s_box st' = s_box st ++ [IWorker w]) by reflexivity. assert (By : s_busy st' = l ++ r) by reflexivity.
    assert (M : nsum (cw st') (seq 0 N) + tw (t - k) s [TJob q (j_open j)] = nsum (cw st) (seq 0 N) + tw (t - k) s [TDone]).
    { apply weight_progress with c q [CDone]; auto.
      - intros d D. split; [now apply Ko|]. unfold tokens. rewrite Ko by exact D. rewrite Bx, By, B, toks_snoc, toks_job; [reflexivity| |reflexivity].
        unfold jobtok. cbn [snd]. fold c. destruct (Nat.eqb_spec c d); congruence.
      - unfold tokens. rewrite K, Bx, By. cbn [c_box with_box]. rewrite toks_snoc by reflexivity.
        apply toks_nil in T as (T1 & T2 & T3). unfold toks. rewrite T1, T2, flat_map_app, T3. reflexivity. }
    right. unfold queries, weight. rewrite Bx, !nsum_app. cbn [tw heavy asks nsum map list_sum fold_right length] in *. lia.
  - set (j' := {| j_client := c; j_qid := q; j_open := o :: open |}). set (st' := note_answer _ _ _).
    assert (Ko : forall d, s_clients st' d = s_clients st d) by reflexivity.
    assert (Bx : s_box st' = s_box st) by reflexivity. assert (By : s_busy st' = [] ++ (w, j') :: l ++ r) by reflexivity.
    assert (M : nsum (cw st') (seq 0 N) + tw (t - k) s [TJob q (j_open j)] = nsum (cw st) (seq 0 N) + tw (t - k) s [TJob q (o :: open)]).
    { apply weight_progress with c q []; auto.
      - intros d D. split; [apply Ko|]. unfold tokens. rewrite Ko, Bx, By, B. rewrite !toks_job; [reflexivity| |];
          unfold jobtok, j'; cbn [snd j_client]; fold c; destruct (Nat.eqb_spec c d); congruence.
      - rewrite Ko, app_nil_r. now destruct (s_clients st c).
      - unfold tokens. rewrite Ko, Bx, By. apply toks_nil in T as (T1 & T2 & T3). unfold toks. cbn [flat_map app]. rewrite T1, T2, T3.
        unfold jobtok. cbn. now rewrite Nat.eqb_refl. }
    right. unfold queries, weight. rewrite Bx. cbn [tw] in *. lia.
Qed.

(** A client that handles a message. *)
Lemma cl_set : forall st c k b, s_clients (set_box (set_client st c k) b) c = k.
Proof. intros. apply upd_same. Qed.
Definition expects (k : client) : Prop :=
  match c_box k, c_phase k with CReply _ _ _ :: _, AwaitId => True | CDone :: _, Await => True | _, _ => False end.
Lemma weight_client : forall N st c k' extra, c < N ->
  let st' := set_box (set_client st c k') (s_box st ++ extra) in
  (forall d, d <> c -> flat_map (boxtok d) extra = []) ->
  nsum (cw st') (seq 0 N) + cw st c = nsum (cw st) (seq 0 N) + cw st' c.
Proof.
  intros N st c k' extra Lc st' X. apply nsum_one; [|exact Lc]. intros d D.
  assert (K : s_clients st' d = s_clients st d) by (now apply upd_other). apply cw_same; [exact K|].
  unfold tokens. rewrite K. unfold toks. change (s_box st') with (s_box st ++ extra). now rewrite flat_map_app, (X d D), app_nil_r.
Qed.
Lemma near_client : forall N W st c exporter st', inv W st -> bounded N st -> client_step exporter st c = Some st' ->
  (~ expects (s_clients st c) /\ st' = st) \/ closer N st' st.
Proof.
  intros N W st c exporter st' V Bd S. pose proof V as (HC & HQ & HW & HD & HN). pose proof (HC c) as H. unfold inv_c in H.
  unfold client_step in S. unfold expects. destruct (c_box (s_clients st c)) as [|[q t s|] box] eqn:Eb.
  { injection S as <-. left. split; [tauto|reflexivity]. }
  all: destruct (c_phase (s_clients st c)) eqn:Ep; try (injection S as <-; left; split; [tauto|reflexivity]); right.
  - assert (Lc : c < N) by (destruct (le_lt_dec N c) as [L|L]; [rewrite (Bd c L) in Ep; discriminate|exact L]).
    destruct H as [R [[H _]|(q' & t' & s' & mail & E & H)]]; [discriminate|]. injection E as <- <- <- <-.
    assert (Cw : cw st c = 1 + tw t s (tokens st c)) by (unfold cw; now rewrite Ep, Eb).
    assert (Go : forall k', k' = {| c_phase := Await; c_qid := q; c_total := t; c_sched := s; c_recv := 0; c_box := box |} -> closer N (set_client st c k') st).
    { intros k' Ek. replace (set_client st c k') with (set_box (set_client st c k') (s_box st ++ [])) by (now rewrite app_nil_r).
      pose proof (weight_client N st c k' [] Lc) as M. cbn zeta in M. specialize (M (fun _ _ => eq_refl)).
      set (st2 := set_box (set_client st c k') _) in *. assert (Cw2 : cw st2 c = tw t s (tokens st c)).
      { unfold cw. rewrite (cl_set st c k' _ : s_clients st2 c = k'). rewrite Ek. cbn [c_phase c_total c_recv c_sched]. rewrite Nat.sub_0_r. f_equal.
        unfold tokens. rewrite (cl_set st c k' _ : s_clients st2 c = k'). rewrite Ek, Eb. cbn [c_box].
        change (s_box st2) with (s_box st ++ []). rewrite app_nil_r. reflexivity. }
      right. unfold queries, weight. change (s_box st2) with (s_box st ++ []). rewrite app_nil_r. lia. }
    destruct exporter.
    + rewrite R in S. destruct (Nat.ltb_spec 0 t) as [Lt|Lt]; [injection S as <-; now apply Go|].
      injection S as <-. destruct H as (tk & Et & Fm & [(-> & -> & _ & -> & ->)|H]); [|lia].
      cbn [s_box set_client]. set (k' := {| c_phase := Idle |}).
      pose proof (weight_client N st c k' [IMore c 0 0] Lc) as M. cbn zeta in M. set (st2 := set_box (set_client st c k') _) in *.
      assert (Cw2 : cw st2 c = 0) by (unfold cw; rewrite (cl_set st c k' _ : s_clients st2 c = k'); reflexivity).
      rewrite Cw, Et, Cw2 in M. cbn [tw] in M.
      assert (M' : nsum (cw st2) (seq 0 N) + 3 = nsum (cw st) (seq 0 N)).
      { assert (Z : forall d, d <> c -> flat_map (boxtok d) [IMore c 0 0] = []) by (intros d _; cbn; now rewrite andb_false_r). specialize (M Z). lia. }
      right. unfold queries, weight. change (s_box st2) with (s_box st ++ [IMore c 0 0]). rewrite !nsum_app. cbn [nsum map list_sum fold_right asks heavy]. lia.
    + destruct (s <=? t); [|discriminate]. injection S as <-. now apply Go.
  - assert (Lc : c < N) by (destruct (le_lt_dec N c) as [L|L]; [rewrite (Bd c L) in Ep; discriminate|exact L]).
    set (k := s_clients st c) in *. destruct H as (tk & Et & Fm & G).
    assert (Ed : tk = TDone /\ box = []).
    { unfold tokens in Et. fold k in Et. rewrite Eb in Et. inversion Fm as [|? ? _ Fb]; subst. unfold toks in Et. cbn [flat_map mailtok] in Et.
      rewrite app_assoc in Et. apply single in Et as (<- & _ & Et). split; [reflexivity|]. destruct box as [|m box]; [reflexivity|].
      inversion Fb; subst. discriminate. }
    destruct Ed as [-> ->]. assert (Cw : cw st c = tw (c_total k - c_recv k) (c_sched k) [TDone]) by (unfold cw; fold k; now rewrite Ep, Et).
    unfold tokens in Et. apply done_only in Et as (T1 & T2 & _).
    assert (Stop : forall k' extra, c_phase k' = Idle -> extra = [] \/ extra = [IMore c (c_qid k) 0] ->
              closer N (set_box (set_client st c k') (s_box st ++ extra)) st).
    { intros k' extra Kp X. pose proof (weight_client N st c k' extra Lc) as M. cbn zeta in M. set (st2 := set_box (set_client st c k') _) in *.
      assert (Cw2 : cw st2 c = 0) by (unfold cw; rewrite (cl_set st c k' _ : s_clients st2 c = k'); now rewrite Kp).
      assert (M' : nsum (cw st2) (seq 0 N) + cw st c = nsum (cw st) (seq 0 N) + cw st2 c).
      { apply M. intros d _. destruct X as [-> | ->]; [reflexivity|]. cbn. now rewrite andb_false_r. }
      rewrite Cw, Cw2 in M'. cbn [tw] in M'.
      right. unfold queries, weight. change (s_box st2) with (s_box st ++ extra). rewrite !nsum_app.
      destruct X as [-> | ->]; cbn [nsum map list_sum fold_right asks heavy]; lia. }
    assert (Go : forall n, 0 < n -> c_recv k + c_sched k + n <= c_total k ->
              closer N (set_box (set_client st c {| c_phase := Await; c_qid := c_qid k; c_total := c_total k; c_sched := n; c_recv := c_recv k + c_sched k; c_box := [] |})
                       (s_box st ++ [IMore c (c_qid k) n])) st).
    { intros n Np Ln. set (k' := {| c_phase := Await |}). pose proof (weight_client N st c k' [IMore c (c_qid k) n] Lc) as M. cbn zeta in M. set (st2 := set_box (set_client st c k') _) in *.
      assert (Kk : s_clients st2 c = k') by apply cl_set.
      assert (Tk : tokens st2 c = [TMore (c_qid k) n]).
      { unfold tokens. rewrite Kk. cbn [c_box k']. change (s_box st2) with (s_box st ++ [IMore c (c_qid k) n]). change (s_busy st2) with (s_busy st).
        unfold toks. rewrite flat_map_app, T1, T2. cbn. rewrite Nat.eqb_refl. now assert ((n =? 0) = false) as -> by lia. }
      assert (Cw2 : cw st2 c = 8 * (c_total k - (c_recv k + c_sched k))) by (unfold cw; rewrite Kk, Tk; reflexivity).
      assert (M' : nsum (cw st2) (seq 0 N) + cw st c = nsum (cw st) (seq 0 N) + cw st2 c).
      { apply M. intros d D. cbn [flat_map app]. rewrite app_nil_r. eapply boxtok_other; eauto 6. }
      rewrite Cw, Cw2 in M'. cbn [tw] in M'.
      right. unfold queries, weight. change (s_box st2) with (s_box st ++ [IMore c (c_qid k) n]). rewrite !nsum_app.
      cbn [nsum map list_sum fold_right asks]. assert (heavy (IMore c (c_qid k) n) = 0) as -> by (cbn; destruct n; lia). lia. }
    assert (Tl : c_recv k + c_sched k <= c_total k) by (destruct G as [G|G]; lia).
    unfold more_or_stop in S. cbn [c_phase c_qid c_total c_sched c_recv c_box s_box set_client] in S. destruct exporter.
    + destruct (Nat.ltb_spec (c_recv k + c_sched k) (c_total k)) as [Lt|Lt]; injection S as <-; [apply Go; lia|apply Stop; auto].
    + destruct (Nat.ltb_spec (c_total k) (c_recv k + c_sched k)) as [Lt|_]; [lia|].
      destruct (Nat.eqb_spec (Nat.min (c_total k - (c_recv k + c_sched k)) (c_sched k)) 0) as [Z|Z]; injection S as <-; [|apply Go; lia].
      set (k' := {| c_phase := Idle |}). replace (set_client st c k') with (set_box (set_client st c k') (s_box st ++ [])) by (now rewrite app_nil_r).
      apply Stop; auto.
Qed.

(** Steps that the state allows. *)
Definition effective (st : sys) (o : op) : Prop :=
  match o with
  | Start _ => False
  | Index m _ => In m (s_box st) /\
      match m with IQuery _ => s_idle st <> [] | IMore _ q n => n = 0 \/ s_pending st q = None \/ s_idle st <> [] | _ => True end
  | Answer w p => exists j r, take_job w (s_busy st) = Some (j, r) /\ In p (j_open j)
  | Client c => expects (s_clients st c)
  end.
Definition proceeds (o : op) : Prop := match o with Start _ => False | _ => True end.
Lemma closer_step : forall N W taste exporter st o st', 0 < taste -> ok_op o -> proceeds o -> inv W st -> bounded N st ->
  step taste exporter st o = Some st' -> (~ effective st o /\ st' = st) \/ closer N st' st.
Proof.
  intros N W taste exporter st o st' Tp K Po V Bd S. pose proof V as (HC & HQ & HW & HD & HN).
  destruct o as [c|m e|w p|c]; [contradiction|..]; cbn [step] in S.
  - destruct (take_msg m (s_box st)) as [box|] eqn:E.
    2:{ injection S as <-. left. split; [|reflexivity]. intros [I _]. destruct (take_msg_in _ _ I) as (r & X). congruence. }
    apply take_msg_spec in E as (l & r & B & ->). destruct K as [Kn Ka]. cbn [effective]. destruct m as [c|c|c q n|w]; cbn [handle_index] in S.
    + cbn [s_idle set_box] in S. destruct (s_idle st) eqn:Id; [injection S as <-; left; split; [tauto|reflexivity]|]. injection S as <-.
      right. left. unfold queries. cbn [s_box set_box]. rewrite B, !nsum_app, !nsum_cons. change (nsum asks []) with 0. cbn [asks]. lia.
    + right. left. destruct (e_found e) as [|x xs] eqn:F; injection S as <-; unfold queries.
      * cbn [s_box set_box to_client]. rewrite B, nsum_mid. cbn [asks]. lia.
      * cbn [s_box set_box to_client set_pending note_query]. rewrite B, !nsum_app, !nsum_cons. change (nsum asks []) with 0. cbn [asks]. lia.
    + destruct (Nat.eqb_spec n 0) as [->|D].
      * injection S as <-. right. now apply near_drop with c.
      * cbn [s_pending set_box s_idle] in S. destruct (s_pending st q) as [parts|] eqn:Pq.
        -- destruct (s_idle st) as [|w idle] eqn:Id.
           { injection S as <-. left. split; [|reflexivity]. intros [_ [X|[X|X]]]; [contradiction|congruence|contradiction]. }
           destruct (collect_query_actors (e_arrange e) (e_avail e) n parts) as [[a sk] rest] eqn:Co.
           destruct (supervise _ _ _ _ _) as [st1|] eqn:Su; [|discriminate]. injection S as <-. right.
           destruct (collect_spec _ _ _ _ _ _ _ Ka Co) as (_ & _ & _ & La & _).
           apply near_schedule with (3 := B) (6 := Su) (W := W); auto. lia.
        -- injection S as <-. right. apply near_unknown with W q n; auto. lia.
    + injection S as <-. right. now apply near_worker.
  - injection S as <-. destruct (take_job w (s_busy st)) as [[j busy]|] eqn:J.
    2:{ left. split; [|unfold answered; now rewrite J]. cbn [effective]. intros (j & r & X & _). congruence. }
    destruct (take_part p (j_open j)) as [open|] eqn:O.
    2:{ left. split; [|unfold answered; now rewrite J, O]. cbn [effective]. intros (j' & r & X & Y). rewrite J in X. injection X as <- <-.
        destruct (take_part_in _ _ Y) as (z & Z). congruence. }
    right. eapply near_answer; eauto.
  - cbn [effective]. eapply near_client; eauto.
Qed.

(** * Who takes part *)

Lemma bounded_step : forall N taste exporter st o st', proceeds o \/ (exists c, o = Start c /\ c < N) -> bounded N st ->
  (forall c, N <= c -> c_box (s_clients st c) = [] /\ ~ In (IQuery c) (s_box st) /\ ~ In (ILookup c) (s_box st)) ->
  step taste exporter st o = Some st' -> bounded N st'.
Proof.
  intros N taste exporter st o st' Po Bd Q S c Lc. specialize (Bd c Lc). destruct (Q c Lc) as (Qb & Q1 & Q2).
  destruct o as [d|m e|w p|d]; cbn [step] in S.
  - destruct Po as [[]|(x & X & Y)]. injection X as ->. injection S as <-. unfold client_start. destruct (c_phase (s_clients st x)); auto.
    cbn [s_clients set_box set_client]. now rewrite upd_other by lia.
  - assert (P : forall st1 d ms, c_phase (s_clients (to_client st1 d ms) c) = c_phase (s_clients st1 c)).
    { intros st1 d ms. unfold to_client. cbn [s_clients]. unfold upd. destruct (Nat.eqb_spec c d) as [->|]; reflexivity. }
    destruct (take_msg m (s_box st)) as [box|] eqn:E; [|now injection S as <-].
    destruct m as [d|d|d q n|w]; cbn [handle_index] in S.
    + destruct (s_idle _); injection S as <-; exact Bd.
    + destruct (e_found e); injection S as <-; cbn [s_clients set_box]; rewrite ?P; exact Bd.
    + destruct (n =? 0); [injection S as <-; exact Bd|]. destruct (s_pending _ q) as [parts|]; [|injection S as <-; rewrite P; exact Bd].
      destruct (s_idle _) as [|w idle]; [injection S as <-; exact Bd|]. destruct (collect_query_actors _ _ _ _) as [[a sk] rest].
      unfold supervise in S. destruct (existsb _ _); [discriminate|]. destruct a; injection S as <-; cbn [s_clients set_box set_busy]; rewrite ?P; exact Bd.
    + injection S as <-. exact Bd.
  - injection S as <-. unfold answered. destruct (take_job w (s_busy st)) as [[j busy]|]; [|exact Bd].
    destruct (take_part p (j_open j)) as [[|o open]|]; [|exact Bd|exact Bd].
    cbn [s_clients set_box]. unfold to_client. cbn [s_clients]. unfold upd. destruct (Nat.eqb_spec c (j_client j)) as [<-|]; exact Bd.
  - assert (P : forall k', c_phase (s_clients (set_client st d k') c) = if c =? d then c_phase k' else c_phase (s_clients st c)).
    { intros k'. unfold set_client. cbn [s_clients]. unfold upd. now destruct (c =? d). }
    destruct (Nat.eqb_spec c d) as [<-|D].
    + unfold client_step in S. rewrite Qb in S. now injection S as <-.
    + unfold client_step in S. destruct (c_box (s_clients st d)) as [|[q t s|] box]; [now injection S as <-| |];
        destruct (c_phase (s_clients st d)); try (now injection S as <-).
      * destruct (exporter d); [destruct (0 <? t)|destruct (s <=? t); [|discriminate]]; injection S as <-; cbn [s_clients set_box]; rewrite P; exact Bd.
      * unfold more_or_stop in S. cbn [c_recv c_total c_sched c_qid c_box] in S. destruct (exporter d).
        -- destruct (_ <? _); injection S as <-; cbn [s_clients set_box]; rewrite P; exact Bd.
        -- destruct (_ <? _); [discriminate|]. destruct (_ =? 0); injection S as <-; cbn [s_clients set_box]; rewrite P; exact Bd.
Qed.
Lemma quiet : forall W N st, inv W st -> bounded N st ->
  forall c, N <= c -> c_box (s_clients st c) = [] /\ ~ In (IQuery c) (s_box st) /\ ~ In (ILookup c) (s_box st).
Proof.
  intros W N st (HC & _) Bd c Lc. pose proof (HC c) as H. unfold inv_c in H. rewrite (Bd c Lc) in H. destruct H as [H T]. split; [exact H|].
  unfold tokens in T. apply toks_nil in T as (T & _).
  split; intros X; apply in_split in X as (l & r & X); rewrite X, flat_map_app in T; apply nil_app in T as [_ T]; cbn in T;
    rewrite Nat.eqb_refl in T; discriminate.
Qed.
Lemma inv_bounded_run : forall W taste exporter os, 0 < taste -> Forall ok_op os ->
  forall N st, inv W st -> bounded N st -> Forall (fun o => proceeds o \/ exists c, o = Start c /\ c < N) os ->
  forall st', run taste exporter st os = Some st' -> inv W st' /\ bounded N st'.
Proof.
  intros W taste exporter os Tp F. induction F as [|o os Fo _ IH]; intros N st V Bd P st' R; cbn [run] in R; [injection R as <-; auto|].
  inversion P; subst. destruct (inv_step W taste exporter st o Tp Fo V) as (st1 & E & V1). rewrite E in R.
  apply (IH N st1); auto. eapply bounded_step; eauto. eapply quiet; eauto.
Qed.
Lemma starts_bound : forall os, exists N, Forall (fun o => proceeds o \/ exists c, o = Start c /\ c < N) os.
Proof.
  induction os as [|o os (N & IH)]; [exists 0; constructor|]. exists (N + match o with Start c => S c | _ => 0 end). constructor.
  - destruct o; cbn; auto. right. eexists. split; [reflexivity|lia].
  - eapply Forall_impl; [|exact IH]. intros x [X|(c & -> & X)]; [now left|right]. exists c. split; [reflexivity|lia].
Qed.
Definition reachable (W taste : nat) (exporter : nat -> bool) (st : sys) : Prop :=
  exists os, Forall ok_op os /\ run taste exporter (start W) os = Some st.
Lemma reachable_inv : forall W taste exporter st, 0 < taste -> reachable W taste exporter st -> inv W st /\ exists N, bounded N st.
Proof.
  intros W taste exporter st Tp (os & F & R). destruct (starts_bound os) as (N & S).
  destruct (inv_bounded_run W taste exporter os Tp F N (start W)) with (st' := st) as [A B]; auto; [apply inv_initial|intros c _; reflexivity|].
  split; [exact A|]. now exists N.
Qed.

(** * There is an effective step until all is done *)

Lemma deadlock_free : forall W st, 0 < W -> inv W st -> (forall o, ok_op o -> proceeds o -> ~ effective st o) ->
  s_box st = [] /\ s_busy st = [] /\ Permutation (s_idle st) (seq 0 W) /\ forall c, c_phase (s_clients st c) = Idle.
Proof.
  intros W st Wp (HC & HQ & HW & HD & HN) Nx. set (e0 := {| e_found := []; e_arrange := fun l => l; e_avail := fun _ => true |}).
  assert (Ok : ok_env e0) by (split; [constructor|reflexivity]).
  assert (By : s_busy st = []).
  { destruct (s_busy st) as [|[w j] busy] eqn:By; [reflexivity|exfalso].
    destruct (j_open j) as [|p open] eqn:O; [now destruct (job_size st [] busy w j (HC _) By)|].
    apply (Nx (Answer w p)); [exact I|exact I|]. exists j, busy. rewrite By, O. cbn [take_job]. rewrite Nat.eqb_refl. split; [reflexivity|now left]. }
  assert (Nw : forall w, ~ In (IWorker w) (s_box st)).
  { intros w X. apply (Nx (Index (IWorker w) e0)); [exact Ok|exact I|]. now split. }
  assert (Fw : flat_map boxworker (s_box st) = []).
  { induction (s_box st) as [|m box IH]; [reflexivity|]. cbn [flat_map]. rewrite IH by (intros w X; apply (Nw w); now right).
    destruct m; try reflexivity. destruct (Nw w). now left. }
  unfold inv_w in HW. rewrite By, Fw in HW. cbn [map app] in HW. rewrite app_nil_r in HW.
  assert (Id : s_idle st <> []).
  { intros X. rewrite X in HW. apply Permutation_length in HW. rewrite seq_length in HW. cbn in HW. lia. }
  assert (Bx : s_box st = []).
  { destruct (s_box st) as [|m box] eqn:Bx; [reflexivity|exfalso]. apply (Nx (Index m e0)); [exact Ok|exact I|].
    split; [rewrite Bx; now left|]. destruct m; auto. }
  split; [exact Bx|]. split; [exact By|]. split; [exact HW|]. intros c.
  pose proof (HC c) as H. unfold inv_c in H. destruct (c_phase (s_clients st c)) eqn:Ep; [reflexivity|exfalso..].
  - destruct H as [_ [[Hb H]|(q & t & s & mail & E & _)]].
    + unfold tokens in H. rewrite By, Bx, Hb in H. destruct H; discriminate.
    + apply (Nx (Client c)); [exact I|exact I|]. cbn [effective]. unfold expects. now rewrite E, Ep.
  - destruct H as (tk & T & Fm & _). unfold tokens in T. rewrite By, Bx in T. cbn [flat_map toks app] in T.
    destruct (c_box (s_clients st c)) as [|m mail] eqn:E; [discriminate|]. inversion Fm; subst.
    apply (Nx (Client c)); [exact I|exact I|]. cbn [effective]. unfold expects. now rewrite E, Ep.
Qed.

(** * No endless run *)

Lemma no_endless : forall W taste exporter N, 0 < taste -> forall a b st, inv W st -> bounded N st -> queries st <= a -> weight N st <= b ->
  forall f : nat -> sys, f 0 = st ->
  ~ (forall i, exists o, ok_op o /\ proceeds o /\ step taste exporter (f i) o = Some (f (S i)) /\ f (S i) <> f i).
Proof.
  intros W taste exporter N Tp. induction a as [a IHa] using lt_wf_ind. induction b as [b IHb] using lt_wf_ind.
  intros st V Bd Qa Wb f F0 H. destruct (H 0) as (o & Ko & Po & Es & D). rewrite F0 in Es, D.
  destruct (inv_step W taste exporter st o Tp Ko V) as (st1 & E & V1). rewrite Es in E. injection E as E.
  assert (Bd1 : bounded N (f 1)) by (eapply bounded_step; eauto; eapply quiet; eauto). rewrite <- E in V1.
  destruct (closer_step N W taste exporter st o (f 1) Tp Ko Po V Bd Es) as [[_ X]|[C|[C1 C2]]]; [contradiction| |].
  - apply (IHa (queries (f 1))) with (b := weight N (f 1)) (st := f 1) (f := fun i => f (S i)); auto. lia.
  - apply (IHb (weight N (f 1))) with (st := f 1) (f := fun i => f (S i)); auto; lia.
Qed.
