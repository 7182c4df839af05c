(** C26, C27: the segment store. *)
From Coq Require Import List Bool Arith NArith ZArith Lia Sorted Permutation.
From Verif Require Import DataModel TypeModel TableSliceModel TableSliceProofs RangeMapModel RangeMapProofs LruModel LruProofs SegmentStoreModel SegmentStoreProofs SegmentStoreInvariant PropsTableSlice.
Import ListNotations.
Open Scope nat_scope.

(** * Specification *)

(** What a client keeps in mind: the list of stored rows (layout, ID, values). *)
Definition collides (rs : list row) (s : slice) : Prop := exists p, In p (map row_id rs) /\ In p (map row_id (rows_of s)).
Definition after_all (rs : list row) (s : slice) : Prop := forall p q, In p (map row_id rs) -> In q (map row_id (rows_of s)) -> p < q.
Definition collidesb (rs : list row) (s : slice) : bool := existsb (fun p => existsb (Nat.eqb p) (map row_id (rows_of s))) (map row_id rs).
Definition stored_step (rs : list row) (o : op) : list row :=
  match o with
  | OPut s => if collidesb rs s then rs else rs ++ rows_of s
  | OErase xs => filter (fun r => negb (in_set xs r)) rs
  | _ => rs
  end.
Definition stored (ops : list op) (rs : list row) : list row := fold_left stored_step ops rs.

(** The files whose deletion is not pending. *)
Definition live_files (st : store) : list (uuid * file) := filter (fun f => negb (existsb (Nat.eqb (fst f)) (st_doomed st))) (st_files st).

Section Store.
  Variable size : list slice -> nat.
  Variable max_size : nat.
  Variable writable : uuid -> bool.
  Variable arrange : (uuid -> bool) -> list uuid -> list uuid.
  Hypothesis writes_succeed : forall u, writable u = true.
  Hypothesis arranges : forall f cs, Permutation (arrange f cs) cs.

  Notation put := (put size max_size writable).
  Notation flush := (flush writable).
  Notation get := (get arrange).
  Notation erase := (erase writable).
  Notation step := (step size max_size writable arrange).
  Notation run := (run size max_size writable arrange).

  (** Clients put slices with valid IDs: either after all stored ones or with IDs that
      are in use. After a restart the directory lists its files in any order. *)
  Definition allowed (st : store) (rs : list row) (o : op) : Prop :=
    match o with
    | OPut s => valid_slice s /\ (collides rs s \/ after_all rs s)
    | ORestart order => forall st1 ok, flush st = Some (st1, ok) -> Permutation order (live_files st1)
    | _ => True
    end.
  Fixpoint history (st : store) (rs : list row) (ops : list op) : Prop :=
    match ops with
    | [] => True
    | o :: ops' => allowed st rs o /\ forall st', step st o = Some st' -> history st' (stored_step rs o) ops'
    end.

  Lemma ids_one : forall s, map row_id (rows_of s) = ids_of [s].
  Proof. intros s. unfold ids_of, rows. cbn. rewrite app_nil_r. reflexivity. Qed.
  Lemma collidesb_iff : forall rs s, collidesb rs s = true <-> collides rs s.
  Proof.
    intros rs s. unfold collidesb, collides. rewrite existsb_exists. split; intros (p & H1 & H2); exists p; (split; [assumption|]).
    - apply existsb_exists in H2 as (q & Hq & E). apply Nat.eqb_eq in E. subst q. assumption.
    - apply existsb_exists. exists p. split; [assumption|apply Nat.eqb_refl].
  Qed.
  Lemma valid_nonempty : forall s, valid_slice s -> exists q, In q (ids_of [s]).
  Proof. intros s V. rewrite ids_of_one by assumption. pose proof (interval_lt s V). exists (fst (interval s)). apply in_seq. lia. Qed.

  Lemma nodup_map_filter : forall (A B : Type) (f : A -> B) (g : A -> bool) l, NoDup (map f l) -> NoDup (map f (filter g l)).
  Proof.
    intros A B f g. induction l as [|x l IH]; cbn; intros H; [constructor|]. inversion H; subst. destruct (g x); [|auto]. cbn. constructor; [|auto].
    intros Hin. apply H2. apply in_map_iff in Hin as (y & E & Hy). apply filter_In in Hy as [Hy _]. rewrite <- E. apply in_map. assumption.
  Qed.
  Lemma live_perm : forall st F d, inv st F d -> sg_slices (st_builder st) = [] -> Permutation (live_files st) (map file_of F).
  Proof.
    intros st F d H Hb. apply NoDup_Permutation.
    - apply (NoDup_map_inv fst). apply nodup_map_filter. apply (inv_names _ _ _ H).
    - apply (NoDup_map_inv fst). rewrite map_map. cbn. pose proof (inv_nodup _ _ _ H) as N. unfold all_segments in N. rewrite map_app in N. apply nodup_app in N. tauto.
    - intros f. unfold live_files. rewrite filter_In, negb_true_iff, in_map_iff. split.
      + intros [H1 H2]. destruct (inv_live _ _ _ H f H1) as (g & G1 & G2).
        { intros Hin. apply not_true_iff_false in H2. apply H2. apply existsb_exists. exists (fst f). split; [assumption|apply Nat.eqb_refl]. }
        exists g. auto.
      + intros (g & <- & Hg). split; [apply (inv_files _ _ _ H); assumption|]. apply not_true_iff_false. rewrite existsb_exists. intros (u & Hu & E). apply Nat.eqb_eq in E. subst u.
        destruct (inv_doomed _ _ _ H _ Hu) as [_ D]. apply D. cbn. apply in_map. apply in_app_iff. auto.
  Qed.

  Definition good_state (st : store) (rs : list row) : Prop := 0 < ca_capacity (st_cache st) /\ exists F, inv st F 0 /\ rows (content st F) = rs.

  Lemma good_step : forall st rs o, good_state st rs -> allowed st rs o -> exists st', step st o = Some st' /\ good_state st' (stored_step rs o).
  Proof using writes_succeed arranges.
    intros st rs o (Hcap & F & H & <-) Ha. destruct o as [s| |xs|xs| |u|order]; cbn [step stored_step].
    - destruct Ha as [V Hc]. destruct (collidesb (rows (content st F)) s) eqn:Ecol.
      + apply collidesb_iff in Ecol as (p & P1 & P2). rewrite ids_one in P2. rewrite (put_overlap writable size max_size st F 0 s p H V P2 P1).
        exists st. split; [reflexivity|]. split; [assumption|]. exists F. auto.
      + destruct Hc as [Hc|Hc]; [apply collidesb_iff in Hc; congruence|].
        destruct (put_spec writable writes_succeed size max_size st F 0 s H V) as (st' & F' & -> & I & C & Cap & _).
        { intros p q Hp Hq. apply Hc; [assumption|]. rewrite ids_one. assumption. }
        exists st'. split; [reflexivity|]. split; [congruence|]. exists F'. split; [assumption|]. rewrite C, rows_app. unfold rows at 2. cbn. rewrite app_nil_r. reflexivity.
    - destruct (flush_spec writable writes_succeed st F 0 H) as (st' & F' & -> & I & C & _ & Cap & _). exists st'. split; [reflexivity|]. split; [congruence|]. exists F'. split; [assumption|congruence].
    - destruct (get_spec arrange arranges st F 0 xs H) as (st' & ss & -> & S & _). exists st'. split; [reflexivity|].
      split; [destruct S as (c & -> & _ & E); cbn; congruence|]. exists F. split; [eapply same_inv; eassumption|]. destruct S as (c & -> & _). reflexivity.
    - destruct (erase_spec writable writes_succeed st F xs H) as (st' & F' & -> & I & R & Cap). exists st'. split; [reflexivity|]. split; [congruence|]. exists F'. auto.
    - exists (clear_cache st). split; [reflexivity|]. split; [assumption|]. exists F. split; [apply clear_cache_spec; assumption|reflexivity].
    - exists (release st u). split; [reflexivity|]. assert (st_builder (release st u) = st_builder st /\ st_cache (release st u) = st_cache st) as [E1 E2] by (unfold release; destruct (existsb (Nat.eqb u) (st_doomed st)); auto).
      split; [congruence|]. exists F. split; [apply release_spec; assumption|]. unfold content, all_segments. rewrite E1. reflexivity.
    - cbn [allowed] in Ha. destruct (flush_spec writable writes_succeed st F 0 H) as (st' & F' & E & I & C & Eb & Cap & _). rewrite E. specialize (Ha _ _ E).
      pose proof (Permutation_trans Ha (live_perm _ _ _ I Eb)) as P. apply Permutation_map_inv in P as (G & -> & P).
      assert (content st' F' = segment_rows F') as Ec by (unfold content, all_segments; rewrite segment_rows_app; cbn; rewrite Eb, !app_nil_r; reflexivity).
      destruct (open_spec (ca_capacity (st_cache st)) F' G (st_fresh st')) as (st2 & -> & I2 & B2 & _ & Cap2).
      + assumption.
      + symmetry. assumption.
      + rewrite <- Ec. apply (inv_ordered _ _ _ I).
      + pose proof (inv_nodup _ _ _ I) as N. unfold all_segments in N. rewrite map_app in N. apply nodup_app in N. tauto.
      + pose proof (inv_nonempty _ _ _ I) as N1. pose proof (inv_fresh _ _ _ I) as N2. apply Forall_app in N2 as [N2 _]. rewrite Forall_forall in *. auto.
      + exists st2. split; [reflexivity|]. split; [congruence|]. exists F'. split; [assumption|]. rewrite <- C, Ec. unfold content, all_segments. rewrite B2, segment_rows_app. cbn [segment_rows flat_map sg_slices]. rewrite !app_nil_r. reflexivity.
  Qed.
  Lemma good_run : forall ops st rs, good_state st rs -> history st rs ops -> exists st', run ops st = Some st' /\ good_state st' (stored ops rs).
  Proof using writes_succeed arranges.
    induction ops as [|o ops IH]; intros st rs H Hh; [exists st; auto|]. destruct Hh as [H1 H2]. cbn [run stored fold_left].
    destruct (good_step st rs o H H1) as (st1 & E & G). rewrite E. apply (IH st1 (stored_step rs o) G). apply H2. assumption.
  Qed.
  Lemma good_empty : forall capacity st, open capacity [] 0 = Some st -> good_state st [].
  Proof.
    intros capacity st E. assert (0 < capacity) as Hc by (unfold open, cache_new in E; cbn [fold_left] in E; destruct (Nat.ltb_spec 0 capacity); [assumption|discriminate]).
    destruct (open_spec capacity [] [] 0 Hc) as (st' & E' & I & B & _ & Cap); try constructor.
    { constructor. } { constructor. }
    cbn [map] in E'. rewrite E in E'. injection E' as <-. rewrite Cap in *. assumption.
    exists []. split; [|unfold content, all_segments; cbn [map] in E'; rewrite E in E'; injection E' as <-; rewrite B; reflexivity].
    cbn [map] in E'. rewrite E in E'. injection E' as <-. assumption.
  Qed.

  Lemma hits_rows : forall xs ss, Forall valid_slice ss -> filter (in_set xs) (rows (hits xs ss)) = filter (in_set xs) (rows ss).
  Proof.
    intros xs ss V. induction V as [|s ss Hs V IH]; [reflexivity|]. cbn [hits filter]. change (rows (s :: ss)) with (rows_of s ++ rows ss).
    destruct (touches interval xs s) eqn:E.
    - change (rows (s :: filter (touches interval xs) ss)) with (rows_of s ++ rows (hits xs ss)). rewrite !filter_app, IH. reflexivity.
    - fold (hits xs ss). rewrite filter_app, IH. rewrite (filter_none _ (in_set xs) (rows_of s)); [reflexivity|]. intros r Hr. apply not_true_iff_false in E. apply not_true_iff_false. intros Hx. apply E.
      apply touches_rows; [assumption|]. exists r. auto.
  Qed.
  Lemma nodup_filter_slices : forall f ss, NoDup (ids_of ss) -> NoDup (ids_of (filter f ss)).
  Proof.
    intros f. induction ss as [|s ss IH]; intros H; [constructor|]. change (s :: ss) with ([s] ++ ss) in H. rewrite ids_of_app in H. apply nodup_app in H as (H1 & H2 & H3). cbn [filter].
    destruct (f s); [|auto]. change (s :: filter f ss) with ([s] ++ filter f ss). rewrite ids_of_app. apply nodup_app. split; [assumption|]. split; [auto|]. intros p Hp Hq. apply (H3 p Hp).
    unfold ids_of, rows in *. apply in_map_iff in Hq as (r & <- & Hr). apply in_map. apply in_flat_map in Hr as (s' & Hs' & Hr). apply filter_In in Hs' as [Hs' _]. apply in_flat_map. exists s'. auto.
  Qed.

  (** What looking up IDs returns: all stored rows with these IDs, only stored rows, each
      once, and only slices with at least one of the IDs. *)
  Definition answers (rs : list row) (xs : list bool) (ss : list slice) : Prop :=
    Permutation (filter (in_set xs) (rows ss)) (filter (in_set xs) rs) /\ incl (rows ss) rs /\ NoDup (map row_id (rows ss)) /\
    Forall (fun s => exists r, In r (rows_of s) /\ in_set xs r = true) ss.

  Lemma hits_answer : forall xs ss cs, ordered cs -> Permutation ss (hits xs cs) -> answers (rows cs) xs ss.
  Proof.
    intros xs ss cs O P. pose proof (Permutation_flat_map rows_of P) as P2. fold (rows ss) in P2. fold (rows (hits xs cs)) in P2. split; [|split; [|split]].
    - assert (forall (f : row -> bool) a b, Permutation a b -> Permutation (filter f a) (filter f b)) as PF.
      { intros f a b H. induction H; cbn; [constructor|destruct (f x); auto|destruct (f x), (f y); auto; apply perm_swap|etransitivity; eassumption]. }
      rewrite (PF _ _ _ P2), hits_rows; [reflexivity|apply O].
    - intros r Hr. apply (Permutation_in _ P2) in Hr. unfold rows in Hr |- *. apply in_flat_map in Hr as (s & Hs & Hr). apply filter_In in Hs as [Hs _]. apply in_flat_map. exists s. auto.
    - eapply Permutation_NoDup; [apply Permutation_map; symmetry; exact P2|]. apply nodup_filter_slices. apply ss_lt_nodup. apply O.
    - rewrite Forall_forall. intros s Hs. apply (Permutation_in _ P) in Hs. apply filter_In in Hs as [Hs Ht]. destruct O as [V _]. rewrite Forall_forall in V. apply touches_rows; auto.
  Qed.

  (** * C26 *)

  (** After any history the store answers with exactly the rows that were put and not
      erased, and it counts them. *)
  Theorem C26_get : forall capacity st0 ops, open capacity [] 0 = Some st0 -> history st0 [] ops ->
    exists st, run ops st0 = Some st /\ st_events st = length (stored ops []) /\
      forall xs, exists st' ss, get st xs = Some (st', Some ss) /\ answers (stored ops []) xs ss.
  Proof using writes_succeed arranges.
    intros capacity st0 ops E H. destruct (good_run ops st0 [] (good_empty _ _ E) H) as (st & R & _ & F & I & C). exists st. split; [assumption|].
    split; [rewrite (inv_events _ _ _ I), C; lia|]. intros xs. destruct (get_spec arrange arranges st F 0 xs I) as (st' & ss & G & _ & P). exists st', ss. split; [assumption|].
    rewrite <- C. apply hits_answer; [apply (inv_ordered _ _ _ I)|assumption].
  Qed.

  (** A put succeeds if its IDs come after all stored ones; one whose IDs are in use is
      rejected and changes nothing. *)
  Theorem C26_put : forall capacity st0 ops, open capacity [] 0 = Some st0 -> history st0 [] ops ->
    exists st, run ops st0 = Some st /\ forall s, valid_slice s ->
      (after_all (stored ops []) s -> exists st', put st s = Some (st', true)) /\
      (collides (stored ops []) s -> put st s = Some (st, false)).
  Proof using writes_succeed arranges.
    intros capacity st0 ops E H. destruct (good_run ops st0 [] (good_empty _ _ E) H) as (st & R & _ & F & I & C). exists st. split; [assumption|]. intros s V. rewrite <- C. split.
    - intros Ha. destruct (put_spec writable writes_succeed size max_size st F 0 s I V) as (st' & _ & -> & _); [|exists st'; reflexivity]. intros p q Hp Hq. apply Ha; [assumption|]. rewrite ids_one. assumption.
    - intros (p & P1 & P2). rewrite ids_one in P2. apply (put_overlap writable size max_size st F 0 s p I V P2 P1).
  Qed.

  (** ** Extract sessions *)

  (** A client asks for slices one at a time while others put, flush, look up, clear the
      cache and release chunks. *)
  Inductive sop := SNext | SOp (o : op).
  Definition quiet (o : op) : Prop := match o with OErase _ | ORestart _ => False | _ => True end.
  (** The store, the session, the delivered slices and whether the last answer was [Done];
      [None] includes a failed answer. *)
  Fixpoint run_session (ops : list sop) (st : store) (se : session) (out : list slice) (finished : bool) : option (store * session * list slice * bool) :=
    match ops with
    | [] => Some (st, se, out, finished)
    | SNext :: ops' =>
      match next st se with
      | Some (st', se', Next s) => run_session ops' st' se' (out ++ [s]) false
      | Some (st', se', Done) => run_session ops' st' se' out true
      | Some (_, _, Failed) | None => None
      end
    | SOp o :: ops' => match step st o with Some st' => run_session ops' st' se out finished | None => None end
    end.
  Fixpoint session_history (st : store) (se : session) (rs : list row) (ops : list sop) : Prop :=
    match ops with
    | [] => True
    | SNext :: ops' => forall st' se' a, next st se = Some (st', se', a) -> session_history st' se' rs ops'
    | SOp o :: ops' => quiet o /\ allowed st rs o /\ forall st', step st o = Some st' -> session_history st' se (stored_step rs o) ops'
    end.
  Definition session_stored (ops : list sop) (rs : list row) : list row :=
    fold_left (fun rs o => match o with SOp o => stored_step rs o | SNext => rs end) ops rs.

  Definition in_session (st : store) (F : list segment) (xs : list bool) (start : list slice) (todo : list uuid) (got : list slice) : Prop :=
    NoDup todo /\ (forall u, In u todo -> exists g, In g (all_segments st F) /\ sg_id g = u) /\ NoDup (ids_of got) /\
    (forall s, In s got -> touches interval xs s = true /\ exists g, In g (all_segments st F) /\ In s (sg_slices g) /\ ~ In (sg_id g) todo) /\
    (forall s, In s start -> touches interval xs s = true -> In s got \/ exists g, In g (all_segments st F) /\ In s (sg_slices g) /\ In (sg_id g) todo).
  Definition grows (st : store) (F : list segment) (st' : store) (F' : list segment) : Prop :=
    forall h, In h (all_segments st F) -> exists h', In h' (all_segments st' F') /\ sg_id h' = sg_id h /\ incl (sg_slices h) (sg_slices h').

  Lemma grows_session : forall st F st' F' xs start todo got, grows st F st' F' -> in_session st F xs start todo got -> in_session st' F' xs start todo got.
  Proof.
    intros st F st' F' xs start todo got G (S1 & S2 & S3 & S4 & S5). split; [assumption|]. split; [|split; [assumption|split]].
    - intros u Hu. destruct (S2 u Hu) as (g & G1 & G2). destruct (G g G1) as (h & H1 & H2 & _). exists h. split; [assumption|congruence].
    - intros s Hs. destruct (S4 s Hs) as (T & g & G1 & G2 & G3). split; [assumption|]. destruct (G g G1) as (h & H1 & H2 & H3). exists h. split; [assumption|]. split; [auto|congruence].
    - intros s Hs T. destruct (S5 s Hs T) as [|(g & G1 & G2 & G3)]; [auto|right]. destruct (G g G1) as (h & H1 & H2 & H3). exists h. split; [assumption|]. split; [auto|congruence].
  Qed.
  Lemma same_grows : forall st st' F, same_but_cache st st' F -> grows st F st' F.
  Proof. intros st st' F (c & -> & _) h Hh. exists h. split; [assumption|]. split; [reflexivity|apply incl_refl]. Qed.

  Lemma quiet_step : forall st rs o F, 0 < ca_capacity (st_cache st) -> inv st F 0 -> rows (content st F) = rs -> quiet o -> allowed st rs o ->
    exists st' F', step st o = Some st' /\ 0 < ca_capacity (st_cache st') /\ inv st' F' 0 /\ rows (content st' F') = stored_step rs o /\ grows st F st' F'.
  Proof using writes_succeed arranges.
    intros st rs o F Hcap H <- Hq Ha. assert (grows st F st F) as Gid by (intros h Hh; exists h; split; [assumption|]; split; [reflexivity|apply incl_refl]).
    destruct o as [s| |xs|xs| |u|order]; cbn [step stored_step]; try contradiction.
    - destruct Ha as [V Hc]. destruct (collidesb (rows (content st F)) s) eqn:Ecol.
      + apply collidesb_iff in Ecol as (p & P1 & P2). rewrite ids_one in P2. rewrite (put_overlap writable size max_size st F 0 s p H V P2 P1).
        exists st, F. split; [reflexivity|]. auto.
      + destruct Hc as [Hc|Hc]; [apply collidesb_iff in Hc; congruence|].
        destruct (put_spec writable writes_succeed size max_size st F 0 s H V) as (st' & F' & -> & I & C & Cap & _ & G).
        { intros p q Hp Hq'. apply Hc; [assumption|]. rewrite ids_one. assumption. }
        exists st', F'. split; [reflexivity|]. split; [congruence|]. split; [assumption|]. split; [|exact G]. rewrite C, rows_app. unfold rows at 2. cbn. rewrite app_nil_r. reflexivity.
    - destruct (flush_spec writable writes_succeed st F 0 H) as (st' & F' & -> & I & C & _ & Cap & _ & Alt). exists st', F'. split; [reflexivity|]. split; [congruence|]. split; [assumption|]. split; [congruence|].
      intros h Hh. exists h. split; [|split; [reflexivity|apply incl_refl]]. destruct Alt as [<-| ->]; [assumption|]. apply in_app_iff. auto.
    - destruct (get_spec arrange arranges st F 0 xs H) as (st' & ss & -> & S & _). exists st', F. split; [reflexivity|].
      split; [destruct S as (c & -> & _ & E); cbn; congruence|]. split; [eapply same_inv; eassumption|]. split; [destruct S as (c & -> & _); reflexivity|]. apply same_grows. assumption.
    - exists (clear_cache st), F. split; [reflexivity|]. split; [assumption|]. split; [apply clear_cache_spec; assumption|]. split; [reflexivity|exact Gid].
    - exists (release st u), F. split; [reflexivity|]. assert (st_builder (release st u) = st_builder st /\ st_cache (release st u) = st_cache st) as [E1 E2] by (unfold release; destruct (existsb (Nat.eqb u) (st_doomed st)); auto).
      split; [congruence|]. split; [apply release_spec; assumption|]. unfold content, grows, all_segments. rewrite E1. split; [reflexivity|exact Gid].
  Qed.

  Lemma in_segment_ids : forall L (g : segment) s p, In g L -> In s (sg_slices g) -> In p (ids_of [s]) -> In p (ids_of (sg_slices g)).
  Proof. intros L g s p _ Hs Hp. rewrite <- ids_one in Hp. unfold ids_of, rows. apply in_map_iff in Hp as (r & <- & Hr). apply in_map. apply in_flat_map. exists s. auto. Qed.
  Lemma in_ids_slice : forall ss p, In p (ids_of ss) -> exists s, In s ss /\ In p (ids_of [s]).
  Proof. intros ss p Hp. unfold ids_of, rows in Hp. apply in_map_iff in Hp as (r & <- & Hr). apply in_flat_map in Hr as (s & Hs & Hr). exists s. split; [assumption|]. rewrite <- ids_one. apply in_map. assumption. Qed.

  Lemma next_spec : forall todo st F xs start out buffer, inv st F 0 -> in_session st F xs start todo (out ++ buffer) ->
    exists st' se' a, session_next todo st xs buffer = Some (st', se', a) /\ same_but_cache st st' F /\ se_ids se' = xs /\
      match a with
      | Next s => in_session st' F xs start (se_todo se') ((out ++ [s]) ++ se_buffer se')
      | Done => in_session st' F xs start (se_todo se') (out ++ se_buffer se') /\ se_todo se' = [] /\ se_buffer se' = []
      | Failed => False
      end.
  Proof.
    induction todo as [|u todo IH]; intros st F xs start out buffer H S.
    - destruct buffer as [|s buffer]; cbn [session_next].
      + do 3 eexists. split; [reflexivity|]. split; [eapply same_refl; eassumption|]. split; [reflexivity|]. auto.
      + do 3 eexists. split; [reflexivity|]. split; [eapply same_refl; eassumption|]. split; [reflexivity|]. cbn. rewrite <- app_assoc. assumption.
    - destruct buffer as [|s buffer]; cbn [session_next].
      2:{ do 3 eexists. split; [reflexivity|]. split; [eapply same_refl; eassumption|]. split; [reflexivity|]. cbn. rewrite <- app_assoc. assumption. }
      rewrite app_nil_r in S. destruct S as (S1 & S2 & S3 & S4 & S5). destruct (S2 u (or_introl eq_refl)) as (g & G1 & <-).
      destruct (lookup_candidate_spec st F 0 xs g H G1) as (st1 & -> & Same). inversion S1 as [|? ? Hnu Nd]; subst.
      pose proof (inv_nodup _ _ _ H) as Ndl. pose proof (inv_ordered _ _ _ H) as O. pose proof (ordered_in _ _ O G1) as Og.
      destruct (IH st1 F xs start out (hits xs (sg_slices g))) as (st2 & se2 & a & -> & Same2 & E2 & R2).
      + eapply same_inv; eassumption.
      + apply (grows_session st F); [apply same_grows; assumption|]. split; [assumption|]. split; [intros u Hu; apply S2; right; assumption|]. split; [|split].
        * rewrite ids_of_app. apply nodup_app. split; [assumption|]. split; [apply nodup_filter_slices, ss_lt_nodup, Og|].
          intros p Hp Hq. apply in_ids_slice in Hp as (s & Hs & Hp). apply in_ids_slice in Hq as (t & Ht & Hq). apply filter_In in Ht as [Ht _].
          destruct (S4 s Hs) as (_ & h & K1 & K2 & K3). assert (h <> g) as Hne by (intros ->; apply K3; left; reflexivity).
          pose proof (in_segment_ids _ h s p K1 K2 Hp) as Q1. pose proof (in_segment_ids _ g t p G1 Ht Hq) as Q2.
          destruct (apart _ h g O K1 G1 Hne) as [A|A]; [specialize (A _ _ Q1 Q2)|specialize (A _ _ Q2 Q1)]; lia.
        * intros s Hs. apply in_app_iff in Hs as [Hs|Hs].
          -- destruct (S4 s Hs) as (T & h & K1 & K2 & K3). split; [assumption|]. exists h. split; [assumption|]. split; [assumption|]. intros Hin. apply K3. right. assumption.
          -- apply filter_In in Hs as [Hs T]. split; [assumption|]. exists g. auto.
        * intros s Hs T. destruct (S5 s Hs T) as [|(h & K1 & K2 & [K3|K3])]; [left; apply in_app_iff; auto| |right; exists h; auto].
          assert (h = g) as -> by (eapply unique_segment; eauto). left. apply in_app_iff. right. apply filter_In. auto.
      + do 3 eexists. split; [reflexivity|]. split; [eapply same_trans; eassumption|]. auto.
  Qed.

  Lemma session_run : forall ops st F xs start se out fin rs, 0 < ca_capacity (st_cache st) -> inv st F 0 -> rows (content st F) = rs -> se_ids se = xs ->
    in_session st F xs start (se_todo se) (out ++ se_buffer se) -> (fin = true -> se_todo se = [] /\ se_buffer se = []) -> session_history st se rs ops ->
    exists st' se' out' fin' F', run_session ops st se out fin = Some (st', se', out', fin') /\ inv st' F' 0 /\ rows (content st' F') = session_stored ops rs /\
      in_session st' F' xs start (se_todo se') (out' ++ se_buffer se') /\ (fin' = true -> se_todo se' = [] /\ se_buffer se' = []).
  Proof using writes_succeed arranges.
    induction ops as [|o ops IH]; intros st F xs start se out fin rs Hcap H E Ex S Hfin Hh.
    - exists st, se, out, fin, F. auto.
    - destruct o as [|o]; cbn [run_session session_history session_stored fold_left] in *.
      + unfold next in *. rewrite Ex in *. destruct (next_spec (se_todo se) st F xs start out (se_buffer se) H S) as (st1 & se1 & a & En & Same & E1 & R). rewrite En in *.
        specialize (Hh _ _ _ eq_refl). assert (0 < ca_capacity (st_cache st1)) as Hcap1 by (destruct Same as (c & -> & _ & Ec); cbn; congruence).
        assert (rows (content st1 F) = rs) as Er1 by (destruct Same as (c & -> & _); exact E). pose proof (same_inv _ _ _ _ H Same) as I1.
        destruct a as [s| |]; [| |contradiction].
        * apply (IH st1 F xs start se1 (out ++ [s]) false rs); auto. discriminate.
        * destruct R as [R1 R2]. apply (IH st1 F xs start se1 out true rs); auto.
      + destruct Hh as (H1 & H2 & H3). destruct (quiet_step st rs o F Hcap H E H1 H2) as (st1 & F1 & Es & Hcap1 & I1 & R1 & G1). rewrite Es. specialize (H3 _ Es).
        apply (IH st1 F1 xs start se out fin (stored_step rs o)); auto. eapply grows_session; eassumption.
  Qed.

  (** An extract session never fails while nothing is erased: what it delivers is stored,
      is delivered once and contains a requested ID, and once it is done it has delivered
      every row with a requested ID that was stored when the session was opened. *)
  Theorem C26_extract : forall capacity st0 ops xs sops, open capacity [] 0 = Some st0 -> history st0 [] ops ->
    exists st, run ops st0 = Some st /\ exists st1 se, extract arrange st xs = Some (st1, se) /\
      (session_history st1 se (stored ops []) sops -> exists st' se' out fin, run_session sops st1 se [] false = Some (st', se', out, fin) /\
         incl (rows out) (session_stored sops (stored ops [])) /\ NoDup (map row_id (rows out)) /\
         Forall (fun s => exists r, In r (rows_of s) /\ in_set xs r = true) out /\
         (fin = true -> incl (filter (in_set xs) (stored ops [])) (rows out))).
  Proof using writes_succeed arranges.
    intros capacity st0 ops xs sops E H. destruct (good_run ops st0 [] (good_empty _ _ E) H) as (st & R & Hcap & F & I & C). exists st. split; [assumption|].
    unfold extract. destruct (candidates_spec arrange arranges st F 0 xs I) as (st1 & gs & -> & Same & Nd & Hi & Hall & _). cbn [option_map fst snd].
    do 2 eexists. split; [reflexivity|]. intros Hh.
    assert (all_segments st1 F = all_segments st F) as Ea by (destruct Same as (c & -> & _); reflexivity).
    assert (rows (content st1 F) = stored ops []) as C1 by (unfold content; rewrite Ea; exact C). pose proof (same_inv _ _ _ _ I Same) as I1.
    destruct (session_run sops st1 F xs (content st1 F) {| se_ids := xs; se_todo := map sg_id gs; se_buffer := [] |} [] false (stored ops [])) as (st' & se' & out & fin & F' & R' & I' & C' & S' & Hf'); auto.
    - destruct Same as (c & -> & _ & Ec). cbn. congruence.
    - cbn [se_todo se_buffer app]. split; [assumption|]. split; [|split; [constructor|split]].
      + intros u Hu. apply in_map_iff in Hu as (g & <- & Hg). exists g. rewrite Ea. auto.
      + intros s [].
      + intros s Hs T. right. unfold content, segment_rows in Hs. apply in_flat_map in Hs as (g & G1 & G2). exists g. split; [assumption|]. split; [assumption|]. apply in_map. apply Hall; [rewrite <- Ea; assumption|].
        pose proof (ordered_in _ _ (inv_ordered _ _ _ I1) G1) as [V _]. rewrite Forall_forall in V. apply touches_rows in T as (r & R1 & R2); [|auto]. exists (row_id r). split; [|assumption].
        unfold ids_of, rows. apply in_map. apply in_flat_map. exists s. auto.
    - discriminate.
    - exists st', se', out, fin. split; [assumption|]. destruct S' as (_ & _ & S3 & S4 & S5). split; [|split; [|split]].
      + intros r Hr. rewrite <- C'. unfold rows in Hr. apply in_flat_map in Hr as (s & Hs & Hr). destruct (S4 s (proj2 (in_app_iff _ _ _) (or_introl Hs))) as (_ & g & G1 & G2 & _).
        unfold rows. apply in_flat_map. exists s. split; [|assumption]. apply in_flat_map. exists g. auto.
      + change (NoDup (ids_of out)). rewrite ids_of_app in S3. apply nodup_app in S3. tauto.
      + rewrite Forall_forall. intros s Hs. destruct (S4 s (proj2 (in_app_iff _ _ _) (or_introl Hs))) as (T & g & G1 & G2 & _). apply touches_rows; [|assumption].
        pose proof (ordered_in _ _ (inv_ordered _ _ _ I') G1) as [V _]. rewrite Forall_forall in V. auto.
      + intros Ef r Hr. destruct (Hf' Ef) as [Et Eb]. rewrite Et, Eb, app_nil_r in S5. apply filter_In in Hr as [Hr Hx]. rewrite <- C1 in Hr. unfold rows in Hr. apply in_flat_map in Hr as (s & Hs & Hr).
        assert (valid_slice s) as V by (pose proof (inv_ordered _ _ _ I1) as [V _]; rewrite Forall_forall in V; auto).
        destruct (S5 s Hs) as [Hin|(g & _ & _ & [])]; [apply touches_rows; [assumption|]; exists r; auto|]. unfold rows. apply in_flat_map. exists s. auto.
  Qed.

  (** * C27 *)

  (** The rows in complete segments of a directory. *)
  Definition on_disk (fs : list (uuid * file)) (r : row) : Prop := exists u g, In (u, Whole g) fs /\ In r (rows (sg_slices g)).

  Lemma crash_keeps : forall cs st xs ds fs, crash_points writable st xs cs = Some ds -> In fs ds -> incl (st_files st) fs.
  Proof.
    induction cs as [|u cs IH]; intros st xs ds fs E Hin; cbn [crash_points] in E.
    - injection E as <-. destruct Hin as [<-|[]]. apply incl_refl.
    - destruct (erase_candidate writable st xs u) as [[st1 n]|] eqn:Ee; [|discriminate].
      destruct (crash_points writable st1 xs cs) as [rest|] eqn:Er; [|discriminate]. cbn in E. injection E as <-.
      assert (incl (st_files st) (st_files st1)) as Hsub.
      { clear -Ee. assert (forall st g st1 n, erase_segment writable st g xs = Some (st1, n) -> incl (st_files st) (st_files st1)) as Hseg.
        { intros a g b m E. unfold erase_segment in E. destruct (shrink g xs) as [[new|]|]; [| |discriminate]; injection E as <- _; cbn; [|apply incl_refl].
          destruct (writable (st_fresh a)); [apply incl_appl|]; apply incl_refl. }
        unfold erase_candidate in Ee. destruct (cache_find Nat.eqb (st_cache st) u) as [[c [g|]]|]; [| |discriminate].
        - destruct (erase_segment writable (with_cache st c) g xs) as [[st2 m]|] eqn:E; [|discriminate]. destruct (find_map Nat.eqb u (ca_tracker c)); [|discriminate].
          injection Ee as <- _. apply (Hseg _ _ _ _ E).
        - destruct (u =? sg_id (st_builder st)).
          + unfold erase_builder in Ee. destruct (shrink (st_builder (with_cache st c)) xs) as [[new|]|]; [| |discriminate]; injection Ee as <- _; apply incl_refl.
          + destruct (load st u) as [[g|]|]; [|discriminate|injection Ee as <- _; apply incl_refl]. apply (Hseg _ _ _ _ Ee). }
      destruct Hin as [<-|Hin]; [apply incl_refl|]. apply in_app_iff in Hin as [Hin|Hin].
      + apply in_map_iff in Hin as (f & <- & _). apply incl_appl, incl_refl.
      + eapply incl_tran; [exact Hsub|]. eapply IH; eassumption.
  Qed.

  (** Nothing that is to be kept is lost from disk: at any time, and at every crash point
      of an erase, every stored row outside of the active segment is in a complete
      segment; only the rows of the active segment, the latest ones, exist in memory only. *)
  Theorem C27_kept_on_disk : forall capacity st0 ops xs cs ds fs, open capacity [] 0 = Some st0 -> history st0 [] ops ->
    exists st, run ops st0 = Some st /\ (crash_points writable st xs cs = Some ds -> In fs ds ->
      exists flushed, stored ops [] = flushed ++ rows (sg_slices (st_builder st)) /\ forall r, In r flushed -> on_disk fs r).
  Proof using writes_succeed arranges.
    intros capacity st0 ops xs cs ds fs E H. destruct (good_run ops st0 [] (good_empty _ _ E) H) as (st & R & Hcap & F & I & C). exists st. split; [assumption|].
    intros Ec Hin. exists (rows (segment_rows F)). split.
    - rewrite <- C. unfold content, all_segments. rewrite segment_rows_app, rows_app. cbn [segment_rows flat_map]. rewrite app_nil_r. reflexivity.
    - intros r Hr. unfold rows, segment_rows in Hr. apply in_flat_map in Hr as (s & Hs & Hr). apply in_flat_map in Hs as (g & Hg & Hs).
      exists (sg_id g), g. split; [eapply crash_keeps; [exact Ec|exact Hin|]; apply (inv_files _ _ _ I); assumption|]. unfold rows. apply in_flat_map. exists s. auto.
  Qed.

  (** Reopening after a crash with no deletion pending, whatever the order of the directory:
      everything but the rows of the active segment is there. *)
  Theorem C27_reopen_partial : forall capacity st0 ops capacity' order, open capacity [] 0 = Some st0 -> history st0 [] ops -> 0 < capacity' ->
    exists st, run ops st0 = Some st /\ (st_doomed st = [] -> Permutation order (st_files st) ->
      exists st' flushed, open capacity' order (st_fresh st) = Some st' /\ stored ops [] = flushed ++ rows (sg_slices (st_builder st)) /\
        st_events st' = length flushed /\ forall xs, exists st2 ss, get st' xs = Some (st2, Some ss) /\ answers flushed xs ss).
  Proof using writes_succeed arranges.
    intros capacity st0 ops capacity' order E H Hcap'. destruct (good_run ops st0 [] (good_empty _ _ E) H) as (st & R & Hcap & F & I & C). exists st. split; [assumption|].
    intros Ed P. pose proof (inv_nodup _ _ _ I) as Nd. unfold all_segments in Nd. rewrite map_app in Nd. apply nodup_app in Nd as (Nd & _ & _).
    assert (Permutation (st_files st) (map file_of F)) as P2.
    { apply NoDup_Permutation.
      - apply (NoDup_map_inv fst). apply (inv_names _ _ _ I).
      - apply (NoDup_map_inv fst). rewrite map_map. assumption.
      - intros f. rewrite in_map_iff. split.
        + intros Hf. destruct (inv_live _ _ _ I f Hf) as (g & G1 & G2); [rewrite Ed; easy|]. exists g. auto.
        + intros (g & <- & Hg). apply (inv_files _ _ _ I). assumption. }
    pose proof (Permutation_trans P P2) as P3. apply Permutation_map_inv in P3 as (G & -> & P3).
    pose proof (inv_ordered _ _ _ I) as O. unfold content, all_segments in O. rewrite segment_rows_app in O. apply ordered_app in O as (O & _).
    destruct (open_spec capacity' F G (st_fresh st)) as (st' & -> & I' & B' & _); auto.
    { symmetry. assumption. }
    { pose proof (inv_nonempty _ _ _ I) as N1. pose proof (inv_fresh _ _ _ I) as N2. apply Forall_app in N2 as [N2 _]. rewrite Forall_forall in *. auto. }
    assert (content st' F = segment_rows F) as Ec by (unfold content, all_segments; rewrite B', segment_rows_app; cbn; rewrite app_nil_r; reflexivity).
    exists st', (rows (segment_rows F)). split; [reflexivity|]. split.
    { rewrite <- C. unfold content, all_segments. rewrite segment_rows_app, rows_app. cbn [segment_rows flat_map]. rewrite app_nil_r. reflexivity. }
    split; [rewrite (inv_events _ _ _ I'), Ec; lia|]. intros xs. destruct (get_spec arrange arranges st' F 0 xs I') as (st2 & ss & G2 & _ & PP). exists st2, ss. split; [assumption|].
    rewrite <- Ec. apply hits_answer; [apply (inv_ordered _ _ _ I')|assumption].
  Qed.
End Store.

(** * Examples and counterexamples *)

Definition sample_slice (o n : nat) : slice :=
  {| s_layout := two_columns; s_offset := Some o; s_rows := map (fun i => [DCount (N.of_nat (o + i)); DString [97%N]]) (seq 0 n) |}.
(** A stable partition. *)
Definition stable (f : uuid -> bool) (cs : list uuid) : list uuid := filter f cs ++ filter (fun u => negb (f u)) cs.
Lemma stable_permutation : forall f cs, Permutation (stable f cs) cs.
Proof.
  intros f cs. unfold stable. induction cs as [|u cs IH]; [constructor|]. cbn. destruct (f u); cbn; [constructor; assumption|].
  symmetry. apply Permutation_cons_app. symmetry. assumption.
Qed.
Definition id_set (ps : list nat) : list bool := map (fun p => existsb (Nat.eqb p) ps) (seq 0 (S (list_max ps))).
Definition yes (_ : uuid) : bool := true.

Definition sample_ops : list op :=
  [OPut (sample_slice 0 3); OPut (sample_slice 3 2); OPut (sample_slice 10 4); OGet (id_set [1; 11]); OErase (id_set [1; 2; 11]); OPut (sample_slice 12 3);
   ORelease 0; OClearCache; OPut (sample_slice 20 2);
   ORestart [(3, Whole (Seg 3 [sample_slice 10 1; sample_slice 12 2; sample_slice 20 2]));
             (2, Whole (Seg 2 [sample_slice 0 1; sample_slice 3 2]))]; OPut (sample_slice 30 1)].
Ltac do_history :=
  repeat match goal with
  | |- history _ _ _ _ _ _ [] => exact I
  | |- history ?a ?b ?c ?d ?st ?rs (?o :: ?ops) =>
    change (allowed c st rs o /\ forall st', step a b c d st o = Some st' -> history a b c d st' (stored_step rs o) ops);
    split; [|let st' := fresh "st" in let E := fresh "E" in intros st' E; vm_compute in E; injection E as <-;
             let rs' := eval vm_compute in (stored_step rs o) in change (stored_step rs o) with rs']
  end.
Ltac do_collides p := split; [split; discriminate|left; exists p; vm_compute; split; repeat (first [left; reflexivity | right])].
Ltac do_after := split; [split; discriminate|right; intros p q Hp Hq; vm_compute in Hp, Hq; repeat match goal with H : _ \/ _ |- _ => destruct H | H : False |- _ => destruct H end; subst; lia].

Lemma sample_history : forall st0, open 1 [] 0 = Some st0 -> history (@length slice) 2 yes stable st0 [] sample_ops.
Proof.
  intros st0 E. vm_compute in E. injection E as <-. unfold sample_ops. do_history; try exact I.
  - do_after.
  - do_after.
  - do_after.
  - do_collides 12.
  - do_after.
  - intros st1 ok E. vm_compute in E. injection E as <- <-. vm_compute. apply perm_swap || apply Permutation_refl.
  - do_after.
Qed.

Example C26_example : exists st, (forall st0, open 1 [] 0 = Some st0 -> run (@length slice) 2 yes stable sample_ops st0 = Some st) /\
  map row_id (stored sample_ops []) = [0; 3; 4; 10; 12; 13; 20; 21; 30] /\ st_events st = 9 /\
  (exists st' ss, get stable st (id_set [0; 1; 4; 12; 20]) = Some (st', Some ss) /\ map row_id (rows ss) = [0; 3; 4; 12; 13; 20; 21]).
Proof.
  eexists. split; [intros st0 E; vm_compute in E; injection E as <-; vm_compute; reflexivity|]. split; [vm_compute; reflexivity|]. split; [vm_compute; reflexivity|].
  do 2 eexists. split; vm_compute; reflexivity.
Qed.

(** A session with a put, a flush and a cleared cache in between. *)
Example C26_extract_example : exists st1 se st' se' out,
  (forall st0, open 1 [] 0 = Some st0 -> exists st, run (@length slice) 3 yes stable [OPut (sample_slice 0 3); OPut (sample_slice 3 2)] st0 = Some st /\
    extract stable st (id_set [1; 4; 7]) = Some (st1, se)) /\
  run_session (@length slice) 3 yes stable [SNext; SOp (OPut (sample_slice 7 2)); SOp OClearCache; SNext; SOp OFlush; SNext] st1 se [] false = Some (st', se', out, true) /\
  map row_id (rows out) = [0; 1; 2; 3; 4].
Proof.
  do 5 eexists. split; [intros st0 E; vm_compute in E; injection E as <-; eexists; split; [vm_compute; reflexivity|vm_compute; reflexivity]|].
  split; vm_compute; reflexivity.
Qed.

(** Slices that arrive out of order in one segment are accepted, but not found. *)
Theorem C26_unordered_refuted : exists st xs, run (@length slice) 9 yes stable [OPut (sample_slice 10 2); OPut (sample_slice 0 2)]
    {| st_map := []; st_builder := Seg 0 []; st_cache := {| ca_policy := Lru; ca_xs := []; ca_tracker := []; ca_capacity := 1; ca_fresh := 0; ca_evicted := [] |};
       st_files := []; st_doomed := []; st_events := 0; st_fresh := 1 |} = Some st /\
  st_events st = 4 /\ xs = id_set [0] /\ option_map snd (get stable st xs) = Some (Some []).
Proof. do 2 eexists. split; [vm_compute; reflexivity|]. split; [vm_compute; reflexivity|]. split; [reflexivity|vm_compute; reflexivity]. Qed.
(** Slices of segments that interleave are returned more than once. *)
Theorem C26_interleaved_refuted : exists st0 st st' ss, open 1 [] 0 = Some st0 /\
  run (@length slice) 2 yes stable [OPut (sample_slice 0 1); OPut (sample_slice 10 1); OPut (sample_slice 5 1)] st0 = Some st /\
  get stable st (id_set [0; 5; 10]) = Some (st', Some ss) /\ map row_id (rows ss) = [0; 10; 5; 0; 10].
Proof. do 4 eexists. split; [vm_compute; reflexivity|]. split; [vm_compute; reflexivity|]. split; vm_compute; reflexivity. Qed.
(** If the file of a segment cannot be written, its rows are lost, and lookups of their IDs fail. *)
Theorem C26_failed_write_refuted : exists st0 st, open 1 [] 0 = Some st0 /\
  run (@length slice) 9 (fun _ => false) stable [OPut (sample_slice 0 2); OFlush] st0 = Some st /\ st_events st = 2 /\
  option_map snd (get stable st (id_set [0])) = Some None.
Proof. do 2 eexists. split; [vm_compute; reflexivity|]. split; [vm_compute; reflexivity|]. split; vm_compute; reflexivity. Qed.
(** If the file of a shrunk segment cannot be written, an erase loses the rows that it
    should keep, and the file with these rows is scheduled for deletion. *)
Theorem C26_failed_erase_refuted : exists st0 st, open 1 [] 0 = Some st0 /\
  run (@length slice) 9 (fun u => u =? 0) stable [OPut (sample_slice 0 2); OFlush; OErase (id_set [0]); ORelease 0] st0 = Some st /\
  st_files st = [] /\ option_map snd (get stable st (id_set [1])) = Some None.
Proof. do 2 eexists. split; [vm_compute; reflexivity|]. split; [vm_compute; reflexivity|]. split; vm_compute; reflexivity. Qed.
(** A session that is open during an erase fails, and does not deliver the rows that
    were not erased. *)
Theorem C26_extract_erase_refuted : exists st0 st st1 se st2 se2, open 1 [] 0 = Some st0 /\
  run (@length slice) 9 yes stable [OPut (sample_slice 0 2); OFlush] st0 = Some st /\ extract stable st (id_set [0; 1]) = Some (st1, se) /\
  run (@length slice) 9 yes stable [OErase (id_set [0]); ORelease 0] st1 = Some st2 /\ next st2 se = Some (st2, se2, Failed) /\
  option_map (fun r => option_map (fun ss => map row_id (rows ss)) (snd r)) (get stable st2 (id_set [0; 1])) = Some (Some [1]).
Proof. do 6 eexists. repeat (split; [vm_compute; reflexivity|]). vm_compute. reflexivity. Qed.

(** After a crash between writing the shrunk segment and removing the old one, or while
    writing it, the store cannot be opened. *)
Theorem C27_crash_refuted : exists st0 st ds, open 1 [] 0 = Some st0 /\
  run (@length slice) 9 yes stable [OPut (sample_slice 0 2); OFlush] st0 = Some st /\ select_segments st (id_set [0]) = Some [0] /\
  crash_points yes st (id_set [0]) [0] = Some ds /\ map (fun fs => match open 1 fs 9 with Some _ => true | None => false end) ds = [true; false; false].
Proof. do 3 eexists. repeat (split; [vm_compute; reflexivity|]). vm_compute. reflexivity. Qed.
Example C27_kept_on_disk_example : exists st0 st ds, open 1 [] 0 = Some st0 /\
  run (@length slice) 2 yes stable [OPut (sample_slice 0 2); OPut (sample_slice 2 2); OPut (sample_slice 4 1)] st0 = Some st /\
  crash_points yes st (id_set [0; 4]) [0; 1] = Some ds /\ length ds = 4 /\ Forall (fun fs => length fs >= 1) ds.
Proof. do 3 eexists. repeat (split; [vm_compute; reflexivity|]). vm_compute. repeat constructor. Qed.
Example C27_reopen_example : exists st0 st st', open 1 [] 0 = Some st0 /\
  run (@length slice) 2 yes stable [OPut (sample_slice 0 2); OPut (sample_slice 2 2); OErase (id_set [0]); ORelease 0; OPut (sample_slice 9 1)] st0 = Some st /\
  st_doomed st = [] /\ open 1 (st_files st) (st_fresh st) = Some st' /\ st_events st = 4 /\ st_events st' = 3.
Proof. do 3 eexists. repeat (split; [vm_compute; reflexivity|]). vm_compute. reflexivity. Qed.

Definition assumptions_segment_store := (C26_get, C26_put, C26_extract, C26_unordered_refuted, C26_interleaved_refuted, C26_failed_write_refuted,
  C26_failed_erase_refuted, C26_extract_erase_refuted, C27_kept_on_disk, C27_reopen_partial, C27_crash_refuted).
Print Assumptions assumptions_segment_store.
