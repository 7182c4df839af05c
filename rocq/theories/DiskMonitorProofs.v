(** * Proofs about the disk monitor *)

From Coq Require Import Arith NArith ZArith List Bool Lia ZifyBool ZifyNat ZifyN.
From Verif Require Import DiskMonitorModel.
Import ListNotations.

Definition older (p q : part) : Prop := (p_mtime p <= p_mtime q)%N.

(** ** What a run of the erase handler asks for *)

Lemma sorted_split : forall ps k, StronglySorted older ps ->
  forall p q, In p (firstn k ps) -> In q (skipn k ps) -> older p q.
Proof.
  induction ps as [|x ps IH]; intros k S p q Hp Hq.
  - rewrite firstn_nil in Hp. contradiction.
  - inversion S as [|? ? S' F]; subst. destruct k as [|k]; [contradiction|].
    cbn [firstn skipn] in *. destruct Hp as [<-|Hp].
    + rewrite Forall_forall in F. apply F. rewrite <- (firstn_skipn k ps).
      apply in_or_app. now right.
    + now apply (IH k S' p q).
Qed.

Lemma step_erase_asks : forall c s ask s', step c s (Erase ask) s' ->
  exists kept, Permutation (ask ++ kept) (dir s) /\
    (forall p q, In p ask -> In q kept -> older p q) /\
    (length ask <= step_size c)%nat.
Proof.
  intros c s ask s' H. inversion H; subst.
  - exists (skipn (Nat.min (length ps) (step_size c)) ps). cbn [asked].
    split; [now rewrite firstn_skipn|]. split.
    + apply sorted_split. exact H4.
    + rewrite firstn_length. lia.
  - exists (dir s). split; [reflexivity|]. split; [contradiction|cbn; lia].
Qed.

(** ** The flag is set only while something is going on *)

Definition live (s : state) : Prop :=
  purging s = true -> (0 < erases s)%nat \/ flight s <> [].

Lemma nth_error_split3 : forall A (l : list A) i x, nth_error l i = Some x ->
  l = firstn i l ++ x :: skipn (S i) l.
Proof.
  induction l as [|a l IH]; intros [|i] x H; try discriminate.
  - injection H as <-. reflexivity.
  - cbn [firstn skipn app]. f_equal. now apply IH.
Qed.

Lemma live_step : forall c s e s', valid c = true -> step c s e s' -> live s -> live s'.
Proof.
  intros c s e s' V H L. unfold live in *. unfold valid in V.
  apply andb_true_iff in V as [V _]. apply Nat.leb_le in V.
  inversion H; subst; clear H.
  - unfold on_ping. destruct (purging s) eqn:P; [intros _; now apply L|].
    destruct b; cbn [negb]; [|now rewrite P].
    destruct (high c <? db_size s)%N; [|now rewrite P].
    intros _. left. cbn. lia.
  - unfold on_erase. destruct ps as [|p ps]; [discriminate|].
    intros _. right. cbn [flight]. destruct (step_size c); [lia|].
    cbn [length Nat.min firstn map]. intros E. apply app_eq_nil in E as [_ E]. discriminate.
  - discriminate.
  - unfold on_index. rewrite H0. cbn [purging erases flight]. intros P.
    destruct (L P) as [K|K]; [now left|right].
    intros E. apply app_eq_nil in E as [_ E]. discriminate.
  - unfold on_response. rewrite H0. cbn [purging erases flight]. intros P.
    destruct (existsb _ _) eqn:X; [|discriminate].
    right. intros E. rewrite E in X. discriminate.
  - exact L.
Qed.

Lemma history_ind : forall c (P : state -> Prop),
  (forall s e s', step c s e s' -> P s -> P s') ->
  forall s l s', history c s l s' -> P s -> P s'.
Proof.
  intros c P St s l s' H. induction H as [|s e s1 l s2 S1 H IH]; [auto|].
  intros Ps. apply IH. eapply St; eauto.
Qed.

(** Every state passed satisfies an invariant. *)
Lemma history_passed : forall c (P : state -> Prop),
  (forall s e s', step c s e s' -> P s -> P s') ->
  forall s l s', history c s l s' -> P s -> forall t e, In (t, e) l -> P t.
Proof.
  intros c P St s l s' H. induction H as [|s e s1 l s2 S1 H IH]; [contradiction|].
  intros Ps t e' [E|I].
  - injection E as <- <-. exact Ps.
  - eapply IH; eauto.
Qed.

Lemma history_steps : forall c s l s', history c s l s' ->
  forall t e, In (t, e) l -> exists t', step c t e t'.
Proof.
  intros c s l s' H. induction H as [|s e s1 l s2 S1 H IH]; [contradiction|].
  intros t e' [E|I]; [injection E as <- <-; eauto|eauto].
Qed.

(** ** Counting *)

(** The occasions on which the monitor finds the directory too large: a ping
    while no purge is in progress that finds it above the high mark, and an
    answer that finds it still above the low mark. *)
Definition too_large (c : config) (x : state * event) : bool :=
  let '(s, e) := x in
  match e with
  | Ping true => negb (purging s) && (high c <? db_size s)%N
  | Response true true => (low c <? db_size s)%N
  | _ => false
  end.

Definition is_erase (x : state * event) : bool :=
  match snd x with Erase _ => true | _ => false end.

Definition asks (x : state * event) : list part :=
  match snd x with Erase a => a | _ => [] end.

Lemma erases_step : forall c s e s', step c s e s' ->
  (erases s' + (if is_erase (s, e) then 1 else 0)
   = erases s + (if too_large c (s, e) then 1 else 0))%nat.
Proof.
  intros c s e s' H. inversion H; subst; clear H; cbn [is_erase snd too_large].
  - unfold on_ping. destruct (purging s); cbn [negb andb]; [destruct b; lia|].
    destruct b; cbn [negb]; [|lia].
    destruct (high c <? db_size s)%N; cbn [erases]; lia.
  - unfold on_erase. destruct ps; cbn [erases]; lia.
  - unfold on_erase. cbn [erases]. lia.
  - unfold on_index. rewrite H0. cbn [erases]. lia.
  - unfold on_response. rewrite H0. cbn [erases].
    destruct b, ok; cbn [andb]; try lia. destruct (low c <? db_size s)%N; lia.
  - cbn [erases]. lia.
Qed.

Lemma erases_history : forall c s l s', history c s l s' ->
  (erases s' + length (filter is_erase l) = erases s + length (filter (too_large c) l))%nat.
Proof.
  intros c s l s' H. induction H as [|s e s1 l s2 S1 H IH]; [reflexivity|].
  apply erases_step in S1. cbn [filter].
  destruct (is_erase (s, e)), (too_large c (s, e)); cbn [length]; lia.
Qed.

Lemma asks_history : forall c s l s', history c s l s' ->
  (length (flat_map asks l) <= step_size c * length (filter is_erase l))%nat.
Proof.
  intros c s l s' H. induction H as [|s e s1 l s2 S1 H IH]; [cbn; lia|].
  cbn [flat_map filter]. rewrite app_length.
  destruct e; cbn [asks is_erase snd length]; try lia.
  apply step_erase_asks in S1 as (kept & _ & _ & L). lia.
Qed.

(** ** A purge that nothing interferes with *)

(** The oldest partition of a directory. *)
Definition oldest (id : nat) (ps : list part) : Prop :=
  exists p, In p ps /\ p_id p = id /\ forall q, In q ps -> older p q.

Definition above (c : config) (s : state) : Prop := (low c < db_size s)%N.

(** The three shapes a purge in steps of one passes through. *)
Inductive shape (c : config) (s : state) : Prop :=
| shape_idle : erases s = 0%nat -> flight s = [] -> shape c s
| shape_due : erases s = 1%nat -> flight s = [] -> above c s -> shape c s
| shape_asked : forall g id, erases s = 0%nat ->
    flight s = [Request g id None] -> above c s -> oldest id (dir s) -> shape c s
| shape_answered : forall g id ok, erases s = 0%nat ->
    flight s = [Request g id (Some ok)] -> shape c s.

Definition undisturbed (e : event) : Prop :=
  match e with Ping _ | Change _ _ => False | _ => True end.

Lemma shape_step : forall c s e s', step_size c = 1%nat -> undisturbed e ->
  step c s e s' -> shape c s -> shape c s'.
Proof.
  intros c s e s' One U H Sh. inversion H; subst; clear H; cbn [undisturbed] in U;
    try contradiction.
  - inversion Sh as [E F|E F A|g id E F A O|g id ok E F]; try lia.
    unfold on_erase. destruct ps as [|p ps].
    { apply shape_idle; cbn [erases flight]; [lia|exact F]. }
    rewrite One. cbn [length]. rewrite Nat.min_comm. cbn [Nat.min firstn map].
    apply (shape_asked c _ (guards s) (p_id p)); cbn [erases flight dir].
    + lia.
    + rewrite F. reflexivity.
    + exact A.
    + exists p. split; [eapply Permutation_in; [eassumption|now left]|].
      split; [reflexivity|]. intros q Hq.
      inversion H2 as [|? ? S' F']; subst. rewrite Forall_forall in F'.
      apply Permutation_sym in H1. apply (Permutation_in q) in H1; [|exact Hq].
      destruct H1 as [<-|I']; [unfold older; lia|now apply F'].
  - inversion Sh as [E F|E F A|g id E F A O|g id ok E F]; try lia.
    apply shape_idle; cbn [on_erase erases flight]; [lia|exact F].
  - inversion Sh as [E F|E F A|g' id' E F A O|g' id' ok' E F];
      rewrite F in H0; try (destruct i; discriminate).
    + destruct i as [|i]; [|destruct i; discriminate].
      cbn [nth_error] in H0. injection H0 as <- <-.
      unfold on_index. rewrite F. cbn [nth_error].
      apply (shape_answered c _ g' id' ok); cbn [erases flight firstn skipn app]; auto.
    + destruct i as [|i]; [|destruct i; discriminate]. cbn [nth_error] in H0. discriminate.
  - inversion Sh as [E F|E F A|g' id' E F A O|g' id' ok' E F];
      rewrite F in H0; try (destruct i; discriminate).
    + destruct i as [|i]; [|destruct i; discriminate]. cbn [nth_error] in H0. discriminate.
    + destruct i as [|i]; [|destruct i; discriminate].
      cbn [nth_error] in H0. injection H0 as -> -> ->.
      unfold on_response. rewrite F. cbn [nth_error firstn skipn app existsb].
      destruct (ok && b && (low c <? db_size s)%N) eqn:X.
      * apply shape_due; cbn [erases flight]; [lia|reflexivity|].
        unfold above, db_size in *. cbn [other dir].
        apply andb_true_iff in X as [_ X]. now apply N.ltb_lt.
      * apply shape_idle; cbn [erases flight]; [lia|reflexivity].
Qed.

Lemma shape_history : forall c s l s', step_size c = 1%nat -> history c s l s' ->
  Forall (fun x => undisturbed (snd x)) l -> shape c s -> shape c s'.
Proof.
  intros c s l s' One H. induction H as [|s e s1 l s2 S1 H IH]; intros F Sh; [exact Sh|].
  inversion F; subst. apply IH; [assumption|]. eapply shape_step; eauto.
Qed.

Lemma shape_passed : forall c s l s', step_size c = 1%nat -> history c s l s' ->
  Forall (fun x => undisturbed (snd x)) l -> shape c s ->
  forall t e, In (t, e) l -> shape c t.
Proof.
  intros c s l s' One H. induction H as [|s e s1 l s2 S1 H IH]; intros F Sh; [contradiction|].
  inversion F; subst. intros t e' [E|I].
  - injection E as <- <-. exact Sh.
  - eapply IH; eauto. eapply shape_step; eauto.
Qed.

(** ** The end of such a purge *)

(** Nothing fails: directories can be read, sizes computed, and the index erases
    what it is asked to. *)
Definition smooth (x : state * event) : Prop :=
  match snd x with
  | Ping _ | Change _ _ => False
  | Erase ask => ask <> [] \/ dir (fst x) = []
  | Answer _ ok _ => ok = true
  | Response b ok => b = true /\ ok = true
  end.

Lemma smooth_undisturbed : forall x, smooth x -> undisturbed (snd x).
Proof. intros [s e]. unfold smooth, undisturbed. destruct e; cbn; auto. Qed.

(** Whether the purge has come to its goal. *)
Definition goal (c : config) (s : state) : Prop :=
  (db_size s <= low c)%N \/ dir s = [].

Definition pursuing (c : config) (s : state) : Prop :=
  (erases s = 0%nat -> flight s = [] -> goal c s) /\
  (forall g id ok, flight s = [Request g id (Some ok)] -> ok = true).

Lemma pursuing_step : forall c s e s', step_size c = 1%nat -> smooth (s, e) ->
  step c s e s' -> shape c s -> pursuing c s -> pursuing c s'.
Proof.
  intros c s e s' One Sm H Sh [G A]. inversion H; subst; clear H; cbn in Sm; try contradiction.
  - unfold on_erase. destruct ps as [|p ps].
    + cbn in Sm. destruct Sm as [Sm|Sm]; [congruence|].
      split; cbn [erases flight dir]; [intros; now right|].
      intros g id ok F. inversion Sh; try lia; congruence.
    + split; cbn [erases flight dir].
      * intros _ F. rewrite One in F. cbn [length] in F.
        rewrite Nat.min_comm in F. cbn [Nat.min firstn map] in F.
        apply app_eq_nil in F as [_ F]. discriminate.
      * intros g id ok F. rewrite One in F. cbn [length] in F.
        rewrite Nat.min_comm in F. cbn [Nat.min firstn map] in F.
        inversion Sh as [E F'|E F' A'|g' id' E F' A' O|g' id' ok' E F']; try lia.
        rewrite F' in F. discriminate.
  - destruct Sm as [Sm|Sm]; [congruence|].
    split; cbn [on_erase erases flight dir]; [intros; now right|].
    intros g id ok F. inversion Sh; try lia; congruence.
  - subst ok. inversion Sh as [E F|E F A'|g' id' E F A' O|g' id' ok' E F];
      rewrite F in H0; try (destruct i; discriminate);
      (destruct i as [|i]; [|destruct i; discriminate]); cbn [nth_error] in H0; [|discriminate].
    injection H0 as <- <-. unfold on_index. rewrite F. cbn [nth_error].
    split; cbn [erases flight firstn skipn app]; [discriminate|].
    intros g id ok E'. injection E' as <- <- <-. reflexivity.
  - destruct Sm as [-> ->].
    inversion Sh as [E F|E F A'|g' id' E F A' O|g' id' ok' E F];
      rewrite F in H0; try (destruct i; discriminate);
      (destruct i as [|i]; [|destruct i; discriminate]); cbn [nth_error] in H0; [discriminate|].
    injection H0 as -> -> ->. unfold on_response. rewrite F. cbn [nth_error firstn skipn app].
    split; cbn [erases flight]; [|discriminate].
    intros Z _. left. unfold db_size in *. cbn [other dir] in *.
    destruct (low c <? _)%N eqn:X; cbn [andb] in Z; [lia|].
    apply N.ltb_ge in X. exact X.
Qed.

(** ** Termination *)

Definition measure (s : state) : nat :=
  3 * length (dir s) + erases s +
  match flight s with
  | [Request _ _ (Some _)] => 2
  | _ => 0
  end.

Lemma filter_shorter : forall A (f : A -> bool) l x, In x l -> f x = false ->
  (length (filter f l) < length l)%nat.
Proof.
  induction l as [|a l IH]; intros x Hx Fx; [contradiction|].
  assert (L : (length (filter f l) <= length l)%nat).
  { clear. induction l as [|a l IH]; cbn [filter length]; [lia|].
    destruct (f a); cbn [length]; lia. }
  destruct Hx as [->|Hx]; cbn [filter].
  - rewrite Fx. cbn [length]. lia.
  - specialize (IH x Hx Fx). destruct (f a); cbn [length]; lia.
Qed.

Lemma measure_step : forall c s e s', step_size c = 1%nat -> smooth (s, e) ->
  step c s e s' -> shape c s -> (measure s' < measure s)%nat.
Proof.
  intros c s e s' One Sm H Sh. unfold measure.
  inversion H; subst; clear H; cbn in Sm; try contradiction.
  - inversion Sh as [E F|E F A'|g' id' E F A' O|g' id' ok' E F]; try lia.
    unfold on_erase. destruct ps as [|p ps]; cbn [dir erases flight]; rewrite F.
    + lia.
    + rewrite One. cbn [length]. rewrite Nat.min_comm. cbn [Nat.min firstn map app]. lia.
  - cbn [on_erase dir erases flight].
    inversion Sh as [E F|E F A'|g' id' E F A' O|g' id' ok' E F]; lia.
  - subst ok. inversion Sh as [E F|E F A'|g' id' E F A' O|g' id' ok' E F];
      rewrite F in H0; try (destruct i; discriminate);
      (destruct i as [|i]; [|destruct i; discriminate]); cbn [nth_error] in H0; [|discriminate].
    injection H0 as <- <-. unfold on_index. rewrite F.
    cbn [nth_error orb dir erases flight firstn skipn app].
    destruct O as (p & Hp & <- & _).
    pose proof (filter_shorter part (fun q => negb (p_id q =? p_id p)) (dir s) p Hp) as L.
    cbv beta in L. rewrite Nat.eqb_refl in L. specialize (L eq_refl). lia.
  - destruct Sm as [-> ->].
    inversion Sh as [E F|E F A'|g' id' E F A' O|g' id' ok' E F];
      rewrite F in H0; try (destruct i; discriminate);
      (destruct i as [|i]; [|destruct i; discriminate]); cbn [nth_error] in H0; [discriminate|].
    injection H0 as -> -> ->. unfold on_response. rewrite F.
    cbn [nth_error firstn skipn app dir erases flight].
    destruct (true && true && _); lia.
Qed.
