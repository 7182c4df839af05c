(** C79: an export writes the first events up to its limit. C80: a node opens exactly the directories of
    its own version. *)
From Coq Require Import List ZArith NArith Bool Arith Lia ZifyBool ZifyNat ZifyN.
From Verif Require Import AddressModel SinkModel.
From Verif Require TypeProofs.
Import ListNotations.
Open Scope N_scope.
Local Notation length := List.length.

(** The events of the slices, as the transformations leave them. *)
Definition offered {A} (apply : list A -> option (list A)) (is : list (input A)) : list A :=
  flat_map (fun i => match i with Slice _ x _ => match apply x with Some y => y | None => [] end | Limit _ _ => [] end) is.
(** What holds while a sink runs: what is written is a prefix of what was offered, it is all of it as
    long as the sink runs, and not more than the limit. *)
Definition sound {A} (out : list A) (s : sink A) : Prop :=
  (exists r, out = written A s ++ r /\ (ended A s = false -> r = [])) /\ count A (written A s) <= max_events A s /\
  (ended A s = false -> processed A s = count A (written A s) /\ processed A s < max_events A s) /\
  (ended A s = true -> failed A s = false -> count A (written A s) = max_events A s).
Lemma count_app : forall A (x y : list A), count A (x ++ y) = count A x + count A y.
Proof. intros. unfold count. rewrite app_length. lia. Qed.
Lemma sound_step : forall A apply out i (s : sink A), sound out s -> sound (out ++ offered apply [i]) (step A apply i s).
Proof.
  intros A apply out i s ((r & E & R) & B & P & F). unfold step. destruct (ended A s) eqn:En.
  { split; [exists (r ++ offered apply [i]); split; [rewrite E, app_assoc; reflexivity|congruence]|]. repeat split; auto; congruence. }
  specialize (P eq_refl). specialize (R eq_refl). subst r. rewrite app_nil_r in E. destruct P as [P1 P2]. destruct i as [x fails|n].
  - unfold offered. cbn [flat_map]. rewrite app_nil_r. destruct (apply x) as [y|].
    + destruct (max_events A s - processed A s =? 0) eqn:Z; [lia|].
      set (rem := max_events A s - processed A s) in *. set (z := if rem <? count A y then firstn (N.to_nat rem) y else y).
      assert (exists t, y = z ++ t /\ (count A z < rem -> t = []) /\ count A z <= rem) as (t & Ey & Et & Ez).
      { unfold z. destruct (rem <? count A y) eqn:L.
        - exists (skipn (N.to_nat rem) y). split; [symmetry; apply firstn_skipn|]. unfold count in *. rewrite firstn_length. split; lia.
        - exists []. split; [symmetry; apply app_nil_r|]. split; [reflexivity|lia]. }
      destruct fails as [k|].
      * unfold sound. cbn [written ended failed processed max_events]. split; [|split; [|split; [discriminate|discriminate] ] ].
        -- exists (skipn k z ++ t). split; [|discriminate]. rewrite Ey, E, <- app_assoc. f_equal. rewrite app_assoc, firstn_skipn. reflexivity.
        -- rewrite count_app. assert (count A (firstn k z) <= count A z) by (unfold count; rewrite firstn_length; lia). lia.
      * unfold sound. cbn [written ended failed processed max_events]. split; [|split; [|split] ].
        -- exists t. split; [rewrite Ey, E, <- app_assoc; reflexivity|]. intros L. apply Et. lia.
        -- rewrite count_app. lia.
        -- intros L. rewrite count_app. split; lia.
        -- intros L _. rewrite count_app. lia.
    + rewrite app_nil_r. split; [exists []; rewrite app_nil_r; auto|]. split; [assumption|]. split; [auto|]. intros X. rewrite En in X. discriminate.
  - unfold offered. cbn [flat_map]. rewrite app_nil_r. destruct (processed A s <? n) eqn:L.
    + unfold sound. cbn [written ended failed processed max_events]. split; [exists []; rewrite app_nil_r; auto|]. split; [lia|]. split; [lia|discriminate].
    + split; [exists []; rewrite app_nil_r; auto|]. split; [assumption|]. split; [auto|]. intros X. rewrite En in X. discriminate.
Qed.
Lemma sound_run : forall A apply is out (s : sink A), sound out s -> sound (out ++ offered apply is) (run A apply is s).
Proof.
  induction is as [|i is IH]; intros out s H; [rewrite app_nil_r; exact H|]. unfold run in *. cbn [fold_left].
  replace (out ++ offered apply (i :: is)) with ((out ++ offered apply [i]) ++ offered apply is) by (unfold offered; cbn [flat_map]; rewrite app_nil_r, app_assoc; reflexivity).
  apply IH. apply sound_step. exact H.
Qed.
Lemma sound_start : forall A limit, sound [] (start A limit).
Proof. intros A limit. unfold start, sound. cbn [written ended failed processed max_events]. split; [exists []; auto|]. unfold count, unlimited. cbn [length]. destruct (0 <? limit) eqn:L; repeat split; try discriminate; lia. Qed.

(** For all slices, transformations, failures of the writer and changes of the limit, in any order: what
    is written is a prefix of what was offered; all of it, if the export has not ended; and never more
    than the limit. *)
Theorem C79_prefix : forall A apply limit is, let s := run A apply is (start A limit) in
  (exists r, offered apply is = written A s ++ r /\ (ended A s = false -> r = [])) /\ N.of_nat (length (written A s)) <= max_events A s /\
  (ended A s = true -> failed A s = false -> N.of_nat (length (written A s)) = max_events A s).
Proof. intros A apply limit is s. destruct (sound_run A apply is [] _ (sound_start A limit)) as (P & B & _ & F). auto. Qed.
(** Without failures and changes, an export of at most [limit] events writes exactly the first [limit]
    events, and ends when it has them. *)
Definition plain {A} (i : input A) : Prop := match i with Slice _ _ None => True | _ => False end.
Lemma plain_keeps : forall A apply is (s : sink A), Forall plain is -> failed A s = false -> max_events A (run A apply is s) = max_events A s /\ failed A (run A apply is s) = false.
Proof.
  induction is as [|i is IH]; intros s F N; [auto|]. inversion F as [|? ? P F']; subst. unfold run in *. cbn [fold_left].
  assert (max_events A (step A apply i s) = max_events A s /\ failed A (step A apply i s) = false) as [E1 E2].
  { destruct i as [x [k|]|n]; cbn in P; try contradiction. unfold step. destruct (ended A s); [auto|]. destruct (apply x); [|auto]. destruct (max_events A s - processed A s =? 0); auto. }
  destruct (IH (step A apply i s) F' E2) as [-> ->]. auto.
Qed.
Theorem C79_exact : forall A apply limit is, 0 < limit -> Forall plain is -> let s := run A apply is (start A limit) in
  written A s = firstn (N.to_nat limit) (offered apply is) /\ failed A s = false /\ (ended A s = true <-> limit <= N.of_nat (length (offered apply is))).
Proof.
  intros A apply limit is L F s. destruct (C79_prefix A apply limit is) as ((r & E & R) & B & X). fold s in E, R, B, X.
  destruct (plain_keeps A apply is (start A limit) F eq_refl) as [M N]. fold s in M, N. cbn [start max_events] in M. destruct (0 <? limit) eqn:Z; [|lia]. rewrite M in *.
  destruct (ended A s) eqn:En.
  - specialize (X eq_refl N). rewrite E. split; [|split; [assumption|] ].
    + rewrite firstn_app. replace (N.to_nat limit - length (written A s))%nat with 0%nat by lia. rewrite firstn_O, app_nil_r, firstn_all2 by lia. reflexivity.
    + split; [|reflexivity]. intros _. rewrite app_length. lia.
  - rewrite (R eq_refl), app_nil_r in E. destruct (sound_run A apply is [] _ (sound_start A limit)) as (_ & _ & Y & _). fold s in Y. specialize (Y En). rewrite M in Y. unfold count in Y.
    rewrite E. split; [rewrite firstn_all2 by lia; reflexivity|]. split; [assumption|]. split; [discriminate|]. lia.
Qed.
(** Without a limit, everything is written. *)
Theorem C79_all : forall A apply is, Forall plain is -> N.of_nat (length (offered apply is)) < 2 ^ 64 - 1 -> let s := run A apply is (start A 0) in written A s = offered apply is /\ ended A s = false.
Proof.
  intros A apply is F L s. destruct (C79_prefix A apply 0 is) as ((r & E & R) & B & X). fold s in E, R, B, X.
  destruct (plain_keeps A apply is (start A 0) F eq_refl) as [M N]. fold s in M, N. cbn [start max_events] in M. change (0 <? 0) with false in M. cbn iota in M.
  destruct (ended A s) eqn:En; [|rewrite (R eq_refl), app_nil_r in E; auto]. specialize (X eq_refl N). rewrite M in X. unfold unlimited in X. rewrite E, app_length in L. lia.
Qed.
(** A new limit that is not yet reached is kept. *)
Theorem C79_limit : forall A apply limit before n after, let s := run A apply before (start A limit) in ended A s = false -> N.of_nat (length (written A s)) < n -> Forall plain after ->
  written A (run A apply (before ++ Limit A n :: after) (start A limit)) = firstn (N.to_nat n) (offered apply (before ++ after)).
Proof.
  intros A apply limit before n after s En L F. destruct (sound_run A apply before [] _ (sound_start A limit)) as ((r & E & R) & _ & Y & _). fold s in E, R, Y.
  destruct (Y En) as [P Q]. rewrite (R En), app_nil_r in E. cbn [app] in E.
  set (s1 := step A apply (Limit A n) s).
  assert (s1 = {| processed := processed A s; max_events := n; written := written A s; ended := false; failed := false |}) as S1.
  { unfold s1, step. rewrite En. unfold count in P. destruct (processed A s <? n) eqn:Z; [reflexivity|lia]. }
  assert (run A apply (before ++ Limit A n :: after) (start A limit) = run A apply after s1) as RR by (unfold run; rewrite fold_left_app; reflexivity).
  assert (sound (offered apply before) s1) as S2.
  { rewrite S1. unfold sound. cbn [written ended failed processed max_events]. unfold count in *. split; [exists []; rewrite app_nil_r; auto|]. repeat split; try discriminate; lia. }
  pose proof (sound_run A apply after _ s1 S2) as ((r' & E' & R') & B' & Y' & X'). assert (failed A s1 = false) as F1 by (rewrite S1; reflexivity).
  destruct (plain_keeps A apply after s1 F F1) as [M N]. rewrite RR. replace (offered apply (before ++ after)) with (offered apply before ++ offered apply after) by (unfold offered; rewrite flat_map_app; reflexivity).
  assert (max_events A s1 = n) as M1 by (rewrite S1; reflexivity). rewrite M1 in M. rewrite M in *. rewrite E'.
  destruct (ended A (run A apply after s1)) eqn:E2.
  - specialize (X' eq_refl N). unfold count in X'. rewrite firstn_app. replace (N.to_nat n - length (written A (run A apply after s1)))%nat with 0%nat by lia. rewrite firstn_O, app_nil_r, firstn_all2 by lia. reflexivity.
  - rewrite (R' eq_refl), app_nil_r. destruct (Y' eq_refl) as [Y1 Y2]. unfold count in Y1. rewrite firstn_all2 by lia. reflexivity.
Qed.
(** A new limit that is already reached is ignored: the export goes on to the old one. *)
Theorem C79_limit_refuted : exists (is : list (input N)) n, In (Limit N n) is /\ let s := run N Some is (start N 0) in written N s = [1; 2; 3; 4; 5] /\ n = 2 /\ ended N s = false.
Proof. exists [Slice N [1; 2; 3] None; Limit N 2; Slice N [4; 5] None], 2. split; [cbn; auto|]. vm_compute. auto. Qed.
(** If the writer fails at any row of a slice while the export runs, the export ends with an error, and
    writes nothing else. *)
Theorem C79_error : forall A apply limit before x y k after, ended A (run A apply before (start A limit)) = false -> apply x = Some y ->
  let s := run A apply (before ++ Slice A x (Some k) :: after) (start A limit) in
  ended A s = true /\ failed A s = true /\ exists n, (n <= k)%nat /\ written A s = offered apply before ++ firstn n y.
Proof.
  intros A apply limit before x y k after En Ap s. destruct (sound_run A apply before [] _ (sound_start A limit)) as ((r & E & R) & _ & Y & _). cbn [app] in E. rewrite (R En), app_nil_r in E. destruct (Y En) as [_ Q].
  unfold s, run. rewrite fold_left_app. cbn [fold_left]. fold (run A apply before (start A limit)). set (t := run A apply before (start A limit)) in *. fold (run A apply after (step A apply (Slice A x (Some k)) t)).
  assert (forall is u, ended A u = true -> run A apply is u = u) as G.
  { induction is as [|i is IH]; intros u U; [reflexivity|]. unfold run in *. cbn [fold_left]. replace (step A apply i u) with u by (unfold step; rewrite U; reflexivity). apply IH. exact U. }
  assert (ended A (step A apply (Slice A x (Some k)) t) = true /\ failed A (step A apply (Slice A x (Some k)) t) = true /\
    exists n, (n <= k)%nat /\ written A (step A apply (Slice A x (Some k)) t) = offered apply before ++ firstn n y) as H; [|destruct H as [H1 H2]; rewrite (G after _ H1); auto].
  unfold step. rewrite En, Ap. destruct (max_events A t - processed A t =? 0) eqn:Z; [lia|]. cbn [ended failed written]. repeat split. rewrite E.
  destruct (max_events A t - processed A t <? count A y); [|exists k; split; [lia|reflexivity] ].
  exists (Nat.min k (N.to_nat (max_events A t - processed A t))). split; [lia|]. rewrite firstn_firstn. reflexivity.
Qed.
Example C79_error_example : let s := run N Some [Slice N [1; 2] None; Slice N [3; 4; 5] (Some 1%nat); Slice N [6] None] (start N 0) in written N s = [1; 2; 3] /\ failed N s = true.
Proof. vm_compute. auto. Qed.
(** A slice whose transformation fails is left out, and the export ends without an error. *)
Theorem C79_transform_refuted : exists (is : list (input N)) apply, let s := run N apply is (start N 2) in concat (map (fun i => match i with Slice _ x _ => x | _ => [] end) is) = [1; 7; 2] /\
  written N s = [1; 2] /\ ended N s = true /\ failed N s = false.
Proof. exists [Slice N [1] None; Slice N [7] None; Slice N [2] None], (fun x => match x with [7] => None | _ => Some x end). vm_compute. auto. Qed.
Example C79_example : let is := [Slice N [1; 2] None; Slice N [] None; Slice N [3; 4; 5] None; Slice N [6] None] in Forall plain is /\ let s := run N Some is (start N 4) in written N s = [1; 2; 3; 4] /\ ended N s = true.
Proof. split; [repeat constructor|]. vm_compute. auto. Qed.

(** * C80 *)
Lemma first_line_spec : forall s l, first_line s = Some l <-> ~ In 10 l /\ exists r, s = l ++ 10 :: r.
Proof.
  induction s as [|c s IH]; intros l; cbn [first_line]; [split; [discriminate|intros (_ & r & E); destruct l; discriminate]|].
  destruct (c =? 10) eqn:C.
  - apply N.eqb_eq in C. subst c. split.
    + intros H. inversion H; subst. split; [intros []|]. exists s. reflexivity.
    + intros (N & r & E). destruct l as [|x l]; [reflexivity|]. inversion E; subst. destruct N. left. reflexivity.
  - apply N.eqb_neq in C. split.
    + destruct (first_line s) as [l'|] eqn:F; [|discriminate]. intros H. inversion H; subst. destruct (proj1 (IH l') eq_refl) as (N & r & ->). split; [intros [X|X]; [congruence|contradiction]|]. exists r. reflexivity.
    + intros (N & r & E). destruct l as [|x l]; [inversion E; congruence|]. inversion E; subst. assert (first_line (l ++ 10 :: r) = Some l) as ->; [|reflexivity]. apply IH. split; [intros X; apply N; right; exact X|eauto].
Qed.
(** A directory with a version file is opened exactly if the first line of the file, with its line feed,
    is the version of this node. *)
Theorem C80_check : forall f, snd (open_dir None (Some f)) = true <-> exists r, f = [118; 49] ++ 10 :: r.
Proof.
  intros f. unfold open_dir, init_version. cbn [snd andb].
  destruct f as [|c f]; [split; [discriminate|intros (r & E); discriminate]|].
  unfold read_version. destruct (first_line (c :: f)) as [l|] eqn:F.
  - apply first_line_spec in F as (N & r & E). rewrite E. destruct l as [|x l].
    + cbn [app]. assert (position (10 :: r) descriptions = None) as -> by (unfold position, descriptions; destruct r; reflexivity).
      split; [discriminate|]. intros (r' & E'). discriminate.
    + split.
      * destruct (position (x :: l) descriptions) as [i|] eqn:P; [|discriminate]. intros H. apply Nat.eqb_eq in H. subst i. unfold descriptions, latest in P. cbn [position] in P.
        destruct (bytes_eqb (x :: l) [105; 110; 118; 97; 108; 105; 100]); [discriminate|]. cbn [position] in P. destruct (bytes_eqb (x :: l) [118; 48]); [discriminate|].
        destruct (bytes_eqb (x :: l) [118; 49]) eqn:Q; [|discriminate]. apply TypeProofs.bytes_eqb_iff in Q. rewrite Q. eauto.
      * intros (r' & E'). assert (x :: l = [118; 49]) as ->; [|reflexivity].
        assert (first_line ((x :: l) ++ 10 :: r) = Some (x :: l)) as F1 by (apply first_line_spec; eauto). rewrite E' in F1. cbn in F1. congruence.
  - split; [discriminate|]. intros (r & E). rewrite E in F. cbn in F. discriminate.
Qed.
(** A new directory is opened by the node that makes it, and by all later ones, and the file stays as it
    is. *)
Theorem C80_new : forall n, snd (starts (repeat None (S n)) None) = repeat true (S n) /\ fst (starts (repeat None (S n)) None) = Some [118; 49; 10].
Proof.
  assert (forall n, starts (repeat None n) (Some version_text) = (Some version_text, repeat true n)) as G.
  { induction n as [|n IH]; [reflexivity|]. cbn [repeat starts]. change (open_dir None (Some version_text)) with (Some version_text, true). cbn iota. rewrite IH. reflexivity. }
  intros n. cbn [repeat starts]. change (open_dir None None) with (Some version_text, true). cbn iota. rewrite G. auto.
Qed.
(** A version file that exists is never changed, and the answer is always the same. *)
Theorem C80_stable : forall ks f, fst (starts ks (Some f)) = Some f /\ forall b, In b (snd (starts ks (Some f))) -> b = snd (open_dir None (Some f)).
Proof.
  induction ks as [|k ks IH]; intros f; [split; [reflexivity|intros b []]|]. cbn [starts]. assert (open_dir k (Some f) = (Some f, snd (open_dir None (Some f)))) as -> by reflexivity.
  destruct (IH f) as [A B]. destruct (starts ks (Some f)) as [h bs]. cbn [fst snd] in *. split; [assumption|]. intros b [<-|I]; auto.
Qed.
(** A node that is killed before it has written the first line makes the directory unusable for good,
    though there is no data in it. *)
Theorem C80_killed_refuted : forall k ks b, (k < 3)%nat -> In b (snd (starts (Some k :: ks) None)) -> b = false.
Proof.
  intros k ks b K H. cbn [starts] in H. change (open_dir (Some k) None) with (Some (firstn k version_text), false) in H. cbn iota in H.
  pose proof (C80_stable ks (firstn k version_text)) as [_ S]. destruct (starts ks (Some (firstn k version_text))) as [h bs]. cbn [snd] in *. destruct H as [<-|H]; [reflexivity|].
  rewrite (S b H). destruct k as [|[|[|k] ] ]; [reflexivity|reflexivity|reflexivity|lia].
Qed.
(** A file with the right version and no line feed is refused. *)
Theorem C80_line_refuted : exists f, f = [118; 49] /\ snd (open_dir None (Some f)) = false /\ snd (open_dir None (Some (f ++ [10]))) = true.
Proof. exists [118; 49]. auto. Qed.
Example C80_example : snd (starts [None; None] None) = [true; true] /\ snd (starts [None] (Some [118; 48; 10])) = [false] /\ snd (starts [Some 2%nat; None] None) = [false; false].
Proof. vm_compute. auto. Qed.

Definition assumptions_sink := (C79_prefix, C79_error, C79_exact, C79_all, C79_limit, C79_limit_refuted, C79_transform_refuted, C80_check, C80_new, C80_stable, C80_killed_refuted, C80_line_refuted).
Print Assumptions assumptions_sink.
