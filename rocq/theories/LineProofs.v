(** Proofs for C65. *)
From Coq Require Import List NArith Bool Arith Lia.
From Verif Require Import LineModel.
Import ListNotations.
Open Scope N_scope.

(** The bytes of an input, without the silences. *)
Fixpoint bytes (i : input) : text :=
  match i with [] => [] | Some c :: r => c :: bytes r | None :: r => bytes r end.

(** No silence behind a carriage return, unless a line feed or nothing follows. *)
Fixpoint calm (i : input) : Prop :=
  match i with
  | [] => True
  | Some c :: r =>
      (c = 13 -> match r with
                 | None :: r' => match bytes r' with [] => True | d :: _ => d = 10 end
                 | _ => True
                 end) /\ calm r
  | None :: r => calm r
  end.

Definition emit (t : text) : list text := match t with [] => [] | _ => [t] end.

(** The lines of a text, the first of which starts with [cur]. *)
Fixpoint lines_from (cur : text) (bs : text) : list text :=
  match bs with
  | [] => emit cur
  | c :: r => if (c =? 10) || (c =? 13) then emit cur ++ lines_from [] r
              else lines_from (cur ++ [c]) r
  end.

Lemma lines_lf : forall r, lines_from [] (10 :: r) = lines_from [] r.
Proof. reflexivity. Qed.

Definition good (s : stream) : Prop := eofbit s = false /\ failbit s = false.

(** What [absorb] leaves to do. *)
Lemma absorb_spec : forall i none t t' s', calm i -> absorb none t i = (t', s') ->
  calm (rest s') /\ (length (rest s') <= length i)%nat /\
  ((silent s' = true /\ lines_from t (bytes i) = lines_from t' (bytes (rest s')) /\
    (length (rest s') < length i)%nat /\ (failbit s' = false \/ t' = t)) \/
   (silent s' = false /\ eofbit s' = false /\ failbit s' = false /\
    (length (rest s') < length i)%nat /\
    lines_from t (bytes i) = emit t' ++ lines_from [] (bytes (rest s'))) \/
   (silent s' = false /\ eofbit s' = true /\ rest s' = [] /\
    lines_from t (bytes i) = emit t')).
Proof.
  induction i as [|[c|] r IH]; intros none t t' s' C A.
  - cbn in A. injection A as <- <-. cbn. repeat split; auto. right. right. auto.
  - cbn [absorb] in A. cbn [calm] in C. destruct C as [C1 C2].
    destruct (c =? 10) eqn:E10.
    + injection A as <- <-. cbn [rest silent eofbit failbit bytes lines_from length]. rewrite E10. cbn [orb].
      repeat split; auto; try lia. right. left. repeat split; auto; lia.
    + destruct (c =? 13) eqn:E13.
      * apply N.eqb_eq in E13. subst c. specialize (C1 eq_refl).
        destruct r as [|[d|] r'].
        { injection A as <- <-. cbn. repeat split; auto. right. left. repeat split; auto; lia. }
        { injection A as <- <-. cbn [rest silent eofbit failbit]. cbn [calm] in C2.
          destruct (d =? 10) eqn:D.
          - apply N.eqb_eq in D. subst d. repeat split; try tauto; cbn [length]; try lia.
            right. left. repeat split; auto; lia.
          - repeat split; try tauto; cbn [length]; try lia.
            right. left. repeat split; auto; lia. }
        { injection A as <- <-. cbn [rest silent eofbit failbit]. cbn [calm] in C2.
          repeat split; auto; cbn [length]; try lia. left. repeat split; auto; try lia.
          cbn [bytes lines_from]. change ((13 =? 10) || (13 =? 13)) with true. cbv iota.
          destruct (bytes r') as [|d b].
          - cbn. rewrite app_nil_r. reflexivity.
          - subst d. cbn. reflexivity. }
      * destruct (IH _ _ _ _ C2 A) as [P1 [P2 P3]].
        split; [exact P1|]. split; [cbn [length]; lia|].
        cbn [bytes lines_from length]. rewrite E10, E13. cbn [orb].
        destruct P3 as [[Q1 [Q2 [Q3 Q4]]]|[[Q1 [Q2 [Q3 [Q4 Q5]]]]|[Q1 [Q2 [Q3 Q4]]]]].
        { left. repeat split; auto; try lia. destruct Q4 as [Q4|Q4]; [auto|]. left.
          clear -A. revert t A. assert (G : forall j t, failbit (snd (absorb false t j)) = false).
          { induction j as [|[x|] j IHj]; intros t; cbn; auto.
            destruct (x =? 10); [reflexivity|]. destruct (x =? 13); [|apply IHj].
            destruct j as [|[y|] j']; cbn; auto. }
          intros t A. specialize (G r (t ++ [c])). rewrite A in G. exact G. }
        { right. left. repeat split; auto; lia. }
        { right. right. auto. }
  - cbn [absorb] in A. injection A as <- <-. cbn [rest silent eofbit failbit bytes length]. cbn [calm] in C.
    repeat split; auto; try lia. left. repeat split; auto; lia.
Qed.

(** What the loop of [next_impl] leaves to do. *)
Lemma next_loop_spec : forall n t s t' s', calm (rest s) -> good s -> (length (rest s) < n)%nat ->
  next_loop n t s = (t', s') ->
  calm (rest s') /\
  ((silent s' = true /\ lines_from t (bytes (rest s)) = lines_from t' (bytes (rest s')) /\
    (length (rest s') < length (rest s))%nat) \/
   (silent s' = false /\ eofbit s' = false /\ failbit s' = false /\ (length (rest s') < length (rest s))%nat /\
    lines_from t (bytes (rest s)) = emit t' ++ lines_from [] (bytes (rest s'))) \/
   (silent s' = false /\ eofbit s' = true /\ rest s' = [] /\ lines_from t (bytes (rest s)) = emit t' /\
    (t' = [] -> failbit s' = true))).
Proof.
  induction n as [|n IH]; intros t s t' s' C [G1 G2] L X; [lia|].
  cbn [next_loop] in X. unfold absorb_line in X. rewrite G1, G2 in X. cbn [orb] in X.
  destruct (absorb true t (rest s)) as [t1 s1] eqn:A.
  destruct (absorb_spec _ _ _ _ _ C A) as [P1 [P2 P3]].
  destruct (failbit s1) eqn:F.
  - injection X as <- <-. split; [exact P1|].
    destruct P3 as [[Q1 [Q2 [Q3 Q4]]]|[[Q1 [Q2 [Q3 [Q4 Q5]]]]|[Q1 [Q2 [Q3 Q4]]]]]; [left|congruence|right; right]; auto.
  - destruct t1 as [|c t1].
    + destruct P3 as [[Q1 [Q2 [Q3 Q4]]]|[[Q1 [Q2 [Q3 [Q4 Q5]]]]|[Q1 [Q2 [Q3 Q4]]]]].
      * (* a silence that left no bit set, or one behind characters; the line is empty *)
        destruct (eofbit s1) eqn:E.
        { (* the end bit together with an empty line means that no character was taken *)
          exfalso. clear -A F E. 
          assert (W : forall j b u u' v, absorb b u j = (u', v) -> eofbit v = true -> failbit v = false -> (b = false -> u <> []) -> u' <> []).
          { induction j as [|[x|] j IHj]; intros b u u' v A' E' F' N'; cbn in A'.
            - injection A' as <- <-. cbn in *. auto.
            - destruct (x =? 10); [injection A' as <- <-; discriminate|].
              destruct (x =? 13).
              + injection A' as <- <-. destruct j as [|[y|] j']; cbn in E'; discriminate.
              + apply (IHj _ _ _ _ A' E' F'). intros _ H. destruct u; discriminate.
            - injection A' as <- <-. cbn in *. auto. }
          apply (W _ _ _ _ _ A E F); [discriminate|reflexivity]. }
        destruct (IH _ _ _ _ P1 (conj E F) ltac:(lia) X) as [R1 R2]. split; [exact R1|].
        rewrite Q2.
        destruct R2 as [[U1 [U2 U3]]|[[U1 [U2 [U3 [U4 U5]]]]|[U1 [U2 [U3 [U4 U5]]]]]].
        { left. repeat split; auto; lia. }
        { right. left. repeat split; auto; lia. }
        { right. right. auto. }
      * destruct (IH _ _ _ _ P1 (conj Q2 F) ltac:(lia) X) as [R1 R2]. split; [exact R1|].
        rewrite Q5. cbn [emit app].
        destruct R2 as [[U1 [U2 U3]]|[[U1 [U2 [U3 [U4 U5]]]]|[U1 [U2 [U3 [U4 U5]]]]]].
        { left. repeat split; auto; lia. }
        { right. left. repeat split; auto; lia. }
        { right. right. auto. }
      * exfalso. clear -A F Q2.
        assert (W : forall j b u u' v, absorb b u j = (u', v) -> eofbit v = true -> failbit v = false -> (b = false -> u <> []) -> u' <> []).
        { induction j as [|[x|] j IHj]; intros b u u' v A' E' F' N'; cbn in A'.
          - injection A' as <- <-. cbn in *. auto.
          - destruct (x =? 10); [injection A' as <- <-; discriminate|].
            destruct (x =? 13).
            + injection A' as <- <-. destruct j as [|[y|] j']; cbn in E'; discriminate.
            + apply (IHj _ _ _ _ A' E' F'). intros _ H. destruct u; discriminate.
          - injection A' as <- <-. cbn in *. auto. }
        apply (W _ _ _ _ _ A Q2 F); [discriminate|reflexivity].
    + injection X as <- <-. split; [exact P1|].
      destruct P3 as [[Q1 [Q2 [Q3 Q4]]]|[[Q1 [Q2 [Q3 [Q4 Q5]]]]|[Q1 [Q2 [Q3 Q4]]]]].
      * left. auto.
      * right. left. auto.
      * right. right. repeat split; auto. discriminate.
Qed.

(** The lines that a range still delivers. *)
Definition remaining (r : range) : list text :=
  if timed_out r then lines_from (line r) (bytes (rest (inp r)))
  else if eofbit (inp r) || failbit (inp r) then [] else lines_from [] (bytes (rest (inp r))).
Definition sane (r : range) : Prop :=
  calm (rest (inp r)) /\
  if timed_out r then good (inp r)
  else silent (inp r) = false /\ (eofbit (inp r) || failbit (inp r) = true -> rest (inp r) = []).
Definition measure (r : range) : nat :=
  3 * length (rest (inp r)) +
  (if failbit (inp r) then match line r with [] => 0 | _ => 1 end else if eofbit (inp r) then 2 else 3).

Lemma next_timeout_spec : forall r, sane r -> done r = false ->
  sane (next_timeout r) /\ (measure (next_timeout r) < measure r)%nat /\
  remaining r = (if timed_out (next_timeout r) then [] else emit (line (next_timeout r))) ++ remaining (next_timeout r).
Proof.
  intros r [C S0] D. unfold next_timeout, next_impl.
  destruct (failbit (inp r)) eqn:F.
  - (* nothing left *)
    destruct (timed_out r) eqn:T; [destruct S0 as [_ S0]; congruence|]. destruct S0 as [S1 S2].
    rewrite S1. rewrite orb_true_r in S2. specialize (S2 eq_refl).
    unfold sane, remaining, measure. cbn [inp line timed_out]. rewrite F, T, orb_true_r.
    unfold done in D. rewrite S2. cbn [length emit app].
    destruct (line r); [congruence|]. repeat split; auto.
  - destruct (eofbit (inp r)) eqn:E.
    + (* the end of the file was met behind the last line *)
      destruct (timed_out r) eqn:T; [destruct S0 as [S0 _]; congruence|]. destruct S0 as [S1 S2].
      specialize (S2 eq_refl). cbn [next_loop]. unfold absorb_line. rewrite E. cbn [orb failbit]. cbv iota beta.
      cbn [silent]. rewrite S1. unfold sane, remaining, measure. cbn [inp line timed_out failbit eofbit rest silent].
      rewrite F, T, E. cbn [orb]. rewrite S2. cbn. repeat split; auto.
    + destruct (next_loop (S (S (length (rest (inp r))))) (if timed_out r then line r else []) (inp r)) as [t s] eqn:X.
      assert (Len : (length (rest (inp r)) < S (S (length (rest (inp r)))))%nat) by lia.
      destruct (next_loop_spec _ _ _ _ _ C (conj E F) Len X) as [R1 R2].
      assert (Rm : remaining r = lines_from (if timed_out r then line r else []) (bytes (rest (inp r)))).
      { unfold remaining. rewrite E, F. destruct (timed_out r); reflexivity. }
      destruct R2 as [[U1 [U2 U3]]|[[U1 [U2 [U3 [U4 U5]]]]|[U1 [U2 [U3 [U4 U5]]]]]].
      * rewrite U1. unfold sane, measure. cbn [inp line timed_out failbit eofbit rest silent].
        rewrite F, E. split; [split; [exact R1|split; reflexivity]|]. split; [lia|].
        rewrite Rm, U2. reflexivity.
      * rewrite U1. unfold sane, measure. cbn [inp line timed_out failbit eofbit rest silent].
        rewrite F, E, U2, U3, U1. cbn [orb]. split; [split; [exact R1|split; [reflexivity|discriminate]]|]. split; [lia|].
        rewrite Rm, U5. unfold remaining. cbn [inp line timed_out]. rewrite U2, U3. reflexivity.
      * rewrite U1. unfold sane, measure. cbn [inp line timed_out failbit eofbit rest silent].
        rewrite F, E, U2, U3, U1. cbn [orb]. split; [split; [exact I|split; [reflexivity|auto]]|].
        split.
        { cbn [length]. destruct (failbit s); [destruct t|]; lia. }
        rewrite Rm, U4. unfold remaining. cbn [inp line timed_out]. rewrite U2. cbn [orb]. rewrite app_nil_r. reflexivity.
Qed.

Lemma collect_spec : forall n r, sane r -> (measure r < n)%nat -> collect n r = Some (remaining r).
Proof.
  induction n as [|n IH]; intros r S0 L; [lia|].
  cbn [collect]. destruct (done r) eqn:D.
  - unfold done in D. unfold remaining. destruct S0 as [_ S0]. destruct (line r) as [|c l]; [|discriminate].
    rewrite D. destruct (timed_out r); [destruct S0; congruence|]. rewrite orb_true_r. reflexivity.
  - destruct (next_timeout_spec r S0 D) as [P1 [P2 P3]]. cbv zeta.
    rewrite P3. assert (M : (measure (next_timeout r) < n)%nat) by lia. specialize (IH _ P1 M).
    destruct (timed_out (next_timeout r)); [exact IH|].
    destruct (line (next_timeout r)) as [|c l]; rewrite IH; reflexivity.
Qed.

Lemma collect_open : forall i n, calm i -> (3 * length i + 3 < n)%nat ->
  collect n (open i) = Some (lines_from [] (bytes i)).
Proof.
  intros i n C L. rewrite collect_spec.
  - reflexivity.
  - split; [exact C|]. cbn. split; [reflexivity|discriminate].
  - unfold measure, open. cbn [inp rest failbit eofbit]. lia.
Qed.

(** ** The lines of a text put together from lines and ends of lines *)
Definition plain (l : text) : Prop := l <> [] /\ forall c, In c l -> c <> 10 /\ c <> 13.
Definition ends (e : text) : Prop := forall c, In c e -> c = 10 \/ c = 13.

Lemma lines_plain : forall l cur r, (forall c, In c l -> c <> 10 /\ c <> 13) ->
  lines_from cur (l ++ r) = lines_from (cur ++ l) r.
Proof.
  induction l as [|c l IH]; intros cur r P; [rewrite app_nil_r; reflexivity|].
  cbn [app lines_from]. destruct (P c (or_introl eq_refl)) as [A B].
  apply N.eqb_neq in A, B. rewrite A, B. cbn [orb]. rewrite IH by (intros x I; apply P; right; exact I).
  rewrite <- app_assoc. reflexivity.
Qed.
Lemma lines_ends0 : forall e r, ends e -> lines_from [] (e ++ r) = lines_from [] r.
Proof.
  induction e as [|c e IH]; intros r P; [reflexivity|]. cbn [app lines_from].
  destruct (P c (or_introl eq_refl)) as [->| ->]; cbn [N.eqb Pos.eqb orb emit app]; apply IH; intros x I; apply P; right; exact I.
Qed.
Lemma lines_ends : forall e cur r, ends e -> e <> [] -> lines_from cur (e ++ r) = emit cur ++ lines_from [] r.
Proof.
  intros [|c e] cur r P N; [congruence|]. cbn [app lines_from].
  rewrite lines_ends0 by (intros x I; apply P; right; exact I).
  destruct (P c (or_introl eq_refl)) as [->| ->]; reflexivity.
Qed.
Lemma emit_plain : forall l, plain l -> emit l = [l].
Proof. intros [|c l] [P _]; [congruence|reflexivity]. Qed.

Lemma lines_parts : forall parts last,
  (forall p, In p parts -> plain (fst p) /\ ends (snd p) /\ snd p <> []) -> (last = [] \/ plain last) ->
  lines_from [] (flat_map (fun p => fst p ++ snd p) parts ++ last) = map fst parts ++ emit last.
Proof.
  induction parts as [|[l e] parts IH]; intros last P Q.
  - cbn [flat_map app map]. destruct Q as [->|Q]; [reflexivity|].
    rewrite <- (app_nil_r last) at 1. rewrite lines_plain by apply Q. reflexivity.
  - cbn [flat_map map fst snd app]. destruct (P (l, e) (or_introl eq_refl)) as [A [B C]]. cbn [fst snd] in A, B, C.
    rewrite <- !app_assoc. rewrite lines_plain by apply A. cbn [app]. rewrite lines_ends by assumption.
    rewrite emit_plain by exact A. rewrite IH; [reflexivity| |exact Q]. intros p I. apply P. right. exact I.
Qed.
