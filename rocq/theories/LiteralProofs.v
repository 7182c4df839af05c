(** Lemmas about the text form of values. *)
From Coq Require Import String Ascii List ZArith NArith Bool Arith Lia ZifyBool ZifyNat ZifyN.
From Coq Require Import Init.Datatypes.
From Verif Require Import OperatorModel EscapeModel AddressModel AddressProofs DataModel DataProofs LiteralModel.
Import ListNotations.
Open Scope N_scope.

(** * Combinators *)

Lemma alt_no : forall {A} (p q : parser A) s, p s = No -> alt p q s = q s.
Proof. intros A p q s H. unfold alt. rewrite H. reflexivity. Qed.
Lemma alt_ok : forall {A} (p q : parser A) s a r, p s = Ok a r -> alt p q s = Ok a r.
Proof. intros A p q s a r H. unfold alt. rewrite H. reflexivity. Qed.
Lemma bind_ok : forall {A B} (p : parser A) (f : A -> parser B) s a r, p s = Ok a r -> bind p f s = f a r.
Proof. intros A B p f s a r H. unfold bind. rewrite H. reflexivity. Qed.
Lemma bind_no : forall {A B} (p : parser A) (f : A -> parser B) s, p s = No -> bind p f s = No.
Proof. intros A B p f s H. unfold bind. rewrite H. reflexivity. Qed.
Lemma act_ok : forall {A B} (f : A -> B) (p : parser A) s a r, p s = Ok a r -> act f p s = Ok (f a) r.
Proof. intros A B f p s a r H. unfold act, bind. rewrite H. reflexivity. Qed.
Lemma act_no : forall {A B} (f : A -> B) (p : parser A) s, p s = No -> act f p s = No.
Proof. intros A B f p s H. unfold act, bind. rewrite H. reflexivity. Qed.
Lemma then_ok : forall {A B} (p : parser A) (q : parser B) s a r, p s = Ok a r -> then_ p q s = q r.
Proof. intros A B p q s a r H. unfold then_, bind. rewrite H. reflexivity. Qed.
Lemma then_no : forall {A B} (p : parser A) (q : parser B) s, p s = No -> then_ p q s = No.
Proof. intros A B p q s H. unfold then_, bind. rewrite H. reflexivity. Qed.
Lemma skip_no : forall {A B} (p : parser A) (q : parser B) s, p s = No -> skip_ p q s = No.
Proof. intros A B p q s H. unfold skip_, bind. rewrite H. reflexivity. Qed.
Lemma skip_ok : forall {A B} (p : parser A) (q : parser B) s a r b r', p s = Ok a r -> q r = Ok b r' -> skip_ p q s = Ok a r'.
Proof. intros A B p q s a r b r' H1 H2. unfold skip_, bind. rewrite H1, H2. reflexivity. Qed.
Lemma skip_no2 : forall {A B} (p : parser A) (q : parser B) s a r, p s = Ok a r -> q r = No -> skip_ p q s = No.
Proof. intros A B p q s a r H1 H2. unfold skip_, bind. rewrite H1, H2. reflexivity. Qed.
Lemma any_cons : forall {A} (p : parser A) ps s, any_of (p :: ps) s = alt p (any_of ps) s.
Proof. reflexivity. Qed.

(** * Characters *)

(** The first character is not of a class. *)
Definition stops (f : N -> bool) (s : text) : Prop := match s with c :: _ => f c = false | [] => True end.

Lemma ch_ok : forall c s, ch c (c :: s) = Ok c s.
Proof. intros. unfold ch, sat. rewrite N.eqb_refl. reflexivity. Qed.
Lemma ch_no : forall c s, stops (N.eqb c) s -> ch c s = No.
Proof. intros c [|d s] H; [reflexivity|]. cbn in H. unfold ch, sat. rewrite H. reflexivity. Qed.
Lemma lit_ok : forall l s, lit l (l ++ s) = Ok tt s.
Proof. induction l as [|c l IH]; intros s; [reflexivity|]. cbn [lit app]. rewrite N.eqb_refl. apply IH. Qed.
Lemma lit_no : forall c l s, stops (N.eqb c) s -> lit (c :: l) s = No.
Proof. intros c l [|d s] H; [reflexivity|]. cbn in H. cbn [lit]. rewrite H. reflexivity. Qed.

Lemma ws_step : forall c s, ws (c :: s) = if isspace c then ws s else Ok tt (c :: s).
Proof.
  intros c s. unfold ws, act, bind, kleene. set (p := sat isspace).
  assert (E : p (c :: s) = if isspace c then Ok c s else No) by reflexivity. cbn [length]. cbn [kleene_]. rewrite E.
  destruct (isspace c); [|reflexivity]. cbn [kleene_]. destruct (p s) as [a r| |]; try reflexivity.
  destruct (kleene_ (length s) p r); reflexivity.
Qed.
Lemma ws_nil : ws [] = Ok tt []. Proof. reflexivity. Qed.
Lemma ws_stop : forall s, stops isspace s -> ws s = Ok tt s.
Proof. intros [|c s] H; [reflexivity|]. rewrite ws_step. cbn in H. rewrite H. reflexivity. Qed.

Lemma take_all : forall f max ds r, forallb f ds = true -> stops f r -> take f max (ds ++ r) = (firstn max ds, skipn max ds ++ r).
Proof.
  intros f. induction max as [|m IH]; intros ds r H S; [reflexivity|]. destruct ds as [|d ds]; cbn [app].
  - destruct r as [|c r]; [reflexivity|]. cbn in S. cbn [take]. rewrite S. reflexivity.
  - cbn [forallb] in H. apply andb_true_iff in H. destruct H as [H1 H2]. cbn [take firstn skipn]. rewrite H1, (IH _ _ H2 S). reflexivity.
Qed.
Lemma take_fit : forall f max ds r, forallb f ds = true -> stops f r -> (length ds <= max)%nat -> take f max (ds ++ r) = (ds, r).
Proof. intros f max ds r H S L. rewrite take_all by assumption. rewrite firstn_all2, skipn_all2 by exact L. reflexivity. Qed.

(** * Digits *)

Lemma num_app : forall a b, num (a ++ b) = fold_left (fun n c => n * 10 + (c - 48)) b (num a).
Proof. intros. unfold num. apply fold_left_app. Qed.
Lemma digits_rev_spec : forall k x, x < 10 ^ N.of_nat k -> num (rev (digits_rev k x)) = x /\ forallb isdigit (digits_rev k x) = true /\ (length (digits_rev k x) <= k)%nat.
Proof.
  induction k as [|k IH]; intros x H.
  - change (10 ^ N.of_nat 0) with 1 in H. assert (x = 0) by lia. subst x. repeat split. cbn. lia.
  - cbn [digits_rev]. destruct (N.eqb_spec x 0) as [->|Hx]; [repeat split; cbn; lia|]. rewrite Nat2N.inj_succ, N.pow_succ_r' in H.
    assert (D : x / 10 < 10 ^ N.of_nat k) by (apply N.div_lt_upper_bound; lia). destruct (IH _ D) as (I1 & I2 & I3). cbn [rev forallb length].
    pose proof (N.mod_lt x 10 ltac:(lia)) as M. split; [|split; [|lia] ].
    + rewrite num_app, I1. cbn [fold_left]. rewrite (N.div_mod x 10) at 3 by lia. lia.
    + rewrite I2, andb_true_r. unfold isdigit. lia.
Qed.
Lemma digits_rev_more : forall k x m, x < 10 ^ N.of_nat m -> (m <= k)%nat -> (length (digits_rev k x) <= m)%nat.
Proof.
  induction k as [|k IH]; intros x m H L; [cbn; lia|]. cbn [digits_rev]. destruct (N.eqb_spec x 0); [cbn; lia|]. destruct m as [|m].
  - change (10 ^ N.of_nat 0) with 1 in H. lia.
  - cbn [length]. rewrite Nat2N.inj_succ, N.pow_succ_r' in H. assert (x / 10 < 10 ^ N.of_nat m) by (apply N.div_lt_upper_bound; lia).
    specialize (IH (x / 10) m ltac:(assumption) ltac:(lia)). lia.
Qed.
Lemma forallb_rev : forall {A} (f : A -> bool) l, forallb f (rev l) = forallb f l.
Proof.
  intros A f l. induction l as [|x l IH]; [reflexivity|]. cbn [rev forallb]. rewrite forallb_app, IH. cbn. destruct (f x), (forallb f l); reflexivity.
Qed.
Lemma digits_spec : forall x, x < 10 ^ 20 -> num (digits x) = x /\ forallb isdigit (digits x) = true /\ (1 <= length (digits x) <= 20)%nat.
Proof.
  intros x H. unfold digits. destruct (N.eqb_spec x 0) as [->|Hx]; [repeat split; cbn; lia|]. destruct (digits_rev_spec 20 x H) as (D1 & D2 & D3).
  split; [exact D1|]. rewrite forallb_rev, rev_length. split; [exact D2|]. split; [|exact D3]. cbn [digits_rev]. destruct (N.eqb_spec x 0); [contradiction|]. cbn. lia.
Qed.
Lemma digits_len : forall x m, x < 10 ^ N.of_nat m -> (1 <= m <= 20)%nat -> (length (digits x) <= m)%nat.
Proof.
  intros x m H L. unfold digits. destruct (x =? 0); [cbn; lia|]. rewrite rev_length. apply digits_rev_more; [exact H|lia].
Qed.

(** * What follows a value *)

(** A value is followed by the end, by a punctuation character, or by a blank and something
    that is neither a unit nor a suffix. *)
Definition tail_ok (s : text) : bool :=
  match s with
  | [] => true
  | c :: r => mem c (chars ",]}>)-&|~!=<i") || ((c =? chr "n") && match r with d :: _ => d =? chr "i" | [] => false end)
  end.
Definition follow (s : text) : bool :=
  match s with
  | [] => true
  | c :: r => mem c (chars ",]}>)") || ((c =? 32) && tail_ok r)
  end.
Lemma mem_in : forall c l, mem c l = true <-> In c l.
Proof. intros c l. unfold mem. rewrite existsb_exists. split; [intros (x & H & E); apply N.eqb_eq in E; subst; exact H|intros H; exists c; split; [exact H|apply N.eqb_refl] ]. Qed.
Ltac in_cases H := cbn in H; repeat (destruct H as [H|H]); [ .. | try contradiction]; try subst.

Lemma follow_head : forall s, follow s = true -> match s with [] => True | c :: _ => In c (chars " ,]}>)") end.
Proof.
  intros [|c s] H; [exact Logic.I|]. unfold follow in H. apply orb_true_iff in H. destruct H as [H|H].
  - apply mem_in in H. right. exact H.
  - apply andb_true_iff in H. destruct H as [H _]. apply N.eqb_eq in H. subst c. now left.
Qed.
Lemma follow_stops : forall f s, follow s = true -> forallb (fun c => negb (f c)) (chars " ,]}>)") = true -> stops f s.
Proof.
  intros f s H F. apply follow_head in H. destruct s as [|c s]; [exact Logic.I|]. cbn [stops]. rewrite forallb_forall in F. specialize (F c H). now apply negb_true_iff in F.
Qed.
Lemma follow_ws : forall s, follow s = true -> exists r, ws s = Ok tt r /\ tail_ok r = true.
Proof.
  intros [|c s] H; [exists []; split; reflexivity|]. rewrite ws_step. unfold follow in H. apply orb_true_iff in H. destruct H as [H|H].
  - apply mem_in in H. exists (c :: s). destruct H as [<-|[<-|[<-|[<-|[<-|[] ] ] ] ] ]; split; reflexivity.
  - apply andb_true_iff in H. destruct H as [H T]. apply N.eqb_eq in H. subst c. cbn [isspace]. change (isspace 32) with true. cbn match. exists s. split; [|exact T].
    apply ws_stop. destruct s as [|c s]; [exact Logic.I|]. cbn [stops]. unfold tail_ok in T. apply orb_true_iff in T. destruct T as [T|T].
    + apply mem_in in T. repeat (destruct T as [<-|T]; [reflexivity|]). destruct T.
    + apply andb_true_iff in T. destruct T as [T _]. apply N.eqb_eq in T. subst c. reflexivity.
Qed.
Ltac tail_cases T := unfold tail_ok in T; apply orb_true_iff in T; destruct T as [T|T];
  [apply mem_in in T; repeat (destruct T as [<-|T]; [|]); [..|destruct T]
  |apply andb_true_iff in T; destruct T as [T ?T']; apply N.eqb_eq in T; subst].
Lemma tail_unit : forall s, tail_ok s = true -> unit_p s = No.
Proof.
  intros [|c s] T; [reflexivity|]. tail_cases T; try reflexivity. destruct s as [|d s]; [discriminate|]. apply N.eqb_eq in T'. subst d. reflexivity.
Qed.
Lemma tail_suffix : forall s x, tail_ok s = true -> In x suffixes -> lit (fst x) s = No.
Proof.
  intros [|c s] x T Hx.
  - repeat (destruct Hx as [<-|Hx]; [reflexivity|]). destruct Hx.
  - tail_cases T; repeat (destruct Hx as [<-|Hx]; [reflexivity|]); destruct Hx.
Qed.
Lemma tail_ago : forall s, tail_ok s = true -> lit (chars "ago") s = No.
Proof. intros [|c s] T; [reflexivity|]. tail_cases T; reflexivity. Qed.

(** * Loops *)

Inductive steps {A} (p : parser A) : text -> list A -> text -> Prop :=
| steps_nil : forall s, p s = No -> steps p s [] s
| steps_cons : forall s a s' l r, p s = Ok a s' -> (length s' < length s)%nat -> steps p s' l r -> steps p s (a :: l) r.
Lemma steps_kleene_ : forall {A} (p : parser A) s l r, steps p s l r -> forall n, (length s < n)%nat -> kleene_ n p s = Ok l r.
Proof.
  intros A p s l r H. induction H as [s H|s a s' l r H L S IH]; intros n Hn; (destruct n as [|n]; [lia|]); cbn [kleene_]; rewrite H; [reflexivity|].
  rewrite IH by lia. reflexivity.
Qed.
Lemma steps_kleene : forall {A} (p : parser A) s l r, steps p s l r -> kleene p s = Ok l r.
Proof. intros A p s l r H. unfold kleene. eapply steps_kleene_; [exact H|lia]. Qed.
Lemma steps_sat : forall f ds r, forallb f ds = true -> stops f r -> steps (sat f) (ds ++ r) ds r.
Proof.
  intros f ds r H S. induction ds as [|d ds IH].
  - apply steps_nil. destruct r as [|c r]; [reflexivity|]. cbn in S. cbn [app sat]. rewrite S. reflexivity.
  - cbn [forallb] in H. apply andb_true_iff in H. destruct H as [H1 H2]. eapply steps_cons; [cbn [app sat]; rewrite H1; reflexivity|cbn; lia|auto].
Qed.
Lemma plus_sat : forall f d ds r, forallb f (d :: ds) = true -> stops f r -> plus (sat f) ((d :: ds) ++ r) = Ok (d :: ds) r.
Proof.
  intros f d ds r H S. cbn [forallb] in H. apply andb_true_iff in H. destruct H as [H1 H2]. unfold plus. cbn [app]. unfold bind at 1. cbn [sat]. rewrite H1.
  erewrite act_ok; [reflexivity|]. apply steps_kleene, steps_sat; assumption.
Qed.
Lemma rep_take : forall f hi lo s, rep lo hi (sat f) s = let '(d, t) := take f hi s in if (length d <? lo)%nat then No else Ok tt t.
Proof.
  intros f. induction hi as [|hi IH]; intros lo s.
  - cbn [rep]. destruct s; destruct lo; reflexivity.
  - cbn [rep]. destruct s as [|c s]; [destruct lo; reflexivity|]. cbn [sat take]. destruct (f c).
    + rewrite IH. destruct (take f hi s) as [d t]. cbn [length]. destruct lo as [|lo]; reflexivity.
    + destruct lo; reflexivity.
Qed.

(** * Numbers *)

Lemma num_bound : forall ds, forallb isdigit ds = true -> num ds < 10 ^ N.of_nat (length ds).
Proof.
  intros ds. induction ds as [|d ds IH] using rev_ind; intros H; [reflexivity|]. rewrite forallb_app in H. apply andb_true_iff in H. destruct H as [H1 H2].
  rewrite num_app, app_length. cbn [length fold_left]. specialize (IH H1). replace (length ds + 1)%nat with (S (length ds)) by lia.
  rewrite Nat2N.inj_succ, N.pow_succ_r'. cbn in H2. unfold isdigit in H2. lia.
Qed.
Lemma udec_ok : forall max min bits ds r, forallb isdigit ds = true -> stops isdigit r -> (min <= length ds <= max)%nat -> num ds < 2 ^ bits ->
  udec max min bits (ds ++ r) = Ok (num ds) r.
Proof.
  intros max min bits ds r D S L B. unfold udec. rewrite take_fit by (assumption || lia). destruct (Nat.ltb_spec (length ds) min); [lia|].
  now rewrite N.mod_small by exact B.
Qed.

(** A number is not followed by one of the twelve suffixes. *)
Lemma si_plain : forall {A} (number : parser A) mul s n r, number s = Ok n r -> follow r = true -> si number mul s = Ok n r.
Proof.
  intros A number mul s n r H F. destruct (follow_ws _ F) as (t & W & T). unfold si.
  assert (G : forall l, (forall x, In x l -> In x suffixes) ->
    fold_right (fun x p => alt (bind number (fun n => then_ ws (then_ (lit (fst x)) (fun s => match mul n (snd x) with Ok m _ => Ok m s | _ => Bad end)))) p) number l s = Ok n r).
  { induction l as [|x l IH]; intros Hl; [exact H|]. cbn [fold_right]. rewrite alt_no; [apply IH; intros y Hy; apply Hl; now right|].
    rewrite (bind_ok _ _ _ _ _ H), (then_ok _ _ _ _ _ W). apply then_no, tail_suffix; [exact T|apply Hl; now left]. }
  apply G. auto.
Qed.
Lemma si_none : forall {A} (number : parser A) mul s, number s = No -> si number mul s = No.
Proof.
  intros A number mul s H. unfold si. induction suffixes as [|x l IH]; [exact H|]. cbn [fold_right]. rewrite alt_no; [exact IH|]. now apply bind_no.
Qed.

(** Digits, with or without a sign. *)
Definition signed (sg : text) : Prop := sg = [] \/ sg = [43] \/ sg = [45].
Lemma sign_digits : forall sg ds r, signed sg -> forallb isdigit ds = true -> (1 <= length ds)%nat ->
  sign (sg ++ ds ++ r) = (match sg with [45] => true | _ => false end, ds ++ r).
Proof.
  intros sg ds r [-> | [-> | ->] ] D L; try reflexivity. destruct ds as [|d ds]; [cbn in L; lia|]. cbn [forallb] in D. apply andb_true_iff in D. destruct D as [D _].
  cbn [app sign]. unfold isdigit in D. destruct (N.eqb_spec d 45); [lia|]. destruct (N.eqb_spec d 43); [lia|]. reflexivity.
Qed.

Section Values.
  Variable A : arith.

  Lemma skip_digits : forall ds k r f, forallb isdigit ds = true -> (forall c, isdigit c = true -> f c = false) -> stops f r -> stops f (skipn k ds ++ r).
  Proof.
    intros ds k r f D F S. destruct (skipn k ds) as [|d l] eqn:E; [exact S|]. cbn. apply F. rewrite forallb_forall in D. apply D.
    rewrite <- (firstn_skipn k ds), E. apply in_or_app. right. now left.
  Qed.
  Lemma num_firstn : forall ds k, forallb isdigit ds = true -> num (firstn k ds) < 10 ^ N.of_nat k.
  Proof.
    intros ds k D. assert (D' : forallb isdigit (firstn k ds) = true).
    { rewrite forallb_forall in *. intros x Hx. apply D. rewrite <- (firstn_skipn k ds). apply in_or_app. now left. }
    eapply N.lt_le_trans; [apply num_bound, D'|]. apply N.pow_le_mono_r; [lia|]. pose proof (firstn_le_length k ds). lia.
  Qed.

  Lemma ymdhms_digits : forall sg ds r, signed sg -> forallb isdigit ds = true -> (1 <= length ds)%nat -> stops isdigit r -> stops (N.eqb 45) r ->
    ymdhms A (sg ++ ds ++ r) = No.
  Proof.
    intros sg ds r Hs D L S M. unfold ymdhms.
    assert (G : guard (sdec 4 4 32) (fun y => 1900 <=? y)%Z (sg ++ ds ++ r) = No \/
      exists a, guard (sdec 4 4 32) (fun y => 1900 <=? y)%Z (sg ++ ds ++ r) = Ok a (skipn 4 ds ++ r)).
    { unfold guard, bind, sdec. rewrite (sign_digits _ _ _ Hs D L). rewrite take_all by assumption. destruct (length (firstn 4 ds) <? 4)%nat; [now left|].
      pose proof (num_firstn ds 4 D) as B. change (10 ^ N.of_nat 4) with 10000 in B. set (x := num (firstn 4 ds)) in *.
      set (z := if match sg with [45] => true | _ => false end then (- Z.of_N x)%Z else Z.of_N x).
      assert (Z1 : (-10000 < z < 10000)%Z) by (unfold z; destruct (match sg with [45] => true | _ => false end); lia).
      destruct (((- 2 ^ (32 - 1) <=? z) && (z <? 2 ^ (32 - 1)))%Z) eqn:E; [|exfalso; change (2 ^ (32 - 1))%Z with 2147483648%Z in E; lia].
      destruct (1900 <=? z)%Z; [right; exists z; reflexivity|now left]. }
    destruct G as [G|(a & G)]; [now apply bind_no|]. rewrite (bind_ok _ _ _ _ _ G). apply then_no, ch_no. apply skip_digits; [exact D| |exact M].
    intros c Hc. unfold isdigit in Hc. change (chr "-") with 45. destruct (N.eqb_spec 45 c); [lia|reflexivity].
  Qed.

  (** A number without unit is not a duration. *)
  Lemma duration1_digits : forall sg ds r, signed sg -> forallb isdigit ds = true -> (1 <= length ds <= 20)%nat -> follow r = true ->
    duration1 A (sg ++ ds ++ r) = No.
  Proof.
    intros sg ds r Hs D L F. unfold duration1.
    assert (R : exists x, real_ false (sg ++ ds ++ r) = Ok x r).
    { unfold real_. rewrite (sign_digits _ _ _ Hs D) by lia. rewrite take_fit; [|exact D|apply follow_stops; [exact F|reflexivity]|lia].
      assert (H : (match r with c :: r0 => if c =? 46 then (true, r0) else (false, r) | [] => (false, r) end) = (false, r)).
      { apply follow_head in F. destruct r as [|c r]; [reflexivity|]. destruct F as [<-|[<-|[<-|[<-|[<-|[<-|[] ] ] ] ] ] ]; reflexivity. }
      rewrite H. destruct ds as [|d ds]; [cbn in L; lia|]. cbn [negb andb orb].
      replace (take isdigit 20 r) with (@nil N, r); [eexists; reflexivity|]. change r with ([] ++ r) at 2. symmetry. apply take_fit; [reflexivity|apply follow_stops; [exact F|reflexivity]|cbn; lia]. }
    destruct R as (x & R). rewrite (bind_ok _ _ _ _ _ R). destruct (follow_ws _ F) as (t & W & T). rewrite (then_ok _ _ _ _ _ W). apply bind_no, tail_unit, T.
  Qed.
  Lemma real_digits : forall sg ds r, signed sg -> forallb isdigit ds = true -> (1 <= length ds <= 20)%nat -> follow r = true -> real_ true (sg ++ ds ++ r) = No.
  Proof.
    intros sg ds r Hs D L F. unfold real_. rewrite (sign_digits _ _ _ Hs D) by lia. rewrite take_fit; [|exact D|apply follow_stops; [exact F|reflexivity]|lia].
    assert (H : (match r with c :: r0 => if c =? 46 then (true, r0) else (false, r) | [] => (false, r) end) = (false, r)).
    { apply follow_head in F. destruct r as [|c r]; [reflexivity|]. destruct F as [<-|[<-|[<-|[<-|[<-|[<-|[] ] ] ] ] ] ]; reflexivity. }
    rewrite H. destruct ds as [|d ds]; [cbn in L; lia|]. reflexivity.
  Qed.

  (** Text that starts with neither a letter nor another character that starts a time. *)
  Definition not_time (c : N) : bool := negb (c =? 64) && negb (c =? 110) && negb (c =? 105).
  Lemma time_none : forall c s, ymdhms A (c :: s) = No -> duration1 A (c :: s) = No -> not_time c = true -> time_p A (c :: s) = No.
  Proof.
    intros c s Y D H. unfold not_time in H. unfold time_p. rewrite any_cons, alt_no by exact Y.
    rewrite any_cons, alt_no; [|apply then_no, ch_no; cbn [stops]; change (chr "@") with 64; rewrite N.eqb_sym; lia].
    rewrite any_cons, alt_no; [|apply then_no, lit_no; cbn [stops]; change (N_of_ascii "n") with 110; lia].
    rewrite any_cons, alt_no; [|apply act_no, lit_no; cbn [stops]; change (N_of_ascii "n") with 110; lia].
    rewrite any_cons, alt_no; [|apply then_no, lit_no; cbn [stops]; change (N_of_ascii "i") with 105; lia].
    rewrite any_cons, alt_no; [reflexivity|]. apply skip_no, act_no. unfold duration_p. now apply bind_no.
  Qed.

  Lemma v6_none : forall s, colons s = No -> (h16 s = No \/ exists t, h16 s = Ok tt t /\ stops (N.eqb 58) t) -> v6 s = No.
  Proof.
    intros s CC H.
    assert (G : forall n, groups (S n) s = No).
    { intros n. unfold groups. cbn [rep]. destruct H as [H|(t & H & Ht)]; [rewrite then_no by exact H; reflexivity|].
      rewrite (then_ok _ _ _ _ _ H). unfold colon. rewrite ch_no by exact Ht. reflexivity. }
    assert (U : forall n q, (then_ (upto n) (then_ colons q)) s = @No unit).
    { intros n q. unfold upto.
      assert (R : rep 0 n h16_colon s = Ok tt s).
      { destruct n; [reflexivity|]. cbn [rep]. unfold h16_colon. destruct H as [H|(t & H & Ht)]; [rewrite then_no by exact H; reflexivity|].
        rewrite (then_ok _ _ _ _ _ H), then_no; [reflexivity|]. apply ch_no, Ht. }
      unfold then_ at 1, bind, maybe. rewrite (then_ok _ _ _ _ _ R). destruct H as [H|(t & H & Ht)]; rewrite H; apply then_no; [exact CC|apply lit_no, Ht]. }
    assert (U' : then_ (upto 6) colons s = No).
    { unfold upto.
      assert (R : rep 0 6 h16_colon s = Ok tt s).
      { cbn [rep]. unfold h16_colon. destruct H as [H|(t & H & Ht)]; [rewrite then_no by exact H; reflexivity|].
        rewrite (then_ok _ _ _ _ _ H), then_no; [reflexivity|]. apply ch_no, Ht. }
      unfold then_ at 1, bind, maybe. rewrite (then_ok _ _ _ _ _ R). destruct H as [H|(t & H & Ht)]; rewrite H; [exact CC|apply lit_no, Ht]. }
    unfold v6.
    rewrite any_cons, alt_no by (apply then_no, G). rewrite any_cons, alt_no by (apply then_no, CC).
    rewrite any_cons, alt_no; [|unfold then_ at 1, bind, maybe; destruct H as [H|(t & H & Ht)]; rewrite H; apply then_no; [exact CC|apply lit_no, Ht] ].
    do 5 (rewrite any_cons, alt_no by apply U). rewrite any_cons, alt_no by exact U'. reflexivity.
  Qed.
  Lemma digit_xdigit : forall c, isdigit c = true -> isxdigit c = true.
  Proof. intros c H. unfold isdigit, isxdigit in *. lia. Qed.
  Lemma xdigits : forall ds, forallb isdigit ds = true -> forallb isxdigit ds = true.
  Proof. intros ds H. rewrite forallb_forall in *. intros x Hx. apply digit_xdigit, H, Hx. Qed.
  Lemma v6_digits : forall ds r, forallb isdigit ds = true -> (1 <= length ds)%nat -> stops isxdigit r -> stops (N.eqb 58) r -> v6 (ds ++ r) = No.
  Proof.
    intros ds r D L X C. apply v6_none.
    - apply lit_no. destruct ds as [|d ds]; [cbn in L; lia|]. cbn [forallb] in D. apply andb_true_iff in D. destruct D as [D _]. cbn [app stops]. unfold isdigit in D. change (N_of_ascii ":") with 58. destruct (N.eqb_spec 58 d); [lia|reflexivity].
    - right. exists (skipn 4 ds ++ r). split.
      + unfold h16. rewrite rep_take, take_all by (auto using xdigits). destruct ds as [|d ds]; [cbn in L; lia|]. reflexivity.
      + apply skip_digits; [exact D| |exact C]. intros c Hc. unfold isdigit in Hc. destruct (N.eqb_spec 58 c); [lia|reflexivity].
  Qed.
  Lemma addr_digits : forall sg ds r, signed sg -> forallb isdigit ds = true -> (1 <= length ds)%nat -> stops isxdigit r -> stops (N.eqb 58) r -> stops (N.eqb 46) r ->
    addr_p A (sg ++ ds ++ r) = No.
  Proof.
    intros sg ds r Hs D L X C P. unfold addr_p. destruct Hs as [-> | [-> | ->] ]; [|reflexivity|reflexivity]. cbn [app]. rewrite alt_no.
    - rewrite (v6_digits _ _ D L X C). reflexivity.
    - apply act_no. unfold v4. apply bind_no.
      assert (G : dec (ds ++ r) = No \/ exists a, dec (ds ++ r) = Ok a (skipn 3 ds ++ r)).
      { unfold dec, guard, bind, udec. assert (S : stops isdigit r). { destruct r as [|c r]; [exact Logic.I|]. cbn [stops] in *. unfold isxdigit, isdigit in *. lia. }
        rewrite take_all by assumption. destruct (length (firstn 3 ds) <? 1)%nat; [now left|]. destruct (num (firstn 3 ds) mod 2 ^ 16 <? 256); [right; eexists; reflexivity|now left]. }
      destruct G as [G|(a & G)]; [now apply skip_no|]. eapply skip_no2; [exact G|]. apply ch_no. apply skip_digits; [exact D| |exact P].
      intros c Hc. unfold isdigit in Hc. change (chr ".") with 46. destruct (N.eqb_spec 46 c); [lia|reflexivity].
  Qed.

  (** * Numbers, read as data *)

  Lemma number_head : forall sg ds r, signed sg -> forallb isdigit ds = true -> (1 <= length ds <= 20)%nat -> follow r = true ->
    time_p A (sg ++ ds ++ r) = No /\ duration_p A (sg ++ ds ++ r) = No /\ net_p A (sg ++ ds ++ r) = No /\ addr_p A (sg ++ ds ++ r) = No /\ real_ true (sg ++ ds ++ r) = No.
  Proof.
    intros sg ds r Hs D L F.
    assert (Y : ymdhms A (sg ++ ds ++ r) = No) by (apply ymdhms_digits; [exact Hs|exact D|lia|apply follow_stops; [exact F|reflexivity]|apply follow_stops; [exact F|reflexivity] ]).
    assert (D1 : duration1 A (sg ++ ds ++ r) = No) by (apply duration1_digits; assumption).
    assert (AD : addr_p A (sg ++ ds ++ r) = No) by (apply addr_digits; [exact Hs|exact D|lia|apply follow_stops; [exact F|reflexivity]..]).
    split; [|split; [unfold duration_p; now apply bind_no|split; [unfold net_p; apply bind_no; now apply skip_no|split; [exact AD|now apply real_digits] ] ] ].
    destruct ds as [|d ds]; [cbn in L; lia|]. cbn [forallb] in D. apply andb_true_iff in D. destruct D as [D _].
    destruct Hs as [-> | [-> | ->] ]; cbn [app] in *; apply time_none; try assumption; try reflexivity. unfold isdigit in D. unfold not_time. lia.
  Qed.
  Lemma data_number : forall n sg ds r, signed sg -> forallb isdigit ds = true -> (1 <= length ds <= 20)%nat -> follow r = true ->
    data_p A (S n) (sg ++ ds ++ r) = alt (act DCount count_p) (fun s => match act DInt integer_p s with No => No | x => x end) (sg ++ ds ++ r) \/
    act DCount count_p (sg ++ ds ++ r) = No /\ act DInt integer_p (sg ++ ds ++ r) = No.
  Proof.
    intros n sg ds r Hs D L F. destruct (number_head sg ds r Hs D L F) as (T & U & V & W & R).
    cbn [data_p]. set (s := sg ++ ds ++ r) in *. repeat (rewrite any_cons, alt_no by (now apply act_no)).
    rewrite any_cons. unfold alt at 1. destruct (act DCount count_p s) eqn:E1.
    1: left; unfold alt; rewrite E1; reflexivity. 2: left; unfold alt; rewrite E1; reflexivity.
    rewrite any_cons. unfold alt at 1. destruct (act DInt integer_p s) eqn:E2; [left|right; split; reflexivity|left]; unfold alt; rewrite E1, E2; reflexivity.
  Qed.

  Lemma data_count : forall n x r, x < 2 ^ 64 -> follow r = true -> data_p A (S n) (digits x ++ r) = Ok (DCount x) r.
  Proof.
    intros n x r B F. assert (B' : x < 10 ^ 20) by (assert (2 ^ 64 < 10 ^ 20) by reflexivity; lia). destruct (digits_spec x B') as (D1 & D2 & D3).
    assert (C : count_p (digits x ++ r) = Ok x r).
    { apply si_plain; [|exact F]. rewrite udec_ok; [now rewrite D1|exact D2|apply follow_stops; [exact F|reflexivity]|lia|now rewrite D1]. }
    destruct (data_number n [] (digits x) r) as [H|(H & _)]; [now left|exact D2|exact D3|exact F| |].
    - cbn [app] in H. rewrite H. unfold alt. now rewrite (act_ok _ _ _ _ _ C).
    - cbn [app] in H. rewrite (act_ok _ _ _ _ _ C) in H. discriminate.
  Qed.
  Lemma data_int : forall n z t r, show_int z = Some t -> (- 2 ^ 63 <= z < 2 ^ 63)%Z -> follow r = true -> data_p A (S n) (t ++ r) = Ok (DInt z) r.
  Proof.
    intros n z t r H B F. unfold show_int in H. destruct (Z.eqb_spec z (- 2 ^ 63)) as [|M]; [discriminate|].
    set (x := Z.to_N (Z.abs z)).
    assert (Hx : x < 10 ^ N.of_nat 19). { unfold x. change (10 ^ N.of_nat 19) with 10000000000000000000. change (2 ^ 63)%Z with 9223372036854775808%Z in *. lia. }
    assert (B' : x < 10 ^ 20) by (change (10 ^ N.of_nat 19) with 10000000000000000000 in Hx; change (10 ^ 20) with 100000000000000000000; lia).
    destruct (digits_spec x B') as (D1 & D2 & D3). pose proof (digits_len x 19 Hx ltac:(lia)) as L.
    assert (T : exists sg, signed sg /\ sg <> [] /\ t = sg ++ digits x /\ (match sg with [45] => true | _ => false end = (z <? 0)%Z)).
    { destruct (Z.ltb_spec z 0) as [Hz|Hz]; injection H as <-; unfold x.
      - exists [45]. rewrite Z.abs_neq by lia. repeat split; [right; now right|discriminate].
      - exists [43]. rewrite Z.abs_eq by lia. repeat split; [right; now left|discriminate]. }
    destruct T as (sg & Hs & Hn & -> & Sg). rewrite <- app_assoc.
    assert (C : count_p (sg ++ digits x ++ r) = No). { apply si_none. destruct Hs as [-> | [-> | ->] ]; [contradiction|reflexivity|reflexivity]. }
    assert (I' : integer_p (sg ++ digits x ++ r) = Ok z r).
    { apply si_plain; [|exact F]. unfold sdec. rewrite (sign_digits _ _ _ Hs D2) by lia. rewrite take_fit; [|exact D2|apply follow_stops; [exact F|reflexivity]|exact L].
      destruct (Nat.ltb_spec (length (digits x)) 1); [lia|]. rewrite D1, Sg. unfold x. change (64 - 1)%Z with 63%Z. 
      replace (if (z <? 0)%Z then (- Z.of_N (Z.to_N (Z.abs z)))%Z else Z.of_N (Z.to_N (Z.abs z))) with z by (destruct (Z.ltb_spec z 0); lia).
      destruct (((- 2 ^ 63 <=? z) && (z <? 2 ^ 63))%Z) eqn:E; [reflexivity|lia]. }
    destruct (data_number n sg (digits x) r Hs D2 D3 F) as [G|(_ & G)].
    - rewrite G. unfold alt. now rewrite (act_no _ _ _ C), (act_ok _ _ _ _ _ I').
    - rewrite (act_ok _ _ _ _ _ I') in G. discriminate.
  Qed.

  (** * Addresses and subnets *)

  Lemma v4_shape : forall a, wf a -> is_v4 a = true -> exists x y z w, a = v4_prefix ++ [x; y; z; w] /\ x < 256 /\ y < 256 /\ z < 256 /\ w < 256.
  Proof.
    intros a (L & B) V. unfold is_v4 in V. apply bytes_eqb_spec in V. assert (E : a = v4_prefix ++ skipn 12 a) by (rewrite <- V; symmetry; apply firstn_skipn). rewrite E in L, B. rewrite E. clear E V.
    assert (L' : length (skipn 12 a) = 4%nat) by (rewrite app_length in L; change (length v4_prefix) with 12%nat in L; lia).
    apply Forall_app in B. destruct B as [_ B]. destruct (skipn 12 a) as [|x [|y [|z [|w [|u l] ] ] ] ]; try discriminate. exists x, y, z, w. split; [reflexivity|].
    inversion B as [|? ? B1 B']; inversion B' as [|? ? B2 B'']; inversion B'' as [|? ? B3 B3']; inversion B3' as [|? ? B4 B4']; subst. auto.
  Qed.
  Lemma show_v4 : forall x y z w, show_addr A (v4_prefix ++ [x; y; z; w]) = digits x ++ 46 :: digits y ++ 46 :: digits z ++ 46 :: digits w.
  Proof. intros. unfold show_addr. reflexivity. Qed.
  Lemma byte_digits : forall x, x < 256 -> num (digits x) = x /\ forallb isdigit (digits x) = true /\ (1 <= length (digits x) <= 3)%nat.
  Proof.
    intros x H. assert (H' : x < 10 ^ 20) by (change (10 ^ 20) with 100000000000000000000; lia). destruct (digits_spec x H') as (D1 & D2 & D3).
    split; [exact D1|split; [exact D2|split; [lia|] ] ]. apply digits_len; [change (10 ^ N.of_nat 3) with 1000; lia|lia].
  Qed.
  Lemma dec_ok : forall x r, x < 256 -> stops isdigit r -> dec (digits x ++ r) = Ok x r.
  Proof.
    intros x r H S. destruct (byte_digits x H) as (D1 & D2 & D3). unfold dec, guard. erewrite bind_ok; [|apply udec_ok; [exact D2|exact S|lia|rewrite D1; change (2 ^ 16) with 65536; lia] ].
    rewrite D1. destruct (N.ltb_spec x 256); [reflexivity|lia].
  Qed.
  Lemma v4_ok : forall x y z w r, x < 256 -> y < 256 -> z < 256 -> w < 256 -> stops isdigit r ->
    v4 ((digits x ++ 46 :: digits y ++ 46 :: digits z ++ 46 :: digits w) ++ r) = Ok [x; y; z; w] r.
  Proof.
    intros x y z w r X Y Z W S. unfold v4. rewrite <- app_assoc. cbn [app]. rewrite <- app_assoc. cbn [app]. rewrite <- app_assoc. cbn [app].
    erewrite bind_ok; [|eapply skip_ok; [apply dec_ok; [exact X|reflexivity]|apply ch_ok] ].
    erewrite bind_ok; [|eapply skip_ok; [apply dec_ok; [exact Y|reflexivity]|apply ch_ok] ].
    erewrite bind_ok; [|eapply skip_ok; [apply dec_ok; [exact Z|reflexivity]|apply ch_ok] ].
    erewrite bind_ok; [|apply dec_ok; [exact W|exact S] ]. reflexivity.
  Qed.
  Lemma addr_ok : forall a r, wf a -> is_v4 a = true -> stops isdigit r -> addr_p A (show_addr A a ++ r) = Ok a r.
  Proof.
    intros a r W V S. destruct (v4_shape a W V) as (x & y & z & w & -> & X & Y & Z & W'). rewrite show_v4. unfold addr_p.
    eapply alt_ok. erewrite act_ok; [|apply v4_ok; assumption]. reflexivity.
  Qed.
  Lemma addr_head : forall a r, wf a -> is_v4 a = true -> time_p A (show_addr A a ++ r) = No /\ duration_p A (show_addr A a ++ r) = No.
  Proof.
    intros a r W V. destruct (v4_shape a W V) as (x & y & z & w & -> & X & Y & Z & W'). rewrite show_v4. rewrite <- app_assoc. cbn [app]. rewrite <- app_assoc. cbn [app].
    set (t := (digits z ++ 46 :: digits w) ++ r). destruct (byte_digits x X) as (D1 & D2 & D3). destruct (byte_digits y Y) as (E1 & E2 & E3).
    assert (DU : duration1 A (digits x ++ 46 :: digits y ++ 46 :: t) = No).
    { unfold duration1. assert (R : exists v, real_ false (digits x ++ 46 :: digits y ++ 46 :: t) = Ok v (46 :: t)).
      { unfold real_. pose proof (sign_digits [] (digits x) (46 :: digits y ++ 46 :: t) (or_introl eq_refl) D2 ltac:(lia)) as Sg. cbn [app] in Sg. rewrite Sg.
        rewrite take_fit; [|exact D2|reflexivity|lia]. change (46 =? 46) with true. cbv iota beta. cbn [negb andb].
        rewrite take_fit; [|exact E2|reflexivity|lia]. destruct (digits x) as [|d l]; [cbn in D3; lia|]. destruct (digits y); eexists; reflexivity. }
      destruct R as (v & R). rewrite (bind_ok _ _ _ _ _ R). rewrite (then_ok _ _ _ _ _ (ws_stop (46 :: t) eq_refl)). reflexivity. }
    assert (YM : ymdhms A (digits x ++ 46 :: digits y ++ 46 :: t) = No) by (apply (ymdhms_digits [] (digits x)); [now left|exact D2|lia|reflexivity|reflexivity]).
    split; [|unfold duration_p; now apply bind_no].
    destruct (digits x) as [|d l]; [cbn in D3; lia|]. cbn [forallb] in D2. apply andb_true_iff in D2. destruct D2 as [D2 _]. cbn [app] in *. apply time_none; [exact YM|exact DU|].
    unfold isdigit in D2. unfold not_time. lia.
  Qed.
  Lemma data_addr : forall n a r, wf a -> is_v4 a = true -> follow r = true -> data_p A (S n) (show_addr A a ++ r) = Ok (DAddress a) r.
  Proof.
    intros n a r W V F. destruct (addr_head a r W V) as (T & U). assert (P : addr_p A (show_addr A a ++ r) = Ok a r) by (apply addr_ok; [exact W|exact V|apply follow_stops; [exact F|reflexivity] ]).
    cbn [data_p]. rewrite any_cons, alt_no by (now apply act_no). rewrite any_cons, alt_no by (now apply act_no).
    rewrite any_cons, alt_no; [|apply act_no; unfold net_p; apply bind_no; eapply skip_no2; [exact P|apply ch_no; apply follow_stops; [exact F|reflexivity] ] ].
    rewrite any_cons. eapply alt_ok. now rewrite (act_ok _ _ _ _ _ P).
  Qed.
  Lemma data_net : forall n s r, sn_wf s -> is_v4 (sn_net s) = true -> follow r = true ->
    data_p A (S n) ((show_addr A (sn_net s) ++ c_slash :: digits (sn_length s)) ++ r) = Ok (DSubnet s) r.
  Proof.
    intros n [a b] r (W & B & M & V4) V F. cbn [sn_net sn_bits] in *. specialize (V4 V). unfold sn_length. cbn [sn_net sn_bits]. rewrite V.
    rewrite <- app_assoc. cbn [app]. destruct (addr_head a (c_slash :: digits (b - 96) ++ r) W V) as (T & U).
    assert (P : addr_p A (show_addr A a ++ c_slash :: digits (b - 96) ++ r) = Ok a (c_slash :: digits (b - 96) ++ r)) by (apply addr_ok; [exact W|exact V|reflexivity]).
    assert (L : b - 96 < 256) by lia. destruct (byte_digits _ L) as (D1 & D2 & D3).
    cbn [data_p]. rewrite any_cons, alt_no by (now apply act_no). rewrite any_cons, alt_no by (now apply act_no). rewrite any_cons.
    eapply alt_ok. erewrite act_ok; [reflexivity|]. unfold net_p. erewrite bind_ok; [|eapply skip_ok; [exact P|apply ch_ok] ].
    erewrite bind_ok; [|unfold guard; erewrite bind_ok; [|apply udec_ok; [exact D2|apply follow_stops; [exact F|reflexivity]|lia|rewrite D1; exact L] ];
      rewrite D1; destruct (N.leb_spec (b - 96) 128); [reflexivity|lia] ].
    unfold net_make. rewrite V. destruct (N.ltb_spec 32 (b - 96)); [lia|]. cbn [andb]. unfold sn_make. rewrite V. destruct (N.ltb_spec 32 (b - 96)); [lia|].
    replace (b - 96 + 96) with b by lia. rewrite M. reflexivity.
  Qed.

  (** * Strings and patterns *)

  (** The backslashes in front of a quote or of the end come in pairs, and the rest prints as it is. *)
  Fixpoint str_ok (s : text) : bool :=
    match s with
    | [] => true
    | c :: r =>
        if c =? 92 then match r with [] => false | d :: r' => if d =? 92 then str_ok r' else if d =? 34 then false else str_ok r end
        else isprint c && str_ok r
    end.
  (** The same, for a pattern, which may not contain a slash. *)
  Fixpoint pat_ok (s : text) : bool :=
    match s with
    | [] => true
    | c :: r =>
        if c =? 92 then match r with [] => false | d :: r' => if d =? 92 then pat_ok r' else pat_ok r end
        else negb (c =? 47) && negb (iscntrl c) && pat_ok r
    end.
  Lemma str_chr_end : forall q s, (q =? 92) = false -> str_chr q (q :: s) = No.
  Proof.
    intros q s H. unfold str_chr. assert (B : ch c_backslash (q :: s) = No) by (apply ch_no; cbn [stops]; unfold c_backslash; rewrite N.eqb_sym; exact H).
    rewrite alt_no by (now apply then_no). rewrite alt_no by (now apply then_no). apply act_no. cbn [sat]. rewrite N.eqb_refl. reflexivity.
  Qed.
  Lemma str_chr_plain : forall q c s, (c =? q) = false -> iscntrl c = false -> (c =? 92) = false -> str_chr q (c :: s) = Ok [c] s.
  Proof.
    intros q c s H K B. unfold str_chr. assert (B' : ch c_backslash (c :: s) = No) by (apply ch_no; cbn [stops]; unfold c_backslash; rewrite N.eqb_sym; exact B).
    rewrite alt_no by (now apply then_no). rewrite alt_no by (now apply then_no). erewrite act_ok; [reflexivity|]. cbn [sat]. rewrite H, K. reflexivity.
  Qed.
  Lemma str_chr_two : forall q s, (q =? 92) = false -> str_chr q (92 :: 92 :: s) = Ok [92; 92] s.
  Proof.
    intros q s H. unfold str_chr. rewrite alt_no; [|rewrite (then_ok _ _ _ _ _ (ch_ok 92 (92 :: s))); apply act_no, ch_no; exact H].
    eapply alt_ok. reflexivity.
  Qed.
  Lemma str_chr_quote : forall q s, str_chr q (92 :: q :: s) = Ok [q] s.
  Proof. intros q s. unfold str_chr. eapply alt_ok. rewrite (then_ok _ _ _ _ _ (ch_ok 92 (q :: s))). erewrite act_ok; [reflexivity|]. apply ch_ok. Qed.
  Lemma str_chr_one : forall q c s, (q =? 92) = false -> (c =? q) = false -> (c =? 92) = false -> str_chr q (92 :: c :: s) = Ok [92] (c :: s).
  Proof.
    intros q c s Q H B. unfold str_chr. rewrite alt_no; [|rewrite (then_ok _ _ _ _ _ (ch_ok 92 (c :: s))); apply act_no, ch_no; cbn [stops]; rewrite N.eqb_sym; exact H].
    rewrite alt_no; [|rewrite (then_ok _ _ _ _ _ (ch_ok 92 (c :: s))); apply act_no, ch_no; cbn [stops]; unfold c_backslash; rewrite N.eqb_sym; exact B].
    erewrite act_ok; [reflexivity|]. cbn [sat]. rewrite N.eqb_sym, Q. reflexivity.
  Qed.

  Definition str_text (s : text) : text := escape (extra_print_escaper [c_quote]) s.
  Lemma str_text_cons : forall c s, str_text (c :: s) = extra_print_escaper [c_quote] c ++ str_text s.
  Proof. reflexivity. Qed.
  Lemma esc_quote : extra_print_escaper [c_quote] 34 = [92; 34]. Proof. reflexivity. Qed.
  Lemma esc_other : forall c, isprint c = true -> (c =? 34) = false -> extra_print_escaper [c_quote] c = [c].
  Proof. intros c P H. unfold extra_print_escaper, mem. cbn [existsb]. unfold c_quote. rewrite H. cbn [orb]. unfold print_escaper. now rewrite P. Qed.
  Lemma print_cntrl : forall c, isprint c = true -> iscntrl c = false.
  Proof. intros c H. unfold isprint, iscntrl in *. lia. Qed.
  Lemma str_steps : forall k s r, (length s <= k)%nat -> str_ok s = true -> exists l, steps (str_chr c_quote) (str_text s ++ c_quote :: r) l (c_quote :: r) /\ concat l = s.
  Proof.
    induction k as [|k IH]; intros s r L H; (destruct s as [|c s]; [exists []; split; [apply steps_nil, str_chr_end; reflexivity|reflexivity]|]); [cbn in L; lia|].
    cbn [length] in L. cbn [str_ok] in H. destruct (N.eqb_spec c 92) as [->|Hc].
    - rewrite str_text_cons, esc_other by reflexivity. cbn [app]. destruct s as [|d s]; [discriminate|]. cbn [length] in L. destruct (N.eqb_spec d 92) as [->|Hd].
      + destruct (IH s r ltac:(lia) H) as (l & S & C). exists ([92; 92] :: l). rewrite str_text_cons, esc_other by reflexivity. cbn [app]. split; [|cbn; now rewrite C].
        eapply steps_cons; [apply str_chr_two; reflexivity|cbn; lia|exact S].
      + destruct (N.eqb_spec d 34) as [->|Hq]; [discriminate|]. assert (P : isprint d = true).
        { cbn [str_ok] in H. destruct (N.eqb_spec d 92); [contradiction|]. now apply andb_true_iff in H. }
        destruct (IH (d :: s) r ltac:(cbn [length]; lia) H) as (l & S & C). exists ([92] :: l). split; [|cbn; now rewrite C].
        apply steps_cons with (s' := str_text (d :: s) ++ c_quote :: r); [|cbn [length]; lia|exact S].
        rewrite str_text_cons, esc_other by (exact P || now apply N.eqb_neq). cbn [app].
        apply str_chr_one; [reflexivity|now apply N.eqb_neq|now apply N.eqb_neq].
    - apply andb_true_iff in H. destruct H as [P H]. destruct (IH s r ltac:(lia) H) as (l & S & C). exists ([c] :: l). split; [|cbn; now rewrite C].
      rewrite str_text_cons. destruct (N.eqb_spec c 34) as [->|Hq].
      + rewrite esc_quote. cbn [app]. eapply steps_cons; [apply str_chr_quote|cbn; lia|exact S].
      + rewrite esc_other by (exact P || now apply N.eqb_neq). cbn [app]. apply steps_cons with (s' := str_text s ++ c_quote :: r); [|cbn [length]; lia|exact S].
        apply str_chr_plain; [now apply N.eqb_neq|now apply print_cntrl|now apply N.eqb_neq].
  Qed.
  Lemma pat_steps : forall k s r, (length s <= k)%nat -> pat_ok s = true -> exists l, steps (str_chr c_slash) (s ++ c_slash :: r) l (c_slash :: r) /\ concat l = s.
  Proof.
    induction k as [|k IH]; intros s r L H; (destruct s as [|c s]; [exists []; split; [apply steps_nil, str_chr_end; reflexivity|reflexivity]|]); [cbn in L; lia|].
    cbn [length] in L. cbn [pat_ok] in H. cbn [app]. destruct (N.eqb_spec c 92) as [->|Hc].
    - destruct s as [|d s]; [discriminate|]. cbn [length] in L. cbn [app]. destruct (N.eqb_spec d 92) as [->|Hd].
      + destruct (IH s r ltac:(lia) H) as (l & S & C). exists ([92; 92] :: l). split; [|cbn; now rewrite C].
        eapply steps_cons; [apply str_chr_two; reflexivity|cbn; lia|exact S].
      + assert (P : d <> 47). { cbn [pat_ok] in H. destruct (N.eqb_spec d 92); [contradiction|]. destruct (N.eqb_spec d 47); [discriminate|assumption]. }
        destruct (IH (d :: s) r ltac:(cbn [length]; lia) H) as (l & S & C). exists ([92] :: l). split; [|cbn; now rewrite C].
        apply steps_cons with (s' := (d :: s) ++ c_slash :: r); [|cbn [length app]; lia|exact S]. cbn [app].
        apply str_chr_one; [reflexivity|now apply N.eqb_neq|now apply N.eqb_neq].
    - apply andb_true_iff in H. destruct H as [P H]. apply andb_true_iff in P. destruct P as [P1 P2]. destruct (IH s r ltac:(lia) H) as (l & S & C). exists ([c] :: l). split; [|cbn; now rewrite C].
      apply steps_cons with (s' := s ++ c_slash :: r); [|cbn [length]; lia|exact S]. apply str_chr_plain; [now apply negb_true_iff|now apply negb_true_iff|now apply N.eqb_neq].
  Qed.
  Lemma quoted_ok : forall q t s r l, steps (str_chr q) (t ++ q :: r) l (q :: r) -> concat l = s -> quoted q (q :: t ++ q :: r) = Ok s r.
  Proof.
    intros q t s r l S C. unfold quoted. rewrite (then_ok _ _ _ _ _ (ch_ok q _)). eapply skip_ok; [|apply ch_ok]. erewrite act_ok; [|apply steps_kleene, S]. now rewrite C.
  Qed.
  Ltac no_head := rewrite any_cons, alt_no by reflexivity.
  Lemma data_string : forall n s r, str_ok s = true -> data_p A (S n) ((c_quote :: str_text s ++ [c_quote]) ++ r) = Ok (DString s) r.
  Proof.
    intros n s r H. cbn [app]. rewrite <- app_assoc. cbn [app]. destruct (str_steps (length s) s r (le_n _) H) as (l & S & C). set (t := str_text s ++ c_quote :: r) in *.
    cbn [data_p]. do 8 no_head. rewrite any_cons. eapply alt_ok. erewrite act_ok; [reflexivity|]. unfold t in *. eapply quoted_ok; eassumption.
  Qed.
  Lemma data_pattern : forall n s r, pat_ok s = true -> data_p A (S n) ((c_slash :: s ++ [c_slash]) ++ r) = Ok (DPattern s) r.
  Proof.
    intros n s r H. cbn [app]. rewrite <- app_assoc. cbn [app]. destruct (pat_steps (length s) s r (le_n _) H) as (l & S & C).
    cbn [data_p]. set (t := s ++ c_slash :: r) in *. do 9 no_head. rewrite any_cons. eapply alt_ok. erewrite act_ok; [reflexivity|]. unfold t in *. eapply quoted_ok; eassumption.
  Qed.
  Lemma data_bool : forall n (b : bool) r, follow r = true -> data_p A (S n) ((if b then chr "T" else chr "F") :: r) = Ok (DBool b) r.
  Proof.
    intros n [|] r F; [reflexivity|].
    assert (V : v6 (chr "F" :: r) = No).
    { apply v6_none; [reflexivity|]. right. exists r. split; [|apply follow_stops; [exact F|reflexivity] ]. unfold h16. rewrite rep_take.
      change (chr "F" :: r) with ([chr "F"] ++ r). rewrite take_fit; [reflexivity|reflexivity|apply follow_stops; [exact F|reflexivity]|cbn; lia]. }
    assert (P : addr_p A (chr "F" :: r) = No) by (unfold addr_p; rewrite alt_no by reflexivity; rewrite V; reflexivity).
    cbn [data_p]. do 2 no_head. rewrite any_cons, alt_no by (apply act_no; unfold net_p; apply bind_no; now apply skip_no). rewrite any_cons, alt_no by (now apply act_no).
    reflexivity.
  Qed.

  (** * Containers *)

  (** Values whose text form is read back. *)
  Fixpoint literal (d : data) : Prop :=
    match d with
    | DNone | DBool _ => True
    | DInt z => (- 2 ^ 63 <= z < 2 ^ 63)%Z
    | DCount n => n < 2 ^ 64
    | DString s => str_ok s = true
    | DPattern s => pat_ok s = true
    | DAddress a => wf a /\ is_v4 a = true
    | DSubnet s => sn_wf s /\ is_v4 (sn_net s) = true
    | DList l => fold_right (fun x P => literal x /\ P) True l
    | DMap l => fold_right (fun p P => literal (fst p) /\ literal (snd p) /\ P) True l /\
        ForallOrdPairs (fun p q => data_eqb (fst p) (fst q) = false) l
    | DRecord l => fold_right (fun p P => fst p <> [] /\ forallb identifier_char (fst p) = true /\ literal (snd p) /\ P) True l /\
        NoDup (map fst l)
    | DReal _ | DDuration _ | DTime _ | DEnum _ => False
    end.

  Lemma all_some_spec : forall {B C} (f : B -> option C) l ts, all_some (map f l) = Some ts -> Forall2 (fun x t => f x = Some t) l ts.
  Proof.
    intros B C f l. induction l as [|x l IH]; intros ts H; cbn [map all_some] in H; [injection H as <-; constructor|]. destruct (f x) as [t|] eqn:E; [|discriminate].
    destruct (all_some (map f l)) as [ts'|]; [|discriminate]. injection H as <-. constructor; auto.
  Qed.

  (** A separated list of texts, each read as a value, up to the closing character. *)
  Lemma steps_items : forall {B} (e : parser B) close (xs : list B) ts,
    Forall2 (fun x t => forall k, (k = close \/ exists k', k = 44 :: k') -> e (32 :: t ++ k) = Ok x k) xs ts ->
    ch (chr ",") close = No -> steps (then_ (ch (chr ",")) e) (flat_map (fun t => chars ", " ++ t) ts ++ close) xs close.
  Proof.
    intros B e close xs ts H C. induction H as [|x t xs ts H1 H2 IH].
    - apply steps_nil. now apply then_no.
    - cbn [flat_map]. rewrite <- !app_assoc. set (k := flat_map _ ts ++ close) in *. change (chars ", " ++ t ++ k) with (44 :: 32 :: t ++ k).
      apply steps_cons with (s' := k); [|cbn [length]; rewrite app_length; lia|exact IH]. rewrite (then_ok _ _ _ _ _ (ch_ok (chr ",") _)). apply H1.
      unfold k. destruct ts as [|t' ts]; [now left|]. right. eexists. reflexivity.
  Qed.
  Lemma list_items : forall {B} (e : parser B) close x t (xs : list B) ts,
    (forall k, (k = close \/ exists k', k = 44 :: k') -> e (t ++ k) = Ok x k) ->
    Forall2 (fun x t => forall k, (k = close \/ exists k', k = 44 :: k') -> e (32 :: t ++ k) = Ok x k) xs ts ->
    ch (chr ",") close = No -> list_ e (ch (chr ",")) (join_text (chars ", ") (t :: ts) ++ close) = Ok (x :: xs) close.
  Proof.
    intros B e close x t xs ts H1 H2 C. unfold list_. cbn [join_text]. rewrite <- app_assoc. erewrite bind_ok.
    - erewrite act_ok; [reflexivity|]. apply steps_kleene. eapply steps_items; [exact H2|exact C].
    - apply H1. destruct ts as [|t' ts]; [now left|]. right. eexists. reflexivity.
  Qed.

  Lemma fold_add_pair : forall {K V} (eqb : K -> K -> bool) (l m : list (K * V)),
    ForallOrdPairs (fun p q => eqb (fst p) (fst q) = false) (m ++ l) -> fold_left (add_pair eqb) l m = m ++ l.
  Proof.
    intros K V eqb l. induction l as [|x l IH]; intros m H; [now rewrite app_nil_r|]. cbn [fold_left].
    assert (E : add_pair eqb m x = m ++ [x]).
    { unfold add_pair. replace (existsb (fun y => eqb (fst y) (fst x)) m) with false; [reflexivity|]. symmetry. clear IH. induction m as [|y m IHm]; [reflexivity|].
      cbn [app] in H. inversion H as [|? ? F H']; subst. cbn [existsb]. rewrite IHm by exact H'. rewrite orb_false_r. rewrite Forall_forall in F. apply F. apply in_or_app. right. now left. }
    rewrite E, IH; [now rewrite <- app_assoc|]. now rewrite <- app_assoc.
  Qed.
  Lemma nodup_pairs : forall {V} (l : list (text * V)), NoDup (map fst l) -> ForallOrdPairs (fun p q => bytes_eqb (fst p) (fst q) = false) l.
  Proof.
    intros V l. induction l as [|x l IH]; intros H; [constructor|]. cbn [map] in H. inversion H as [|? ? H1 H2]; subst. constructor; [|auto].
    apply Forall_forall. intros y Hy. destruct (bytes_eqb (fst x) (fst y)) eqn:E; [|reflexivity]. apply bytes_eqb_spec in E. exfalso. apply H1. rewrite E. now apply in_map.
  Qed.

  (** No text starts with a blank. *)
  Lemma digits_head : forall x, x < 10 ^ 20 -> exists c t, digits x = c :: t /\ isspace c = false /\ isdigit c = true.
  Proof.
    intros x H. destruct (digits_spec x H) as (_ & D & L). destruct (digits x) as [|c t]; [cbn in L; lia|]. exists c, t. split; [reflexivity|].
    cbn [forallb] in D. apply andb_true_iff in D. destruct D as [D _]. split; [|exact D]. unfold isdigit, isspace in *. lia.
  Qed.
  Lemma show_head : forall d t, literal d -> show A d = Some t -> exists c t', t = c :: t' /\ isspace c = false.
  Proof.
    intros d t L H. destruct d; cbn [literal show] in *; try contradiction.
    - injection H as <-. eexists _, _. split; [reflexivity|reflexivity].
    - injection H as <-. eexists _, _. split; [reflexivity|]. destruct b; reflexivity.
    - unfold show_int in H. destruct (z =? - 2 ^ 63)%Z; [discriminate|]. destruct (z <? 0)%Z; injection H as <-; eexists _, _; split; reflexivity.
    - injection H as <-. assert (B' : n < 10 ^ 20) by (assert (2 ^ 64 < 10 ^ 20) by reflexivity; lia). destruct (digits_head n B') as (c & t & -> & E & _). eauto.
    - injection H as <-. eexists _, _. split; reflexivity.
    - injection H as <-. eexists _, _. split; reflexivity.
    - injection H as <-. destruct L as [W V]. destruct (v4_shape _ W V) as (x & y & z & w & -> & X & _). rewrite show_v4.
      destruct (digits_head x) as (c & t & -> & E & _); [change (10 ^ 20) with 100000000000000000000; lia|]. cbn [app]. eauto.
    - injection H as <-. destruct L as [(W & _) V]. destruct (v4_shape _ W V) as (x & y & z & w & -> & X & _). rewrite show_v4.
      destruct (digits_head x) as (c & t & -> & E & _); [change (10 ^ 20) with 100000000000000000000; lia|]. cbn [app]. eauto.
    - destruct (all_some _); [|discriminate]. injection H as <-. eexists _, _. split; reflexivity.
    - destruct (all_some _); [|discriminate]. injection H as <-. eexists _, _. split; reflexivity.
    - destruct (all_some _); [|discriminate]. injection H as <-. eexists _, _. split; reflexivity.
  Qed.

  (** What is read of a value that stands among blanks. *)
  Definition reads (d : data) : Prop :=
    forall n t r, show A d = Some t -> follow r = true -> (length t < n)%nat -> data_p A n (t ++ r) = Ok d r.
  Lemma element : forall d t n k k', literal d -> reads d -> show A d = Some t -> follow k = true -> ws k = Ok tt k' -> (length t < n)%nat ->
    then_ ws (skip_ (data_p A n) ws) (t ++ k) = Ok d k' /\ then_ ws (skip_ (data_p A n) ws) (32 :: t ++ k) = Ok d k'.
  Proof.
    intros d t n k k' L R H F W Hn. destruct (show_head d t L H) as (c & t' & -> & Sp). pose proof (R n (c :: t') k H F Hn) as P.
    assert (W1 : ws ((c :: t') ++ k) = Ok tt ((c :: t') ++ k)) by (apply ws_stop; exact Sp).
    assert (W2 : ws (32 :: (c :: t') ++ k) = Ok tt ((c :: t') ++ k)) by (rewrite ws_step; exact W1).
    split; [rewrite (then_ok _ _ _ _ _ W1)|rewrite (then_ok _ _ _ _ _ W2)]; eapply skip_ok; eassumption.
  Qed.
  Lemma join_length : forall ts t, In t ts -> (length t <= length (join_text (chars ", ") ts))%nat.
  Proof.
    intros [|x ts] t H; [destruct H|]. cbn [join_text]. rewrite app_length. destruct H as [->|H]; [lia|]. induction ts as [|y ts IH]; [destruct H|].
    cbn [flat_map]. rewrite !app_length. destruct H as [->|H]; [lia|]. specialize (IH H). lia.
  Qed.
  Lemma follow_sep : forall close k, (k = close \/ exists k', k = 44 :: k') -> follow close = true -> stops isspace close -> follow k = true /\ ws k = Ok tt k.
  Proof. intros close k [->|(k' & ->)] F S; split; auto using ws_stop. Qed.

  Lemma literal_list : forall l, literal (DList l) <-> Forall literal l.
  Proof. intros l. cbn [literal]. induction l as [|x l IH]; cbn [fold_right]; [split; constructor|]. rewrite IH. split; [intros [H1 H2]; now constructor|intros H; inversion H; auto]. Qed.
  Lemma literal_map : forall l, literal (DMap l) <-> Forall (fun p => literal (fst p) /\ literal (snd p)) l /\ ForallOrdPairs (fun p q => data_eqb (fst p) (fst q) = false) l.
  Proof.
    intros l. cbn [literal]. assert (E : fold_right (fun p P => literal (fst p) /\ literal (snd p) /\ P) True l <-> Forall (fun p => literal (fst p) /\ literal (snd p)) l).
    { induction l as [|x l IH]; cbn [fold_right]; [split; constructor|]. rewrite IH. split; [intros (H1 & H2 & H3); now constructor|intros H; inversion H; tauto]. }
    rewrite E. tauto.
  Qed.
  Lemma literal_record : forall l, literal (DRecord l) <->
    Forall (fun p => fst p <> [] /\ forallb identifier_char (fst p) = true /\ literal (snd p)) l /\ NoDup (map fst l).
  Proof.
    intros l. cbn [literal]. assert (E : fold_right (fun p P => fst p <> [] /\ forallb identifier_char (fst p) = true /\ literal (snd p) /\ P) True l <->
      Forall (fun p => fst p <> [] /\ forallb identifier_char (fst p) = true /\ literal (snd p)) l).
    { induction l as [|x l IH]; cbn [fold_right]; [split; constructor|]. rewrite IH. split; [intros (H1 & H2 & H3 & H4); now constructor|intros H; inversion H; tauto]. }
    rewrite E. tauto.
  Qed.

  Lemma Forall2_from : forall {B C} (P Q : B -> C -> Prop) l ts, Forall2 P l ts -> (forall x t, In x l -> In t ts -> P x t -> Q x t) -> Forall2 Q l ts.
  Proof.
    intros B C P Q l ts H. induction H as [|x t l ts H1 H2 IH]; intros F; constructor; [apply F; [now left|now left|exact H1]|].
    apply IH. intros y u Hy Hu. apply F; now right.
  Qed.

  Lemma reads_list : forall l, Forall literal l -> Forall reads l -> reads (DList l).
  Proof.
    intros l L R n t r H F Hn. cbn [show] in H. destruct (all_some (map (show A) l)) as [ts|] eqn:E; [|discriminate]. injection H as <-. apply all_some_spec in E.
    change [44; 32] with (chars ", ") in *. cbn [app]. rewrite <- app_assoc. cbn [app]. cbn [length] in Hn. rewrite app_length in Hn. cbn [length] in Hn. destruct n as [|n]; [lia|]. cbn [data_p].
    set (close := chr "]" :: r). set (e := then_ ws (skip_ (data_p A n) ws)). set (body := join_text (chars ", ") ts ++ close).
    do 10 no_head. rewrite any_cons. eapply alt_ok. rewrite (then_ok _ _ _ _ _ (ch_ok (chr "[") _)).
    assert (FC : follow close = true) by reflexivity. assert (SC : stops isspace close) by reflexivity.
    assert (B : maybe (list_ e (ch (chr ","))) body = Ok (match l with [] => None | _ => Some l end) close).
    { unfold body. destruct E as [|x t l ts E1 E2].
      - cbn [join_text app]. destruct n as [|n]; [lia|]. reflexivity.
      - inversion L as [|? ? L1 L2]; subst. inversion R as [|? ? R1 R2]; subst.
        assert (LN : forall u, In u (t :: ts) -> (length u < n)%nat) by (intros u Hu; pose proof (join_length (t :: ts) u Hu); lia).
        unfold maybe. rewrite (list_items e close x t l ts); [reflexivity| | |reflexivity].
        + intros k K. destruct (follow_sep close k K FC SC) as [Fk Wk]. eapply element; try eassumption. apply LN. now left.
        + eapply Forall2_from; [exact E2|]. intros y u Hy Hu Hyu k K. destruct (follow_sep close k K FC SC) as [Fk Wk].
          rewrite Forall_forall in L2, R2. eapply element; eauto. apply LN. now right. }
    rewrite (bind_ok _ _ _ _ _ B). erewrite then_ok; [|reflexivity]. unfold close. rewrite (then_ok _ _ _ _ _ (ch_ok (chr "]") r)).
    unfold ret. destruct l; reflexivity.
  Qed.

  Definition pair_text (p : data * data) : option text :=
    match show A (fst p), show A (snd p) with Some k, Some v => Some (k ++ chars " -> " ++ v) | _, _ => None end.
  Lemma pair_item : forall p t n k close, literal (fst p) /\ literal (snd p) -> reads (fst p) /\ reads (snd p) -> pair_text p = Some t ->
    (k = close \/ exists k', k = 44 :: k') -> follow close = true -> stops isspace close -> (length t < n)%nat ->
    let x := then_ ws (skip_ (data_p A n) ws) in
    let kvp := bind (skip_ x (lit (chars "->"))) (fun k => act (pair k) x) in
    kvp (t ++ k) = Ok p k /\ kvp (32 :: t ++ k) = Ok p k.
  Proof.
    intros [kd vd] t n k close [L1 L2] [R1 R2] H K F S Hn x kvp. cbn [fst snd] in *. unfold pair_text in H. cbn [fst snd] in H.
    destruct (show A kd) as [kt|] eqn:E1; [|discriminate]. destruct (show A vd) as [vt|] eqn:E2; [|discriminate]. injection H as <-.
    change (kt ++ [32; 45; 62; 32] ++ vt) with (kt ++ chars " -> " ++ vt) in *.
    destruct (follow_sep close k K F S) as [Fk Wk]. rewrite !app_length in Hn. cbn [length chars] in Hn. rewrite <- !app_assoc.
    destruct (element kd kt n (chars " -> " ++ vt ++ k) (chars "-> " ++ vt ++ k) L1 R1 E1 eq_refl eq_refl ltac:(lia)) as [X1 X2].
    destruct (element vd vt n k k L2 R2 E2 Fk Wk ltac:(lia)) as [_ Y]. fold x in X1, X2, Y.
    assert (Q : lit (chars "->") (chars "-> " ++ vt ++ k) = Ok tt (32 :: vt ++ k)) by reflexivity.
    split; unfold kvp; (erewrite bind_ok; [|eapply skip_ok; [first [exact X1|exact X2]|exact Q] ]); now rewrite (act_ok _ _ _ _ _ Y).
  Qed.
  Lemma reads_map : forall l, literal (DMap l) -> Forall (fun p => reads (fst p) /\ reads (snd p)) l -> reads (DMap l).
  Proof.
    intros l L R n t r H F Hn. apply literal_map in L. destruct L as [L P]. cbn [show] in H. fold pair_text in H.
    change (fun p => match show A (fst p), show A (snd p) with Some k, Some v => Some (k ++ chars " -> " ++ v) | _, _ => None end) with pair_text in H.
    destruct (all_some (map pair_text l)) as [ts|] eqn:E; [|discriminate]. injection H as <-. apply all_some_spec in E.
    change [44; 32] with (chars ", ") in *. cbn [app]. rewrite <- app_assoc. cbn [app]. cbn [length] in Hn. rewrite app_length in Hn. cbn [length] in Hn. destruct n as [|n]; [lia|]. cbn [data_p].
    set (close := chr "}" :: r). set (x := then_ ws (skip_ (data_p A n) ws)). set (e := bind (skip_ x (lit (chars "->"))) (fun k => act (pair k) x)). set (body := join_text (chars ", ") ts ++ close).
    do 11 no_head. rewrite any_cons. eapply alt_ok. rewrite (then_ok _ _ _ _ _ (ch_ok (chr "{") _)).
    assert (FC : follow close = true) by reflexivity. assert (SC : stops isspace close) by reflexivity.
    assert (B : maybe (list_ e (ch (chr ","))) body = Ok (match l with [] => None | _ => Some l end) close).
    { unfold body. clear P. destruct E as [|p t l ts E1 E2].
      - cbn [join_text app]. destruct n as [|n]; [lia|]. reflexivity.
      - inversion L as [|? ? L1 L2]; subst. inversion R as [|? ? R1 R2]; subst.
        assert (LN : forall u, In u (t :: ts) -> (length u < n)%nat) by (intros u Hu; pose proof (join_length (t :: ts) u Hu); lia).
        unfold maybe. rewrite (list_items e close p t l ts); [reflexivity| | |reflexivity].
        + intros k K. eapply pair_item; try eassumption. apply LN. now left.
        + eapply Forall2_from; [exact E2|]. intros y u Hy Hu Hyu k K.
          rewrite Forall_forall in L2, R2. eapply pair_item; eauto. apply LN. now right. }
    rewrite (bind_ok _ _ _ _ _ B). erewrite then_ok; [|reflexivity]. unfold close. rewrite (then_ok _ _ _ _ _ (ch_ok (chr "}") r)).
    unfold ret. destruct l as [|p l]; [reflexivity|]. cbn [or_nil]. now rewrite (fold_add_pair data_eqb (p :: l) []).
  Qed.

  Definition field_text (p : text * data) : option text := option_map (fun v => fst p ++ chars ": " ++ v) (show A (snd p)).
  Lemma ident_space : forall c, identifier_char c = true -> isspace c = false.
  Proof. intros c H. unfold identifier_char, isalnum, isspace in *. lia. Qed.
  Lemma field_item : forall p t n k close, fst p <> [] /\ forallb identifier_char (fst p) = true /\ literal (snd p) -> reads (snd p) -> field_text p = Some t ->
    (k = close \/ exists k', k = 44 :: k') -> follow close = true -> stops isspace close -> (length t < n)%nat ->
    let x := then_ ws (skip_ (data_p A n) ws) in
    let field := then_ ws (bind (skip_ identifier (lit (chars ":"))) (fun k => act (pair k) x)) in
    field (t ++ k) = Ok p k /\ field (32 :: t ++ k) = Ok p k.
  Proof.
    intros [name vd] t n k close (NE & ID & L2) R2 H K F S Hn x field. cbn [fst snd] in *. unfold field_text in H. cbn [fst snd] in H.
    destruct (show A vd) as [vt|] eqn:E2; [|discriminate]. cbn [option_map] in H. injection H as <-. change (name ++ [58; 32] ++ vt) with (name ++ chars ": " ++ vt) in *.
    destruct (follow_sep close k K F S) as [Fk Wk]. rewrite !app_length in Hn. cbn [length chars] in Hn. rewrite <- !app_assoc.
    destruct (element vd vt n k k L2 R2 E2 Fk Wk ltac:(lia)) as [_ Y]. fold x in Y. destruct name as [|c name]; [contradiction|].
    assert (Sp : isspace c = false) by (apply ident_space; cbn [forallb] in ID; now apply andb_true_iff in ID).
    assert (W1 : ws ((c :: name) ++ chars ": " ++ vt ++ k) = Ok tt ((c :: name) ++ chars ": " ++ vt ++ k)) by (apply ws_stop; exact Sp).
    assert (W2 : ws (32 :: (c :: name) ++ chars ": " ++ vt ++ k) = Ok tt ((c :: name) ++ chars ": " ++ vt ++ k)) by (rewrite ws_step; exact W1).
    assert (P : identifier ((c :: name) ++ chars ": " ++ vt ++ k) = Ok (c :: name) (chars ": " ++ vt ++ k)) by (apply plus_sat; [exact ID|reflexivity]).
    assert (Q : lit (chars ":") (chars ": " ++ vt ++ k) = Ok tt (32 :: vt ++ k)) by reflexivity.
    split; unfold field; [rewrite (then_ok _ _ _ _ _ W1)|rewrite (then_ok _ _ _ _ _ W2)];
      (erewrite bind_ok; [|eapply skip_ok; [exact P|exact Q] ]); now rewrite (act_ok _ _ _ _ _ Y).
  Qed.
  Lemma reads_record : forall l, literal (DRecord l) -> Forall (fun p : text * data => reads (snd p)) l -> reads (DRecord l).
  Proof.
    intros l L R n t r H F Hn. apply literal_record in L. destruct L as [L P]. cbn [show] in H.
    change (fun p : text * data => option_map (fun v => fst p ++ chars ": " ++ v) (show A (snd p))) with field_text in H.
    destruct (all_some (map field_text l)) as [ts|] eqn:E; [|discriminate]. injection H as <-. apply all_some_spec in E.
    change [44; 32] with (chars ", ") in *. cbn [app]. rewrite <- app_assoc. cbn [app]. cbn [length] in Hn. rewrite app_length in Hn. cbn [length] in Hn. destruct n as [|n]; [lia|]. cbn [data_p].
    set (close := chr ">" :: r). set (x := then_ ws (skip_ (data_p A n) ws)). set (e := then_ ws (bind (skip_ identifier (lit (chars ":"))) (fun k => act (pair k) x))). set (body := join_text (chars ", ") ts ++ close).
    do 12 no_head. rewrite any_cons. eapply alt_ok. rewrite (then_ok _ _ _ _ _ (ch_ok (chr "<") _)).
    assert (FC : follow close = true) by reflexivity. assert (SC : stops isspace close) by reflexivity.
    assert (B : maybe (list_ e (ch (chr ","))) body = Ok (match l with [] => None | _ => Some l end) close).
    { unfold body. clear P. destruct E as [|p t l ts E1 E2].
      - cbn [join_text app]. reflexivity.
      - inversion L as [|? ? L1 L2]; subst. inversion R as [|? ? R1 R2]; subst.
        assert (LN : forall u, In u (t :: ts) -> (length u < n)%nat) by (intros u Hu; pose proof (join_length (t :: ts) u Hu); lia).
        unfold maybe. rewrite (list_items e close p t l ts); [reflexivity| | |reflexivity].
        + intros k K. eapply field_item; try eassumption. apply LN. now left.
        + eapply Forall2_from; [exact E2|]. intros y u Hy Hu Hyu k K.
          rewrite Forall_forall in L2, R2. eapply field_item; eauto. apply LN. now right. }
    rewrite (bind_ok _ _ _ _ _ B). erewrite then_ok; [|reflexivity]. unfold close. rewrite (then_ok _ _ _ _ _ (ch_ok (chr ">") r)).
    unfold ret. destruct l as [|p l]; [reflexivity|]. cbn [or_nil]. now rewrite (fold_add_pair bytes_eqb (p :: l) []) by (cbn [app]; now apply nodup_pairs).
  Qed.

  Theorem literal_reads : forall d, literal d -> reads d.
  Proof.
    intros d. apply (data_rect' (fun d => literal d -> reads d)); clear d.
    - intros d Hd L n t r H F Hn. destruct n as [|n]; [lia|]. destruct d; try contradiction; cbn [literal] in L; try contradiction; cbn [show] in H.
      + injection H as <-. reflexivity.
      + injection H as <-. cbn [app]. now apply data_bool.
      + eapply data_int; eassumption.
      + injection H as <-. now apply data_count.
      + injection H as <-. now apply data_string.
      + injection H as <-. now apply data_pattern.
      + injection H as <-. destruct L. now apply data_addr.
      + injection H as <-. destruct L. now apply data_net.
    - intros xs H L. apply literal_list in L. apply reads_list; [exact L|]. rewrite Forall_forall in *. auto.
    - intros xs H L. apply reads_map; [exact L|]. apply literal_map in L. destruct L as [L _]. rewrite Forall_forall in *. intros p Hp. specialize (H p Hp). specialize (L p Hp). tauto.
    - intros xs H L. apply reads_record; [exact L|]. apply literal_record in L. destruct L as [L _]. rewrite Forall_forall in *. intros p Hp. specialize (H p Hp). specialize (L p Hp). tauto.
  Qed.
End Values.
