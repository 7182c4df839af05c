(** Lemmas about the text form of queries. *)
From Coq Require Import String Ascii List ZArith NArith Bool Arith Lia ZifyBool ZifyNat ZifyN.
From Coq Require Import Init.Datatypes.
From Verif Require Import OperatorModel EscapeModel AddressModel AddressProofs DataModel DataProofs TypeModel ExpressionModel LiteralModel LiteralProofs SyntaxModel TypeTextProofs.
Import ListNotations.
Open Scope N_scope.

(** * What follows an operand *)

Definition all_ops : list relop := [op_match; op_not_match; op_in; op_not_in; op_ni; op_not_ni; op_eq; op_ne; op_lt; op_le; op_gt; op_ge].
(** The end, a parenthesis, or a blank with an operator or a connective between blanks. *)
Definition behind (s : text) : Prop :=
  s = [] \/ (exists r, s = chr ")" :: r) \/ (exists x r, In x (map op_text all_ops ++ [chars "&&"; chars "||"]) /\ s = 32 :: x ++ 32 :: r).
Ltac behind_cases H :=
  destruct H as [->|[(r & ->)|(x & r & H & ->)] ];
  [| |cbn [map all_ops app In] in H; repeat (destruct H as [<-|H]; [|]); [..|destruct H] ].

Lemma behind_follow : forall s, behind s -> follow s = true.
Proof. intros s H. behind_cases H; reflexivity. Qed.
Definition word_or_dot (c : N) : bool := field_char c || (c =? 46).
Lemma behind_stops : forall s, behind s -> stops word_or_dot s.
Proof. intros s H. behind_cases H; reflexivity. Qed.
Lemma behind_ws : forall s, behind s -> exists r, ws s = Ok tt r /\ (r = [] \/ (exists r', r = chr ")" :: r') \/ (exists x r', In x (map op_text all_ops ++ [chars "&&"; chars "||"]) /\ r = x ++ 32 :: r')).
Proof.
  intros s [->|[(r & ->)|(x & r & H & ->)] ].
  - exists []. auto.
  - exists (chr ")" :: r). split; [reflexivity|eauto].
  - exists (x ++ 32 :: r). split; [|right; right; eauto]. rewrite ws_step. change (isspace 32) with true. cbv iota.
    apply ws_stop. cbn [map all_ops app In] in H. repeat (destruct H as [<-|H]; [reflexivity|]). destruct H.
Qed.

(** * Types *)

Lemma behind_quiet : forall s, behind s -> quiet s.
Proof.
  intros s H. behind_cases H; (split; [split; [reflexivity|]|]); eexists; (split; [(apply skp_stop; reflexivity) || (apply skp_blank; reflexivity)|]); repeat split; reflexivity.
Qed.
Lemma behind_ident : forall s, behind s -> stops identifier_char s.
Proof. intros s H. behind_cases H; reflexivity. Qed.
(** Types that are read back as they are: in [readable] ones, a name is
    that of a placeholder, and there are no attributes around. *)
Definition type_ok (t : ty) : Prop := readable t /\ reference t = t /\ m_attrs (ty_meta t) = [].
Lemma type_behind : forall t n s, type_ok t -> behind s -> (length (show_type t) < n)%nat -> type_p n (show_type t ++ s) = Ok t s.
Proof.
  intros t n s (R & E & NA) B L. pose proof (behind_quiet s B) as Q. rewrite <- E at 2. apply type_reads; [exact R| |exact Q|right; now left]. pose proof (depth_length t R). lia.
Qed.

(** * Fields *)

Definition letter (c : N) : bool := ((65 <=? c) && (c <=? 90)) || ((97 <=? c) && (c <=? 122)) || (c =? 95).
Definition part_ok (p : text) : Prop := p <> [] /\ forallb (fun c => field_char c && negb (c =? 58)) p = true.
(** Words that are read as values. *)
Definition reserved : list text := [chars "T"; chars "F"; chars "nil"; chars "now"; chars "_"].
(** Names of fields: words of letters, digits, underscores and dashes, joined by dots, that
    start with a letter and are not taken for a value. *)
Definition field_ok (x : text) : Prop :=
  (exists p ps, x = join_text (chars ".") (p :: ps) /\ Forall part_ok (p :: ps)) /\
  (exists c y, x = c :: y /\ letter c = true) /\ ~ In x reserved /\ strip (chars "now-") x = None /\
  (forall c y, strip (chars "in") x = Some (c :: y) -> isdigit c || (c =? 45) || (c =? 46) = false).

Definition starts_number (c : N) : bool := isdigit c || (c =? 43) || (c =? 45) || (c =? 46).
Lemma sign_other : forall s, stops starts_number s -> sign s = (false, s).
Proof.
  intros [|c s] H; [reflexivity|]. cbn [stops] in H. unfold starts_number in H. cbn [sign]. destruct (N.eqb_spec c 45); [lia|]. destruct (N.eqb_spec c 43); [lia|]. reflexivity.
Qed.
Lemma take_none : forall f k s, stops f s -> take f k s = ([], s).
Proof. intros f [|k] [|c s] H; try reflexivity. cbn [stops] in H. cbn [take]. now rewrite H. Qed.
Lemma number_digit : forall s, stops starts_number s -> stops isdigit s.
Proof. intros [|c s] H; [exact Logic.I|]. cbn [stops] in *. unfold starts_number in H. lia. Qed.
Lemma real_other : forall b s, stops starts_number s -> real_ b s = No.
Proof.
  intros b s H. unfold real_. rewrite (sign_other _ H), (take_none _ _ _ (number_digit _ H)). destruct s as [|c s]; [reflexivity|]. cbn [stops] in H. unfold starts_number in H.
  destruct (N.eqb_spec c 46); [lia|]. reflexivity.
Qed.
Lemma sdec_other : forall a b w s, stops starts_number s -> sdec a (S b) w s = No.
Proof. intros a b w s H. unfold sdec. rewrite (sign_other _ H), (take_none _ _ _ (number_digit _ H)). reflexivity. Qed.
Lemma udec_other : forall a b w s, stops starts_number s -> udec a (S b) w s = No.
Proof. intros a b w s H. unfold udec. rewrite (take_none _ _ _ (number_digit _ H)). reflexivity. Qed.
Lemma take_within : forall f k x s, stops f s -> exists x1 x2, x = x1 ++ x2 /\ take f k (x ++ s) = (x1, x2 ++ s).
Proof.
  intros f. induction k as [|k IH]; intros x s S; [exists [], x; auto|]. destruct x as [|c x].
  - exists [], []. split; [reflexivity|]. now apply take_none.
  - cbn [app take]. destruct (f c); [|exists [], (c :: x); auto]. destruct (IH x s S) as (x1 & x2 & -> & ->). exists (c :: x1), x2. auto.
Qed.

Section Values.
  Variable A : arith.

  Lemma ymdhms_other : forall s, stops starts_number s -> ymdhms A s = No.
  Proof. intros s H. unfold ymdhms. apply bind_no. unfold guard. apply bind_no. now apply sdec_other. Qed.
  Lemma duration1_other : forall s, stops starts_number s -> duration1 A s = No.
  Proof. intros s H. unfold duration1. apply bind_no. now apply real_other. Qed.
  Lemma duration_other : forall s, stops starts_number s -> duration_p A s = No.
  Proof. intros s H. unfold duration_p. apply bind_no. now apply duration1_other. Qed.
  Lemma v4_other : forall s, stops starts_number s -> v4 s = No.
  Proof. intros s H. unfold v4. apply bind_no, skip_no. unfold dec, guard. apply bind_no. now apply udec_other. Qed.

  Lemma letter_number : forall c s, letter c = true -> stops starts_number (c :: s).
  Proof. intros c s H. cbn [stops]. unfold letter, starts_number, isdigit in *. lia. Qed.
  Lemma letter_word : forall c, letter c = true -> word_or_dot c = true.
  Proof. intros c H. unfold letter, word_or_dot, field_char, isalnum in *. lia. Qed.

  (** Some of the name is left over. *)
  Definition left_over {B} (x : res B) : Prop := x = No \/ exists d c r, x = Ok d (c :: r) /\ word_or_dot c = true.

  Lemma name_tail : forall x l y s, forallb word_or_dot x = true -> strip l x = Some y -> y <> [] -> exists c r, y ++ s = c :: r /\ word_or_dot c = true.
  Proof.
    intros x l y s W E NE. apply strip_app in E. subst x. rewrite forallb_app in W. apply andb_true_iff in W. destruct W as [_ W].
    destruct y as [|c y]; [contradiction|]. cbn [forallb] in W. apply andb_true_iff in W. destruct W as [W _]. exists c, (y ++ s). auto.
  Qed.

  Lemma time_name : forall x s, forallb word_or_dot x = true -> (exists c y, x = c :: y /\ letter c = true) -> ~ In x reserved -> strip (chars "now-") x = None ->
    (forall c y, strip (chars "in") x = Some (c :: y) -> isdigit c || (c =? 45) || (c =? 46) = false) -> behind s -> left_over (time_p A (x ++ s)).
  Proof.
    intros x s W (c & y & Ex & L) RV NW IN H. pose proof (behind_stops s H) as ST.
    assert (SN : stops starts_number (x ++ s)) by (rewrite Ex; now apply letter_number).
    unfold time_p. rewrite any_cons, alt_no by (now apply ymdhms_other).
    rewrite any_cons, alt_no; [|apply then_no, ch_no; rewrite Ex; cbn [app stops]; unfold letter in L; change (chr "@") with 64; lia].
    assert (LN : lit (chars "now") (x ++ s) = match strip (chars "now") x with Some z => Ok tt (z ++ s) | None => No end) by (apply (lit_strip word_or_dot); [reflexivity|exact ST]).
    destruct (strip (chars "now") x) as [z|] eqn:E.
    - assert (NZ : z <> []). { intros ->. apply strip_app in E. rewrite app_nil_r in E. apply RV. rewrite E. cbn. auto. }
      destruct (name_tail x _ z s W E NZ) as (d & r & Ez & Wd).
      assert (D45 : d <> 45). { intros ->. destruct z as [|e z]; [contradiction|]. injection Ez as -> _. apply strip_app in E. rewrite E in NW. cbn in NW. discriminate. }
      rewrite any_cons, alt_no.
      + rewrite any_cons. right. exists (a_now A), d, r. split; [|exact Wd]. eapply alt_ok. rewrite (act_ok _ _ _ _ _ LN). now rewrite Ez.
      + rewrite (then_ok _ _ _ _ _ LN), Ez. erewrite then_ok; [|apply ws_stop; cbn [stops]; unfold word_or_dot, field_char, isalnum, isspace in *; lia].
        rewrite alt_no; [apply then_no, ch_no; cbn [stops]; change (chr "-") with 45; lia|]. apply then_no, ch_no. cbn [stops]. change (chr "+") with 43. unfold word_or_dot, field_char, isalnum in Wd. lia.
    - rewrite any_cons, alt_no by (now apply then_no). rewrite any_cons, alt_no by (now apply act_no). left.
      rewrite any_cons, alt_no.
      + rewrite any_cons, alt_no; [reflexivity|]. apply skip_no, act_no. now apply duration_other.
      + assert (LI : lit (chars "in") (x ++ s) = match strip (chars "in") x with Some z => Ok tt (z ++ s) | None => No end) by (apply (lit_strip word_or_dot); [reflexivity|exact ST]).
        destruct (strip (chars "in") x) as [z|] eqn:E2; [|now apply then_no]. rewrite (then_ok _ _ _ _ _ LI). destruct z as [|d z].
        * cbn [app]. destruct (behind_ws s H) as (r & Wr & Hr). rewrite (then_ok _ _ _ _ _ Wr). apply act_no, duration_other.
          destruct Hr as [->|[(r' & ->)|(w & r' & Hw & ->)] ]; [exact Logic.I|reflexivity|]. cbn [map all_ops app In] in Hw. repeat (destruct Hw as [<-|Hw]; [reflexivity|]). destruct Hw.
        * specialize (IN d z eq_refl). destruct (name_tail x _ (d :: z) s W E2) as (d' & r & Ez & Wd); [discriminate|]. cbn [app] in Ez. injection Ez as <- Er. cbn [app].
          erewrite then_ok; [|apply ws_stop; cbn [stops]; unfold word_or_dot, field_char, isalnum, isspace in *; lia]. apply act_no, duration_other. cbn [stops].
          unfold starts_number. unfold word_or_dot, field_char, isalnum in Wd. lia.
  Qed.
  Lemma addr_name : forall x s, forallb (fun c => word_or_dot c && negb (c =? 58)) x = true -> (exists c y, x = c :: y /\ letter c = true) -> behind s -> addr_p A (x ++ s) = No.
  Proof.
    intros x s W (c & y & Ex & L) H. assert (SN : stops starts_number (x ++ s)) by (rewrite Ex; now apply letter_number).
    unfold addr_p. rewrite alt_no by (apply act_no; now apply v4_other). replace (v6 (x ++ s)) with (@No unit); [reflexivity|]. symmetry. apply v6_none.
    - apply lit_no. rewrite Ex. cbn [app stops]. change (N_of_ascii ":") with 58. unfold letter in L. lia.
    - unfold h16. rewrite rep_take. destruct (take_within isxdigit 4 x s) as (x1 & x2 & E12 & ->).
      { pose proof (behind_ident s H) as S. destruct s as [|e s]; [exact Logic.I|]. cbn [stops] in *. unfold identifier_char, isalnum, isxdigit in *. lia. }
      destruct (length x1 <? 1)%nat; [now left|]. right. exists (x2 ++ s). split; [reflexivity|]. destruct x2 as [|e x2].
      + pose proof (behind_stops s H) as S. destruct s as [|e s]; [exact Logic.I|]. cbn [app stops] in *. unfold word_or_dot, field_char in S. lia.
      + cbn [app stops]. rewrite E12, forallb_app in W. apply andb_true_iff in W. destruct W as [_ W]. cbn [forallb] in W. lia.
  Qed.

  Lemma data_name : forall x s, forallb (fun c => word_or_dot c && negb (c =? 58)) x = true -> (exists c y, x = c :: y /\ letter c = true) -> ~ In x reserved -> strip (chars "now-") x = None ->
    (forall c y, strip (chars "in") x = Some (c :: y) -> isdigit c || (c =? 45) || (c =? 46) = false) -> behind s -> left_over (data_ A (x ++ s)).
  Proof.
    intros x s W0 LH RV NW IN H. assert (W : forallb word_or_dot x = true).
    { rewrite forallb_forall in *. intros e He. specialize (W0 e He). now apply andb_true_iff in W0. }
    pose proof (time_name x s W LH RV NW IN H) as T. pose proof (addr_name x s W0 LH H) as AD. pose proof (behind_stops s H) as ST.
    destruct LH as (c & y & Ex & L). assert (SN : stops starts_number (x ++ s)) by (rewrite Ex; now apply letter_number).
    unfold data_. cbn [data_p]. rewrite any_cons. destruct T as [T|(d & e & r & T & We)].
    2: { right. exists (DTime d), e, r. split; [|exact We]. eapply alt_ok. now rewrite (act_ok _ _ _ _ _ T). }
    rewrite alt_no by (now apply act_no). rewrite any_cons, alt_no by (apply act_no; now apply duration_other).
    rewrite any_cons, alt_no by (apply act_no; unfold net_p; apply bind_no; now apply skip_no). rewrite any_cons, alt_no by (now apply act_no).
    rewrite any_cons, alt_no by (apply act_no; now apply real_other). rewrite any_cons, alt_no by (apply act_no, si_none; now apply udec_other).
    rewrite any_cons, alt_no by (apply act_no, si_none; now apply sdec_other).
    rewrite Ex. cbn [app]. rewrite any_cons.
    destruct (N.eqb_spec c 84) as [->|Hc1].
    { right. assert (NY : y <> []) by (intros ->; apply RV; rewrite Ex; cbn; auto). destruct y as [|e y]; [contradiction|]. exists (DBool true), e, (y ++ s).
      split; [eapply alt_ok; reflexivity|]. rewrite Ex in W. cbn [forallb] in W. lia. }
    destruct (N.eqb_spec c 70) as [->|Hc2].
    { right. assert (NY : y <> []) by (intros ->; apply RV; rewrite Ex; cbn; auto). destruct y as [|e y]; [contradiction|]. exists (DBool false), e, (y ++ s).
      split; [eapply alt_ok; reflexivity|]. rewrite Ex in W. cbn [forallb] in W. lia. }
    assert (HNO : forall k, letter k = false \/ k = 84 \/ k = 70 -> ch k (c :: y ++ s) = No).
    { intros k Hk. apply ch_no. cbn [stops]. destruct (N.eqb_spec k c); [|reflexivity]. subst k. destruct Hk as [Hk|[Hk|Hk] ]; congruence. }
    rewrite alt_no by (rewrite alt_no by (apply act_no, HNO; auto); apply act_no, HNO; auto).
    rewrite any_cons, alt_no by (apply act_no, then_no, HNO; now left). rewrite any_cons, alt_no by (apply act_no, then_no, HNO; now left).
    rewrite any_cons, alt_no by (apply then_no, HNO; now left). rewrite any_cons, alt_no by (apply then_no, HNO; now left).
    rewrite any_cons, alt_no by (apply then_no, HNO; now left). rewrite any_cons, alt_no by (apply then_no, HNO; now left).
    change (c :: y ++ s) with ((c :: y) ++ s). rewrite <- Ex.
    assert (LN : lit (chars "nil") (x ++ s) = match strip (chars "nil") x with Some z => Ok tt (z ++ s) | None => No end) by (apply (lit_strip word_or_dot); [reflexivity|exact ST]).
    rewrite any_cons. destruct (strip (chars "nil") x) as [z|] eqn:E.
    { right. assert (NZ : z <> []). { intros ->. apply strip_app in E. rewrite app_nil_r in E. apply RV. rewrite E. cbn. auto. }
      destruct (name_tail x _ z s W E NZ) as (d & r & Ez & Wd). exists DNone, d, r. split; [|exact Wd]. eapply alt_ok. rewrite (act_ok _ _ _ _ _ LN). now rewrite Ez. }
    rewrite alt_no by (now apply act_no). rewrite any_cons. destruct (N.eqb_spec c 95) as [->|Hc3].
    { right. assert (NY : y <> []) by (intros ->; apply RV; rewrite Ex; cbn; auto 8). destruct y as [|e y]; [contradiction|]. exists DNone, e, (y ++ s).
      split; [rewrite Ex; eapply alt_ok; reflexivity|]. rewrite Ex in W. cbn [forallb] in W. lia. }
    left. rewrite alt_no; [reflexivity|]. apply act_no, ch_no. rewrite Ex. cbn [app stops]. change (chr "_") with 95. lia.
  Qed.

  Lemma parts_steps : forall ps s, Forall part_ok ps -> stops word_or_dot s ->
    steps (then_ (ch (chr ".")) (plus (sat field_char))) (flat_map (fun y => chars "." ++ y) ps ++ s) ps s.
  Proof.
    intros ps s F S. induction F as [|p ps (NE & P) F IH].
    - apply steps_nil. apply then_no, ch_no. cbn [flat_map app]. destruct s as [|c s]; [exact Logic.I|]. cbn [stops] in *. unfold word_or_dot in S. change (chr ".") with 46. lia.
    - cbn [flat_map]. rewrite <- !app_assoc. apply steps_cons with (s' := flat_map (fun y => chars "." ++ y) ps ++ s); [|rewrite !app_length; cbn; lia|exact IH].
      cbn [chars app]. rewrite (then_ok _ _ _ _ _ (ch_ok (chr ".") _)). destruct p as [|c p]; [contradiction|]. apply plus_sat.
      + rewrite forallb_forall in *. intros e He. specialize (P e He). now apply andb_true_iff in P.
      + destruct ps; [|reflexivity]. cbn [flat_map app]. destruct s as [|e s]; [exact Logic.I|]. cbn [stops] in *. unfold word_or_dot in S. lia.
  Qed.
  Lemma join_chars : forall f p ps, f 46 = true -> (forall q, In q (p :: ps) -> forallb f q = true) -> forallb f (join_text (chars ".") (p :: ps)) = true.
  Proof.
    intros f p ps D F. cbn [join_text]. rewrite forallb_app, (F p (or_introl eq_refl)). cbn [andb]. induction ps as [|q ps IH]; [reflexivity|].
    cbn [flat_map]. rewrite forallb_app. cbn [chars app forallb]. change (N_of_ascii ".") with 46. rewrite D, (F q) by (right; now left). cbn [andb].
    apply IH. intros q' [->|H]; apply F; [now left|right; now right].
  Qed.
  Lemma field_reads : forall x s n, field_ok x -> behind s -> operand_p A n (x ++ s) = Ok (OField x) s.
  Proof.
    intros x s n ((p & ps & Ex & F) & LH & RV & NW & IN) H. pose proof (behind_stops s H) as ST.
    assert (W0 : forallb (fun c => word_or_dot c && negb (c =? 58)) x = true).
    { rewrite Ex. apply join_chars; [reflexivity|]. intros q Hq. rewrite Forall_forall in F. destruct (F q Hq) as [_ P]. rewrite forallb_forall in *.
      intros e He. specialize (P e He). unfold word_or_dot. lia. }
    pose proof (data_name x s W0 LH RV NW IN H) as D. unfold operand_p. rewrite any_cons, alt_no.
    - destruct LH as (c & y & Exc & L). assert (HNO : forall k, letter k = false -> stops (N.eqb k) (x ++ s)).
      { intros k Hk. rewrite Exc. cbn [app stops]. destruct (N.eqb_spec k c); [subst; congruence|reflexivity]. }
      rewrite any_cons, alt_no by (apply act_no, lit_no, HNO; reflexivity). rewrite any_cons, alt_no by (apply act_no, lit_no, HNO; reflexivity).
      rewrite any_cons, alt_no by (apply then_no, ch_no, HNO; reflexivity). rewrite any_cons. eapply alt_ok. unfold field_.
      erewrite act_ok; [reflexivity|]. erewrite then_ok; [|unfold not_; rewrite alt_no by (apply ch_no, HNO; reflexivity); rewrite ch_no by (apply HNO; reflexivity); reflexivity].
      erewrite act_ok; [|rewrite Ex; cbn [join_text]; rewrite <- app_assoc; unfold list_; erewrite bind_ok; [erewrite act_ok; [reflexivity|apply steps_kleene, parts_steps]|] ].
      + now rewrite Ex.
      + inversion F; assumption.
      + exact ST.
      + inversion F as [|? ? (NE & P) F']; subst. destruct p as [|e p]; [contradiction|]. apply plus_sat.
        * rewrite forallb_forall in *. intros e' He. specialize (P e' He). now apply andb_true_iff in P.
        * destruct ps; [|reflexivity]. cbn [flat_map app]. destruct s as [|e' s]; [exact Logic.I|]. cbn [stops] in *. unfold word_or_dot in ST. lia.
    - apply act_no. destruct D as [D|(d & c & r & D & Wc)]; [now apply skip_no|]. eapply skip_no2; [exact D|]. unfold not_, alt. cbn [sat].
      unfold word_or_dot in Wc. destruct (field_char c) eqn:FC; [reflexivity|]. unfold ch, sat. change (chr ".") with 46. rewrite N.eqb_sym. destruct (c =? 46); [reflexivity|discriminate].
  Qed.
End Values.

(** * Operands, operators and predicates *)

Definition operand_ok (o : operand) : Prop :=
  match o with
  | OMeta _ => True
  | OField x => field_ok x
  | OType t => type_ok t
  | OData _ _ => False
  | OVal d => literal d
  end.
Definition pred_ok (p : predicate) : Prop := operand_ok (p_lhs p) /\ operand_ok (p_rhs p).
(** What a text does not start with: blanks, parentheses and exclamation marks. *)
Definition starts (t : text) : Prop := exists c r, t = c :: r /\ isspace c = false /\ c <> 40 /\ c <> 33.

Section Predicates.
  Variable A : arith.

  Lemma show_starts : forall d t, literal d -> show A d = Some t -> starts t.
  Proof.
    intros d t L H. assert (DG : forall c, isdigit c = true -> isspace c = false /\ c <> 40 /\ c <> 33) by (intros c; unfold isdigit, isspace; lia).
    destruct d; cbn [literal show] in *; try contradiction.
    - injection H as <-. eexists _, _. split; [reflexivity|]. repeat split; discriminate.
    - injection H as <-. eexists _, _. split; [reflexivity|]. destruct b; repeat split; discriminate.
    - unfold show_int in H. destruct (z =? - 2 ^ 63)%Z; [discriminate|]. destruct (z <? 0)%Z; injection H as <-; eexists _, _; (split; [reflexivity|repeat split; discriminate]).
    - injection H as <-. assert (B' : n < 10 ^ 20) by (assert (2 ^ 64 < 10 ^ 20) by reflexivity; lia). destruct (digits_head n B') as (c & t & -> & _ & E). exists c, t. auto.
    - injection H as <-. eexists _, _. split; [reflexivity|repeat split; discriminate].
    - injection H as <-. eexists _, _. split; [reflexivity|repeat split; discriminate].
    - injection H as <-. destruct L as [W V]. destruct (v4_shape _ W V) as (x & y & z & w & -> & X & _). rewrite show_v4.
      destruct (digits_head x) as (c & t & -> & _ & E); [change (10 ^ 20) with 100000000000000000000; lia|]. cbn [app]. eexists _, _. split; [reflexivity|auto].
    - injection H as <-. destruct L as [(W & _) V]. destruct (v4_shape _ W V) as (x & y & z & w & -> & X & _). rewrite show_v4.
      destruct (digits_head x) as (c & t & -> & _ & E); [change (10 ^ 20) with 100000000000000000000; lia|]. cbn [app]. eexists _, _. split; [reflexivity|auto].
    - destruct (all_some _); [|discriminate]. injection H as <-. eexists _, _. split; [reflexivity|repeat split; discriminate].
    - destruct (all_some _); [|discriminate]. injection H as <-. eexists _, _. split; [reflexivity|repeat split; discriminate].
    - destruct (all_some _); [|discriminate]. injection H as <-. eexists _, _. split; [reflexivity|repeat split; discriminate].
  Qed.
  Lemma operand_starts : forall o t, operand_ok o -> show_operand A o = Some t -> starts t.
  Proof.
    intros [k|x|ty|ty off|d] t OK H; cbn [operand_ok show_operand] in *.
    - destruct k; injection H as <-; eexists _, _; (split; [reflexivity|repeat split; discriminate]).
    - injection H as <-. destruct OK as (_ & (c & y & -> & L) & _). exists c, y. split; [reflexivity|]. unfold letter, isspace in *. lia.
    - injection H as <-. eexists _, _. split; [reflexivity|repeat split; discriminate].
    - destruct OK.
    - eapply show_starts; eassumption.
  Qed.

  (** No value starts with a colon before a word. *)
  Lemma data_colon : forall c s, identifier_char c = true -> data_ A (58 :: c :: s) = No.
  Proof.
    intros c s H. unfold data_. cbn [data_p]. assert (CC : colons (58 :: c :: s) = No).
    { change (colons (58 :: c :: s)) with (if 58 =? c then Ok tt s else No). unfold identifier_char, isalnum in H. destruct (N.eqb_spec 58 c); [lia|reflexivity]. }
    assert (V : v6 (58 :: c :: s) = No) by (apply v6_none; [exact CC|left; reflexivity]).
    assert (AD : addr_p A (58 :: c :: s) = No) by (unfold addr_p; rewrite alt_no by reflexivity; now rewrite V).
    assert (T : time_p A (58 :: c :: s) = No) by reflexivity.
    rewrite any_cons, alt_no by (now apply act_no). rewrite any_cons, alt_no by reflexivity.
    rewrite any_cons, alt_no by (apply act_no; unfold net_p; apply bind_no; now apply skip_no). rewrite any_cons, alt_no by (now apply act_no). reflexivity.
  Qed.
  Lemma operand_reads : forall o t s n, operand_ok o -> show_operand A o = Some t -> behind s -> (length t <= n)%nat -> operand_p A n (t ++ s) = Ok o s.
  Proof.
    intros [k|x|ty|ty off|d] t s n OK H B N2; cbn [operand_ok show_operand] in *.
    - destruct k; injection H as <-; reflexivity.
    - injection H as <-. now apply field_reads.
    - injection H as <-. destruct (TypeTextProofs.show_head ty (proj1 OK)) as (c & x & E & ID). cbn [app length] in *. unfold operand_p. rewrite any_cons, alt_no.
      2:{ apply act_no, skip_no. rewrite E. cbn [app]. now apply data_colon. }
      rewrite any_cons, alt_no by reflexivity. rewrite any_cons, alt_no by reflexivity. rewrite any_cons. eapply alt_ok. change 58 with (chr ":"). rewrite (then_ok _ _ _ _ _ (ch_ok (chr ":") _)).
      erewrite act_ok; [reflexivity|]. apply type_behind; [exact OK|exact B|lia].
    - destruct OK.
    - unfold operand_p. rewrite any_cons. eapply alt_ok. erewrite act_ok; [reflexivity|]. eapply skip_ok.
      + unfold data_. apply (literal_reads A d OK); [exact H|now apply behind_follow|rewrite app_length; lia].
      + pose proof (behind_stops s B) as ST. unfold not_. rewrite alt_no; [|destruct s as [|c s]; [reflexivity|]; cbn [stops sat] in *; unfold word_or_dot in ST; destruct (field_char c); [discriminate|reflexivity] ].
        rewrite ch_no; [reflexivity|]. destruct s as [|c s]; [exact Logic.I|]. cbn [stops] in *. unfold word_or_dot in ST. change (chr ".") with 46. lia.
  Qed.
  Lemma operation_reads : forall op s, operation_p (op_text op ++ 32 :: s) = Ok op (32 :: s).
  Proof. intros [] s; reflexivity. Qed.

  (** The end of a group. *)
  Definition ends (s : text) : Prop := s = [] \/ (exists r, s = chr ")" :: r) \/ (exists x r, In x [chars "&&"; chars "||"] /\ s = 32 :: x ++ 32 :: r).
  Lemma ends_behind : forall s, ends s -> behind s.
  Proof. intros s [H|[H|(x & r & H & E)] ]; [now left|right; now left|]. right. right. exists x, r. split; [|exact E]. apply in_or_app. now right. Qed.
  Lemma ends_operation : forall s, ends s -> then_ ws operation_p s = No.
  Proof. intros s [->|[(r & ->)|(x & r & [<-|[<-|[] ] ] & ->)] ]; reflexivity. Qed.

  Lemma pred_starts : forall p t, pred_ok p -> show_pred A p = Some t -> starts t /\ (5 <= length t)%nat.
  Proof.
    intros p t [O1 O2] H. unfold show_pred in H. destruct (show_operand A (p_lhs p)) as [l|] eqn:E1; [|discriminate]. destruct (show_operand A (p_rhs p)) as [r|] eqn:E2; [|discriminate].
    injection H as <-. destruct (operand_starts _ _ O1 E1) as (c & l' & -> & ?). destruct (operand_starts _ _ O2 E2) as (d & r' & -> & ?). cbn [app]. split; [eexists _, _; split; [reflexivity|assumption]|].
    cbn [length]. rewrite !app_length. cbn [length]. rewrite app_length. cbn [length]. destruct (p_op p); cbn; lia.
  Qed.
  Lemma pred_reads : forall p t s n, pred_ok p -> show_pred A p = Some t -> behind s -> (length t <= n)%nat -> predicate_p A n (t ++ s) = Ok p s.
  Proof.
    intros [l op r] t s n [O1 O2] H B N2. unfold show_pred in H. cbn [p_lhs p_op p_rhs] in *. destruct (show_operand A l) as [x|] eqn:E1; [|discriminate]. destruct (show_operand A r) as [y|] eqn:E2; [|discriminate].
    injection H as <-. rewrite app_length in N2. cbn [length] in N2. rewrite app_length in N2. cbn [length] in N2. unfold predicate_p. rewrite <- app_assoc. cbn [app]. rewrite <- app_assoc. cbn [app].
    erewrite bind_ok; [|apply operand_reads; [exact O1|exact E1| |lia] ].
    2:{ right. right. exists (op_text op), (y ++ s). split; [|reflexivity]. apply in_or_app. left. apply in_map. destruct op; cbn; auto 14. }
    erewrite then_ok; [|rewrite ws_step; change (isspace 32) with true; cbv iota; apply ws_stop; destruct op; reflexivity].
    erewrite bind_ok; [|apply operation_reads]. destruct (operand_starts _ _ O2 E2) as (c & y' & -> & SP & _).
    erewrite then_ok; [|rewrite ws_step; change (isspace 32) with true; cbv iota; apply ws_stop; cbn [app stops]; exact SP].
    erewrite act_ok; [reflexivity|]. apply operand_reads; [exact O2|exact E2|exact B|cbn [length] in *; lia].
  Qed.

  Lemma pred_expr_reads : forall p t s n, pred_ok p -> show_pred A p = Some t -> behind s -> (length t <= n)%nat -> pred_expr_p A n (t ++ s) = Ok (EPred p) s.
  Proof. intros p t s n OK H B N2. unfold pred_expr_p. eapply alt_ok. erewrite act_ok; [reflexivity|]. now apply pred_reads. Qed.
  Lemma value_reads : forall d t s n, literal d -> show A d = Some t -> ends s -> (length t <= n)%nat -> pred_expr_p A n (t ++ s) = Ok (expand d) s.
  Proof.
    intros d t s n OK H B N2. unfold pred_expr_p. rewrite alt_no.
    - erewrite act_ok; [reflexivity|]. unfold data_. apply (literal_reads A d OK); [exact H|now apply behind_follow, ends_behind|rewrite app_length; lia].
    - apply act_no. unfold predicate_p. erewrite bind_ok; [|apply (operand_reads (OVal d)); [exact OK|exact H|now apply ends_behind|exact N2] ].
      pose proof (ends_operation s B) as E. unfold then_, bind in *. destruct (ws s) as [a s'| |]; [|reflexivity|discriminate E]. now rewrite E.
  Qed.
End Predicates.

(** * Queries *)

(** A query as the user writes it: predicates and values, chains of them in parentheses, and
    negations of these. *)
Inductive query :=
| QPred (neg : bool) (p : predicate)
| QVal (neg : bool) (d : data)
| QParen (neg : bool) (x : query) (xs : list (connective * query)).

Section QueryInd.
  Variable P : query -> Prop.
  Hypothesis Hp : forall neg p, P (QPred neg p).
  Hypothesis Hv : forall neg d, P (QVal neg d).
  Hypothesis Hc : forall neg x xs, P x -> Forall (fun y => P (snd y)) xs -> P (QParen neg x xs).
  Fixpoint query_ind' (q : query) : P q :=
    match q with
    | QPred neg p => Hp neg p
    | QVal neg d => Hv neg d
    | QParen neg x xs => Hc neg x xs (query_ind' x)
        ((fix go l : Forall (fun y : connective * query => P (snd y)) l := match l with [] => Forall_nil _ | y :: l' => Forall_cons y (query_ind' (snd y)) (go l') end) xs)
    end.
End QueryInd.

Fixpoint query_ok (q : query) : Prop :=
  match q with
  | QPred _ p => pred_ok p
  | QVal _ d => literal d
  | QParen _ x xs => query_ok x /\ fold_right (fun y P => query_ok (snd y) /\ P) True xs
  end.
Definition bang (neg : bool) : text := if neg then chars "! " else [].
Definition conn_text (c : connective) : text := match c with CAnd => chars " && " | COr => chars " || " end.
(** The text of a query. *)
Fixpoint query_text (A : arith) (q : query) : option text :=
  match q with
  | QPred neg p => option_map (app (bang neg)) (show_pred A p)
  | QVal neg d => option_map (app (bang neg)) (show A d)
  | QParen neg x xs =>
      match query_text A x, all_some (map (fun y => option_map (app (conn_text (fst y))) (query_text A (snd y))) xs) with
      | Some t, Some ts => Some (bang neg ++ chr "(" :: t ++ concat ts ++ [chr ")"])
      | _, _ => None
      end
  end.
Definition chain_text (A : arith) (x : query) (xs : list (connective * query)) : option text :=
  match query_text A x, all_some (map (fun y => option_map (app (conn_text (fst y))) (query_text A (snd y))) xs) with
  | Some t, Some ts => Some (t ++ concat ts)
  | _, _ => None
  end.

(** When a query holds: [&&] binds more tightly than [||]. *)
Fixpoint chain_value (x : bool) (xs : list (connective * bool)) : bool :=
  match xs with
  | [] => x
  | (CAnd, y) :: r => chain_value (x && y) r
  | (COr, y) :: r => x || chain_value y r
  end.
Definition val_pred (d : data) : predicate := {| p_lhs := OType (data_type d); p_op := op_eq; p_rhs := OVal d |}.
Definition addr_in (d : data) : predicate := {| p_lhs := OType (TBasic no_meta BAddress); p_op := op_in; p_rhs := OVal d |}.
Definition value_holds (v : predicate -> bool) (d : data) : bool :=
  match d with
  | DSubnet _ => v (val_pred d) || v (addr_in d)
  | _ => v (val_pred d)
  end.
Fixpoint query_value (v : predicate -> bool) (q : query) : bool :=
  match q with
  | QPred neg p => xorb neg (v p)
  | QVal neg d => xorb neg (value_holds v d)
  | QParen neg x xs => xorb neg (chain_value (query_value v x) (map (fun y => (fst y, query_value v (snd y))) xs))
  end.
(** When an expression holds. *)
Fixpoint holds (v : predicate -> bool) (e : expr) : bool :=
  match e with
  | ENone => false
  | EAnd es => forallb (holds v) es
  | EOr es => existsb (holds v) es
  | ENot x => negb (holds v x)
  | EPred p => v p
  end.

(** What is read. *)
Definition signed_expr (neg : bool) (e : expr) : expr := if neg then ENot e else e.
Fixpoint build (q : query) : expr :=
  match q with
  | QPred neg p => signed_expr neg (EPred p)
  | QVal neg d => signed_expr neg (expand d)
  | QParen neg x xs => signed_expr neg (to_expr (build x) (map (fun y => (fst y, build (snd y))) xs))
  end.

Lemma holds_signed : forall v neg e, holds v (signed_expr neg e) = xorb neg (holds v e).
Proof. intros v [] e; cbn [signed_expr holds xorb]; [reflexivity|now destruct (holds v e)]. Qed.
Lemma holds_and : forall v es, holds v (single EAnd es) = forallb (holds v) es.
Proof. intros v [|x [|y es] ]; [reflexivity| |reflexivity]. cbn [single forallb]. now rewrite andb_true_r. Qed.
Lemma holds_or : forall v es, holds v (single EOr es) = existsb (holds v) es.
Proof. intros v [|x [|y es] ]; [reflexivity| |reflexivity]. cbn [single existsb]. now rewrite orb_false_r. Qed.
Lemma holds_loop : forall v xs dis con, holds v (to_expr_loop dis con xs) = existsb (holds v) dis || chain_value (forallb (holds v) con) (map (fun y => (fst y, holds v (snd y))) xs).
Proof.
  intros v xs. induction xs as [|[ [] e] xs IH]; intros dis con; cbn [to_expr_loop map chain_value fst snd].
  - rewrite holds_or, existsb_app. cbn [existsb]. now rewrite holds_and, orb_false_r.
  - rewrite IH, forallb_app. cbn [forallb]. now rewrite andb_true_r.
  - rewrite IH, existsb_app. cbn [existsb forallb]. rewrite holds_and, orb_false_r, andb_true_r. now rewrite orb_assoc.
Qed.
Lemma holds_to_expr : forall v x xs, holds v (to_expr x xs) = chain_value (holds v x) (map (fun y => (fst y, holds v (snd y))) xs).
Proof.
  intros v x xs. destruct xs as [|y xs]; [reflexivity|]. unfold to_expr. rewrite holds_loop. cbn [existsb forallb orb]. now rewrite andb_true_r.
Qed.
Lemma build_holds : forall v q, holds v (build q) = query_value v q.
Proof.
  intros v q. induction q as [neg p|neg d|neg x xs IH F] using query_ind'; cbn [build query_value]; rewrite holds_signed; f_equal.
  - destruct d; cbn; try reflexivity. now rewrite orb_false_r.
  - rewrite holds_to_expr, IH. f_equal. rewrite map_map. apply map_ext_in. intros y Hy. cbn [fst snd]. rewrite Forall_forall in F. now rewrite (F y Hy).
Qed.
Lemma chain_holds : forall v x xs, holds v (to_expr (build x) (map (fun y => (fst y, build (snd y))) xs)) = chain_value (query_value v x) (map (fun y => (fst y, query_value v (snd y))) xs).
Proof.
  intros v x xs. rewrite holds_to_expr, build_holds. f_equal. rewrite map_map. apply map_ext. intros y. cbn [fst snd]. now rewrite build_holds.
Qed.

Section Read.
  Variable A : arith.

  Lemma query_starts : forall q t, query_ok q -> query_text A q = Some t -> exists c r, t = c :: r /\ isspace c = false.
  Proof.
    intros [neg p|neg d|neg x xs] t OK H; cbn [query_ok query_text] in *.
    - destruct (show_pred A p) as [u|] eqn:E; [|discriminate]. injection H as <-. destruct (pred_starts A p u OK E) as [(c & r & -> & SP & _) _]. destruct neg; cbn [bang app]; eexists _, _; (split; [reflexivity|auto]).
    - destruct (show A d) as [u|] eqn:E; [|discriminate]. injection H as <-. destruct (show_starts A d u OK E) as (c & r & -> & SP & _). destruct neg; cbn [bang app]; eexists _, _; (split; [reflexivity|auto]).
    - destruct (query_text A x); [|discriminate]. destruct (all_some _); [|discriminate]. injection H as <-. destruct neg; cbn [bang app]; eexists _, _; (split; [reflexivity|reflexivity]).
  Qed.

  Definition group_reads (n : nat) (q : query) (t : text) : Prop := forall s, ends s -> group_p A n (expr_p A n) (t ++ s) = Ok (build q) s.

  Lemma and_or_reads : forall c s, exists r, conn_text c ++ s = 32 :: r /\ ws (conn_text c ++ s) = Ok tt r /\ and_or_p r = Ok c (32 :: s).
  Proof. intros [] s; eexists; repeat split; reflexivity. Qed.
  Lemma conn_ends : forall c s, ends (conn_text c ++ s).
  Proof. intros c s. right. right. destruct c; [exists (chars "&&"), s|exists (chars "||"), s]; cbn; auto. Qed.

  Lemma chain_steps : forall n xs ts s,
    Forall2 (fun y t => exists u, t = conn_text (fst y) ++ u /\ group_reads n (snd y) u /\ exists c r, u = c :: r /\ isspace c = false) xs ts ->
    s = [] \/ (exists r, s = chr ")" :: r) ->
    steps (then_ ws (bind and_or_p (fun c => then_ ws (act (pair c) (group_p A n (expr_p A n)))))) (concat ts ++ s) (map (fun y => (fst y, build (snd y))) xs) s.
  Proof.
    intros n xs ts s F HS. assert (ES : ends s) by (destruct HS as [->|H]; [now left|right; now left]).
    induction F as [|[c q] t xs ts (u & -> & G & e & r & Eu & SP) F IH]; cbn [concat map fst snd] in *.
    - apply steps_nil. destruct HS as [->|(r & ->)]; reflexivity.
    - rewrite <- app_assoc. apply steps_cons with (s' := concat ts ++ s); [| |exact IH].
      + rewrite <- app_assoc. destruct (and_or_reads c (u ++ concat ts ++ s)) as (w & _ & W1 & W2). rewrite (then_ok _ _ _ _ _ W1). erewrite bind_ok; [|exact W2].
        erewrite then_ok; [|rewrite ws_step; change (isspace 32) with true; cbv iota; apply ws_stop; rewrite Eu; cbn [app stops]; exact SP].
        erewrite act_ok; [reflexivity|]. apply G. destruct F as [|y t' xs ts (u' & -> & _) F]; [exact ES|]. cbn [concat]. rewrite <- !app_assoc. apply conn_ends.
      + rewrite !app_length. rewrite Eu. cbn [length]. lia.
  Qed.

  Lemma chain_reads : forall n x t xs ts s,
    group_reads n x t ->
    Forall2 (fun y t => exists u, t = conn_text (fst y) ++ u /\ group_reads n (snd y) u /\ exists c r, u = c :: r /\ isspace c = false) xs ts ->
    s = [] \/ (exists r, s = chr ")" :: r) ->
    expr_p A (S n) (t ++ concat ts ++ s) = Ok (to_expr (build x) (map (fun y => (fst y, build (snd y))) xs)) s.
  Proof.
    intros n x t xs ts s G F HS. cbn [expr_p]. erewrite bind_ok.
    2:{ apply G. destruct F as [|y t' xs ts (u' & -> & _) F]; [destruct HS as [->|H]; [now left|right; now left]|]. cbn [concat]. rewrite <- !app_assoc. apply conn_ends. }
    erewrite bind_ok; [|apply steps_kleene, chain_steps; eassumption]. erewrite then_ok; [reflexivity|]. apply ws_stop. destruct HS as [->|(r & ->)]; reflexivity.
  Qed.

  Lemma paren_no : forall n s, pred_expr_p A n (chr "(" :: s) = No.
  Proof. intros. reflexivity. Qed.
  Lemma starts_ch : forall c t s, starts t -> c = 40 \/ c = 33 -> ch c (t ++ s) = No.
  Proof. intros c t s (d & r & -> & _ & H1 & H2) HC. apply ch_no. cbn [app stops]. lia. Qed.
  Lemma group_atom : forall n neg t s e, starts t -> (forall s, ends s -> pred_expr_p A n (t ++ s) = Ok e s) -> ends s ->
    group_p A n (expr_p A n) ((bang neg ++ t) ++ s) = Ok (signed_expr neg e) s.
  Proof.
    intros n neg t s e ST R E. unfold group_p. destruct neg; cbn [bang signed_expr]; rewrite <- app_assoc.
    - change (chars "! " ++ t ++ s) with (33 :: 32 :: t ++ s). rewrite any_cons, alt_no by reflexivity. rewrite any_cons. eapply alt_ok.
      rewrite (then_ok _ _ _ _ _ (ch_ok (chr "!") _)). destruct ST as (c & r & -> & SP & _).
      erewrite then_ok; [|rewrite ws_step; change (isspace 32) with true; cbv iota; apply ws_stop; cbn [app stops]; exact SP].
      erewrite act_ok; [reflexivity|now apply R].
    - cbn [app]. rewrite any_cons, alt_no by (apply then_no, starts_ch; [exact ST|now left]). rewrite any_cons, alt_no by (apply then_no, starts_ch; [exact ST|now right]).
      rewrite any_cons, alt_no by (apply then_no, starts_ch; [exact ST|now right]). rewrite any_cons. eapply alt_ok. now apply R.
  Qed.

  Lemma query_reads : forall q t n, query_ok q -> query_text A q = Some t -> (length t < n)%nat -> group_reads n q t.
  Proof.
    intros q. induction q as [neg p|neg d|neg x xs IH F] using query_ind'; intros t n OK H L s ES; cbn [query_ok query_text build] in *.
    - destruct (show_pred A p) as [u|] eqn:E; [|discriminate]. injection H as <-. destruct (pred_starts A p u OK E) as [ST LN]. rewrite app_length in L. apply group_atom; [exact ST| |exact ES].
      intros s' ES'. apply pred_expr_reads; [exact OK|exact E|now apply ends_behind|lia].
    - destruct (show A d) as [u|] eqn:E; [|discriminate]. injection H as <-. pose proof (show_starts A d u OK E) as ST. rewrite app_length in L. apply group_atom; [exact ST| |exact ES].
      intros s' ES'. apply value_reads; [exact OK|exact E|exact ES'|lia].
    - destruct OK as [OK OKs]. destruct (query_text A x) as [u|] eqn:E; [|discriminate]. destruct (all_some _) as [ts|] eqn:Es; [|discriminate].
      match type of H with Some ?a = Some ?b => assert (a = b) as <- by congruence end. clear H. apply all_some_spec in Es.
      destruct n as [|n]; [lia|]. rewrite app_length in L. cbn [length] in L. rewrite !app_length in L. cbn [length] in L.
      assert (C : forall s', expr_p A (S n) (u ++ concat ts ++ chr ")" :: s') = Ok (to_expr (build x) (map (fun y => (fst y, build (snd y))) xs)) (chr ")" :: s')).
      { intros s'. apply chain_reads; [apply IH; [exact OK|exact eq_refl|lia]| |right; eauto]. clear IH E. assert (L' : (length (concat ts) < n)%nat) by lia. clear L.
        revert OKs L'. induction Es as [|y t xs ts Ey Es IHe]; intros OKs L'; [constructor|]. cbn [fold_right] in OKs. destruct OKs as [OKy OKs]. cbn [concat] in L'. rewrite app_length in L'.
        inversion F as [|? ? Fy F']; subst. destruct (query_text A (snd y)) as [w|] eqn:Ew; [|discriminate]. cbn [option_map] in Ey. injection Ey as <-. rewrite app_length in L'. constructor.
        - exists w. split; [reflexivity|]. split; [apply Fy; [exact OKy|exact eq_refl|lia]|]. eapply query_starts; eassumption.
        - apply IHe; [exact F'|exact OKs|lia]. }
      assert (WS : forall r, ws (u ++ r) = Ok tt (u ++ r)) by (intros r; destruct (query_starts x u OK E) as (c & r' & -> & SP); apply ws_stop; exact SP).
      unfold group_p. destruct neg; cbn [bang signed_expr].
      + change ((chars "! " ++ chr "(" :: u ++ concat ts ++ [chr ")"]) ++ s) with (33 :: 32 :: chr "(" :: (u ++ concat ts ++ [chr ")"]) ++ s).
        change (33 :: 32 :: chr "(" :: (u ++ concat ts ++ [chr ")"]) ++ s) with (chr "!" :: 32 :: chr "(" :: (u ++ concat ts ++ [chr ")"]) ++ s).
        rewrite <- !app_assoc. cbn [app]. rewrite any_cons, alt_no by reflexivity. rewrite any_cons, alt_no by reflexivity. rewrite any_cons. eapply alt_ok.
        rewrite (then_ok _ _ _ _ _ (ch_ok (chr "!") _)). erewrite then_ok; [|rewrite ws_step; change (isspace 32) with true; cbv iota; apply ws_stop; reflexivity].
        rewrite (then_ok _ _ _ _ _ (ch_ok (chr "(") _)). rewrite (then_ok _ _ _ _ _ (WS _)). erewrite bind_ok; [|apply C]. erewrite then_ok; [|apply ws_stop; reflexivity].
        rewrite (then_ok _ _ _ _ _ (ch_ok (chr ")") _)). reflexivity.
      + cbn [app]. rewrite <- !app_assoc. cbn [app]. rewrite any_cons. eapply alt_ok. rewrite (then_ok _ _ _ _ _ (ch_ok (chr "(") _)). rewrite (then_ok _ _ _ _ _ (WS _)).
        erewrite bind_ok; [|apply C]. erewrite then_ok; [|apply ws_stop; reflexivity]. rewrite (then_ok _ _ _ _ _ (ch_ok (chr ")") _)). reflexivity.
  Qed.

  Theorem chain_query : forall x xs t n, query_ok x -> Forall (fun y => query_ok (snd y)) xs -> chain_text A x xs = Some t -> (length t < n)%nat ->
    query_p A (S n) t = Ok (to_expr (build x) (map (fun y => (fst y, build (snd y))) xs)) [].
  Proof.
    intros x xs t n OK OKs H L. unfold chain_text in H. destruct (query_text A x) as [u|] eqn:E; [|discriminate]. destruct (all_some _) as [ts|] eqn:Es; [|discriminate]. injection H as <-. apply all_some_spec in Es.
    rewrite app_length in L. unfold query_p. pose proof (chain_reads n x u xs ts []) as C. rewrite app_nil_r in C. rewrite C; [reflexivity| | |now left]; clear C.
    - apply query_reads; [exact OK|exact E|lia].
    - assert (L' : (length (concat ts) < n)%nat) by lia. clear L E. revert OKs L'. induction Es as [|y t xs ts Ey Es IHe]; intros OKs L'; [constructor|]. inversion OKs as [|? ? OKy OKs']; subst. cbn [concat] in L'. rewrite app_length in L'.
      destruct (query_text A (snd y)) as [w|] eqn:Ew; [|discriminate]. cbn [option_map] in Ey. injection Ey as <-. rewrite app_length in L'. constructor.
      + exists w. split; [reflexivity|]. split; [apply query_reads; [exact OKy|exact Ew|lia]|]. eapply query_starts; eassumption.
      + apply IHe; [exact OKs'|lia].
  Qed.
End Read.

(** * Expressions that are printed *)

Fixpoint printable (e : expr) : Prop :=
  match e with
  | ENone => False
  | EAnd es => (2 <= length es)%nat /\ fold_right (fun x P => printable x /\ P) True es
  | EOr es => (2 <= length es)%nat /\ fold_right (fun x P => printable x /\ P) True es
  | ENot x => match x with EPred _ | EAnd _ | EOr _ => printable x | _ => False end
  | EPred p => pred_ok p
  end.
Section ExprInd.
  Variable P : expr -> Prop.
  Hypothesis H0 : P ENone.
  Hypothesis H1 : forall es, Forall P es -> P (EAnd es).
  Hypothesis H2 : forall es, Forall P es -> P (EOr es).
  Hypothesis H3 : forall x, P x -> P (ENot x).
  Hypothesis H4 : forall p, P (EPred p).
  Fixpoint expr_ind' (e : expr) : P e :=
    let go := fix go l : Forall P l := match l with [] => Forall_nil _ | y :: l' => Forall_cons y (expr_ind' y) (go l') end in
    match e with
    | ENone => H0
    | EAnd es => H1 es (go es)
    | EOr es => H2 es (go es)
    | ENot x => H3 x (expr_ind' x)
    | EPred p => H4 p
    end.
End ExprInd.

Definition negated (q : query) : bool := match q with QPred n _ | QVal n _ | QParen n _ _ => n end.
Definition negate (q : query) : query := match q with QPred _ p => QPred true p | QVal _ d => QVal true d | QParen _ x xs => QParen true x xs end.
Lemma to_expr_and : forall x xs, xs <> [] -> to_expr x (map (pair CAnd) xs) = EAnd (x :: xs).
Proof.
  intros x xs NE. destruct xs as [|y xs]; [contradiction|]. unfold to_expr. cbn [map to_expr_loop app].
  assert (G : forall l con, (2 <= length con)%nat -> to_expr_loop [] con (map (pair CAnd) l) = EAnd (con ++ l)).
  { induction l as [|z l IH]; intros con HC; cbn [map to_expr_loop app single].
    - rewrite app_nil_r. destruct con as [|a [|b con] ]; cbn [length] in HC; try lia. reflexivity.
    - rewrite IH by (rewrite app_length; cbn; lia). now rewrite <- app_assoc. }
  rewrite G by (cbn; lia). reflexivity.
Qed.
Lemma to_expr_or : forall x xs, xs <> [] -> to_expr x (map (pair COr) xs) = EOr (x :: xs).
Proof.
  intros x xs NE. destruct xs as [|y xs]; [contradiction|]. unfold to_expr. cbn [map to_expr_loop app single].
  assert (G : forall l a dis, dis <> [] -> to_expr_loop dis [a] (map (pair COr) l) = EOr (dis ++ a :: l)).
  { induction l as [|z l IH]; intros a dis HC; cbn [map to_expr_loop app single].
    - destruct dis as [|b dis]; [contradiction|]. destruct dis; reflexivity.
    - rewrite IH by (destruct dis; discriminate). now rewrite <- app_assoc. }
  rewrite G by discriminate. reflexivity.
Qed.
Lemma show_chain : forall A c (es : list expr) (qs : list query), Forall2 (fun e q => query_text A q = show_expr A e) es qs ->
  all_some (map (fun y => option_map (app (conn_text (fst y))) (query_text A (snd y))) (map (pair c) qs)) = option_map (map (app (conn_text c))) (all_some (map (show_expr A) es)).
Proof.
  intros A c es qs F. induction F as [|e q es qs E F IH]; [reflexivity|]. cbn [map all_some fst snd]. rewrite E, IH. destruct (show_expr A e); [|reflexivity]. cbn [option_map].
  destruct (all_some (map (show_expr A) es)); reflexivity.
Qed.
Lemma query_of : forall A e, printable e -> exists q, query_ok q /\ build q = e /\ query_text A q = show_expr A e /\ match e with ENot _ => True | _ => negated q = false end.
Proof.
  intros A e. induction e as [|es F|es F|x IH|p] using expr_ind'; intros PR; cbn [printable] in PR.
  - destruct PR.
  - destruct PR as [L PR]. assert (Q : exists qs, Forall2 (fun e q => query_text A q = show_expr A e) es qs /\ map build qs = es /\ Forall query_ok qs).
    { clear L. induction F as [|x es Hx F IH]; [exists []; repeat split; constructor|]. cbn [fold_right] in PR. destruct PR as [P1 P2]. destruct (Hx P1) as (q & Q1 & Q2 & Q3 & _). destruct (IH P2) as (qs & I1 & I2 & I3).
      exists (q :: qs). cbn [map]. rewrite Q2, I2. repeat split; auto. }
    destruct Q as (qs & Q1 & Q2 & Q3). destruct Q1 as [|x q es qs Ex Q1]; [cbn in L; lia|]. cbn [map] in Q2. injection Q2 as B1 B2. inversion Q3 as [|? ? O1 O2]; subst.
    exists (QParen false q (map (pair CAnd) qs)). split; [|split; [|split; [|reflexivity] ] ].
    + cbn [query_ok]. split; [exact O1|]. clear - O2. induction O2; cbn [map fold_right snd]; auto.
    + cbn [build signed_expr]. rewrite map_map. cbn [fst snd]. rewrite <- (map_map build (pair CAnd)), to_expr_and; [reflexivity|]. intros E. rewrite E in L. cbn in L. lia.
    + cbn [query_text]. rewrite (show_chain A CAnd _ _ Q1), Ex. cbn [show_expr map all_some]. destruct (show_expr A (build q)) as [t|]; [|reflexivity].
      destruct (all_some (map (show_expr A) (map build qs))) as [ts|]; [|reflexivity]. cbn [option_map bang app join_text conn_text]. now rewrite flat_map_concat_map, <- app_assoc.
  - destruct PR as [L PR]. assert (Q : exists qs, Forall2 (fun e q => query_text A q = show_expr A e) es qs /\ map build qs = es /\ Forall query_ok qs).
    { clear L. induction F as [|x es Hx F IH]; [exists []; repeat split; constructor|]. cbn [fold_right] in PR. destruct PR as [P1 P2]. destruct (Hx P1) as (q & Q1 & Q2 & Q3 & _). destruct (IH P2) as (qs & I1 & I2 & I3).
      exists (q :: qs). cbn [map]. rewrite Q2, I2. repeat split; auto. }
    destruct Q as (qs & Q1 & Q2 & Q3). destruct Q1 as [|x q es qs Ex Q1]; [cbn in L; lia|]. cbn [map] in Q2. injection Q2 as B1 B2. inversion Q3 as [|? ? O1 O2]; subst.
    exists (QParen false q (map (pair COr) qs)). split; [|split; [|split; [|reflexivity] ] ].
    + cbn [query_ok]. split; [exact O1|]. clear - O2. induction O2; cbn [map fold_right snd]; auto.
    + cbn [build signed_expr]. rewrite map_map. cbn [fst snd]. rewrite <- (map_map build (pair COr)), to_expr_or; [reflexivity|]. intros E. rewrite E in L. cbn in L. lia.
    + cbn [query_text]. rewrite (show_chain A COr _ _ Q1), Ex. cbn [show_expr map all_some]. destruct (show_expr A (build q)) as [t|]; [|reflexivity].
      destruct (all_some (map (show_expr A) (map build qs))) as [ts|]; [|reflexivity]. cbn [option_map bang app join_text conn_text]. now rewrite flat_map_concat_map, <- app_assoc.
  - assert (PX : printable x /\ match x with ENot _ => False | _ => True end) by (destruct x; auto; contradiction). destruct PX as [PX NX]. destruct (IH PX) as (q & Q1 & Q2 & Q3 & Q4).
    assert (NG : negated q = false) by (destruct x; auto; contradiction). exists (negate q).
    destruct q as [n p|n d|n y ys]; cbn [negated] in NG; subst n; cbn [negate query_ok build signed_expr query_text show_expr bang app] in *; rewrite <- ?Q3, ?Q2; (split; [exact Q1|split; [reflexivity|split; [|exact Logic.I] ] ]).
    + destruct (show_pred A p); reflexivity.
    + destruct (show A d); reflexivity.
    + destruct (query_text A y); [|reflexivity]. destruct (all_some _); reflexivity.
  - exists (QPred false p). cbn [query_ok build signed_expr query_text show_expr negated bang]. split; [exact PR|]. split; [reflexivity|]. split; [|reflexivity]. destruct (show_pred A p); reflexivity.
Qed.
Theorem expr_reads : forall A e t n, printable e -> show_expr A e = Some t -> (length t < n)%nat -> query_p A (S n) t = Ok e [].
Proof.
  intros A e t n PR H L. destruct (query_of A e PR) as (q & Q1 & Q2 & Q3 & _). pose proof (chain_query A q [] t n Q1 (Forall_nil _)) as C. cbn [map to_expr] in C.
  rewrite <- Q2. apply C; [|exact L]. unfold chain_text. rewrite Q3, H. cbn [map all_some concat]. now rewrite app_nil_r.
Qed.
