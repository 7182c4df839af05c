(** C67: Sigma rules mean what they say. Property theorems. *)
From Coq Require Import String Ascii List ZArith NArith Bool Arith Lia Permutation.
From Coq Require Import Init.Datatypes.
From Verif Require Import OperatorModel DataModel TypeModel ExpressionModel ExpressionProofs LiteralModel SyntaxModel SyntaxProofs SigmaModel SigmaProofs.
Import ListNotations.
Open Scope N_scope.
Local Notation length := List.length.

(** ** C67: conditions *)

(** However many searches, references, negations, parentheses and spaces a condition has: it is
    accepted, and the expression holds exactly if the condition does, where [and] binds stronger
    than [or], for all truth values of the predicates. *)
Theorem C67_conditions : forall table c t w, table_ok table -> chain_text table c t -> spaces w ->
  exists e, condition_expr table (t ++ w) = Rule e /\ forall v, holds v e = cond_value table v c.
Proof.
  intros table c t w T H W. exists (cond_expr table c). split.
  - exact (condition_reads table T c t [] w H W eq_refl).
  - intros v. exact (condition_holds table T v c t H).
Qed.

(** ** C67: searches *)

(** A search is accepted, and its expression holds exactly if all fields of the search do, each
    for one of its values, or for all of its values if it says so; a list of searches holds if one
    of them does. *)
Theorem C67_searches : forall s, source_ok s -> exists e, parse_search_id (source_data s) = Rule e /\ forall v, holds v e = source_value v s.
Proof. exact source_reads. Qed.

(** With the modifier [re], a value that is no string, list or record is compared with the match
    operator, and a string is a regular expression, for all names of fields and all values. *)
Theorem C67_re : forall name v, name <> [] -> ~ In (chr "|") name -> match v with DList _ | DRecord _ => False | _ => True end ->
  field_expr (name ++ chars "|re", v) = Rule (EPred {| p_lhs := OField name; p_op := op_match; p_rhs := OVal (match v with DString s => DPattern s | _ => v end) |}).
Proof.
  intros name v NE NB NV. unfold field_expr. cbn [fst snd]. replace (split_bar [] (name ++ chars "|re")) with [name; chars "re"].
  - destruct v; try contradiction; reflexivity.
  - symmetry. refine (split_mods [MRe] name [] NB _). rewrite app_nil_r. intros E. apply NE. rewrite <- (rev_involutive name), E. reflexivity.
Qed.
Example C67_re_example : field_expr (chars "x|re", DCount 7) = Rule (EPred {| p_lhs := OField (chars "x"); p_op := op_match; p_rhs := OVal (DCount 7) |}).
Proof. apply (C67_re (chars "x")); [discriminate| |exact I]. intros [H|[] ]. discriminate. Qed.

(** ** C67: wildcards *)

(** A value that has no characters with a meaning in regular expressions other than its wildcards
    accepts exactly the strings that it stands for. *)
Theorem C67_wildcards : forall s t, glob_ok s -> Forall (fun c => dot c = true) t ->
  (match make_pattern s with Some rx => rx_matches rx t | None => t = s end <-> glob s t).
Proof.
  intros s t OK D. rewrite make_pattern_plain by exact OK. destruct (existsb wild s) eqn:E.
  - split; [now apply rx_glob|now apply glob_rx].
  - symmetry. now apply glob_plain.
Qed.

(** ** C67: rules *)

(** A rule is accepted. Its expression holds exactly if its condition does for searches with the
    meaning that they have in the rule. What is missing, because the code does otherwise, is
    below. *)
Theorem C67_rule_partial : forall r, rule_ok r -> exists table, table_ok table /\ table_of r table /\
  forall c t w, chain_text table c t -> spaces w -> ru_condition r = t ++ w ->
    exists e, parse_rule (rule_data r) = Rule e /\ forall v, holds v e = cond_value table v c.
Proof.
  intros r OK. destruct (rule_reads r OK) as (table & T & R & E). exists table. split; [exact T|]. split; [exact R|]. intros c t w H W EC. rewrite E, EC. now apply C67_conditions.
Qed.

(** ** A case *)

Definition sample_rule : rule :=
  {| ru_before := [(chars "title", DString (chars "x"))];
     ru_after := [];
     ru_searches := [(chars "sel_a", SAll [ {| en_name := chars "proc"; en_mods := [MContains; MAll]; en_value := VMany [DString (chars "a"); DString (chars "b")] |};
                                            {| en_name := chars "id"; en_mods := []; en_value := VOne (DCount 7) |} ]);
                     (chars "sel_b", SAny [SAll [ {| en_name := chars "path"; en_mods := []; en_value := VMany [DString (chars "x*"); DString (chars "y")] |} ]])];
     ru_rest := [(chars "filter", SAll [ {| en_name := chars "user"; en_mods := [MRe]; en_value := VOne (DString (chars "[a-z]")) |} ])];
     ru_condition := chars "1 of sel* and not  ( filter )" |}.
Definition sample_cond : chain := CMore (GAtom false (AGlob false (chars "sel"))) CAnd (COne (GParen true (COne (GAtom false (AName (chars "filter")))))).
(** The hypotheses can be met, and the expression is what is expected. *)
Example C67_example : rule_ok sample_rule /\
  (forall table, table_of sample_rule table -> table_ok table -> chain_text table sample_cond (ru_condition sample_rule)) /\
  exists e, parse_rule (rule_data sample_rule) = Rule e /\
    e = let f x op d := EPred {| p_lhs := OField (chars x); p_op := op; p_rhs := OVal d |} in
        EAnd [EOr [EAnd [f "proc"%string op_ni (DString (chars "a")); f "proc"%string op_ni (DString (chars "b")); f "id"%string op_eq (DCount 7)];
                   f "path"%string op_match (DPattern (chars "x.*")); f "path"%string op_eq (DString (chars "y"))];
              ENot (f "user"%string op_match (DPattern (chars "[a-z]")))].
Proof.
  split; [|split].
  - split; [|split].
    + cbn. intros [H|[]]; discriminate.
    + cbn. repeat constructor; cbn; intuition discriminate.
    + cbn [rule_searches sample_rule ru_searches ru_rest app].
      repeat (apply Forall_cons; [cbn [fst snd]; split; [discriminate|split; [reflexivity|split; [discriminate|] ] ]|]); [| | |constructor].
      * cbn [source_ok]. repeat constructor; cbn [en_name en_mods en_value value_list]; try discriminate; try (intros H; cbn in H; repeat (destruct H as [H|H]; [discriminate|]); exact H); try reflexivity;
          right; (split; [repeat (constructor; [left; reflexivity|]); constructor|reflexivity]).
      * cbn [source_ok]. split; [|exact I]. repeat constructor; cbn [en_name en_mods en_value value_list]; try discriminate; try (intros H; cbn in H; repeat (destruct H as [H|H]; [discriminate|]); exact H); try reflexivity;
          right; (split; [repeat (constructor; [first [left; reflexivity|right; reflexivity]|]); constructor|discriminate]).
      * cbn [source_ok]. repeat constructor; cbn [en_name en_mods en_value value_list]; try discriminate; try (intros H; cbn in H; repeat (destruct H as [H|H]; [discriminate|]); exact H); reflexivity.
  - intros table T OK. pose proof (fun k => table_known sample_rule table k T) as K.
    change (ru_condition sample_rule) with ((quant false ++ chars " " ++ chars "sel" ++ chars "*") ++ chars " " ++ op_word CAnd ++ chars " " ++ (not_word true (chars "  ") ++ chars "(" ++ chars " " ++ chars "filter" ++ chars " " ++ chars ")")).
    assert (names : forall k, known table k -> k = chars "sel_a" \/ k = chars "sel_b" \/ k = chars "filter").
    { intros k H. apply K in H. cbn [rule_searches sample_rule ru_searches ru_rest app map fst] in H. destruct H as [<-|[<-|[<-|[] ] ] ]; auto. }
    constructor; try reflexivity; try discriminate.
    + apply (gt_atom table false (AGlob false (chars "sel")) _ (chars " ")); try reflexivity; try discriminate. apply (at_glob table false (chars "sel") (chars " ")); try reflexivity; try discriminate. cbn [atom_ok]. split; [reflexivity|]. split; [|split].
      * intros (q & H). discriminate.
      * intros k H (q & E). destruct (names k H) as [->|[->| ->] ]; discriminate.
      * intros k H (l & q & E). destruct (names k H) as [->|[->| ->] ]; [exists (chars "_a"); reflexivity|exists (chars "_b"); reflexivity|]. exfalso.
        assert (Z : glob_search (chars "sel" ++ chars "*") (chars "filter") = true) by (apply glob_search_stem; [reflexivity|now exists l, q]). discriminate.
    + constructor. apply gt_paren; try reflexivity; try discriminate. constructor. apply (gt_atom table false (AName (chars "filter")) (chars "filter") (chars " ")); try reflexivity; try discriminate. constructor. cbn [atom_ok].
      split; [apply K; cbn; auto|]. split; [discriminate|]. split; [discriminate|]. intros (q & E). discriminate.
  - eexists. split; [vm_compute; reflexivity|reflexivity].
Qed.
(** A value with wildcards accepts some strings and not others. *)
Example C67_wildcards_example : glob_ok (chars "/tmp/*-?") /\ glob (chars "/tmp/*-?") (chars "/tmp/a-b") /\ make_pattern (chars "/tmp/*-?") = Some (chars "/tmp/.*-.").
Proof.
  split; [|split; [|reflexivity] ].
  - repeat (constructor; [first [left; reflexivity|right; reflexivity]|]). constructor.
  - repeat (apply gl_chr; [reflexivity|discriminate|]). apply gl_more, gl_none. apply gl_chr; [reflexivity|discriminate|]. apply gl_one. constructor.
Qed.
(** A condition with [or] and [and]. *)
Example C67_precedence_example : forall e1 e2 e3, exists c, chain_text [(chars "a", e1); (chars "b", e2); (chars "c", e3)] c (chars "a or b and not c") /\
  forall v, cond_value [(chars "a", e1); (chars "b", e2); (chars "c", e3)] v c = holds v e1 || (holds v e2 && negb (holds v e3)).
Proof.
  intros e1 e2 e3. exists (CMore (GAtom false (AName (chars "a"))) COr (CMore (GAtom false (AName (chars "b"))) CAnd (COne (GAtom true (AName (chars "c")))))). split.
  - assert (A : forall k, In k [chars "a"; chars "b"; chars "c"] -> atom_text [(chars "a", e1); (chars "b", e2); (chars "c", e3)] (AName k) k).
    { intros k H. constructor. cbn [atom_ok]. split; [exact H|]. destruct H as [<-|[<-|[<-|[] ] ] ]; (split; [discriminate|split; [discriminate|intros (q & E); discriminate] ]). }
    change (chars "a or b and not c") with ((not_word false (chars " ") ++ chars "a") ++ chars " " ++ op_word COr ++ chars " " ++ ((not_word false (chars " ") ++ chars "b") ++ chars " " ++ op_word CAnd ++ chars " " ++ (not_word true (chars " ") ++ chars "c"))).
    apply ct_more; try reflexivity; try discriminate; [apply gt_atom; [apply A; cbn; auto|reflexivity|discriminate]|].
    apply ct_more; try reflexivity; try discriminate; [apply gt_atom; [apply A; cbn; auto|reflexivity|discriminate]|].
    apply ct_one. apply gt_atom; [apply A; cbn; auto|reflexivity|discriminate].
  - intros v. cbn. rewrite !andb_true_r. destruct (holds v e1), (holds v e2), (holds v e3); reflexivity.
Qed.

(** ** What the code does otherwise *)

(** The predicate on field [f], and a rule with searches for a field of the name of the search. *)
Definition on (f : text) (n : N) : expr := EPred {| p_lhs := OField f; p_op := op_eq; p_rhs := OVal (DCount n) |}.
Definition plain_rule (names : list text) (cond : text) : rule :=
  {| ru_before := []; ru_after := []; ru_rest := []; ru_condition := cond;
     ru_searches := map (fun k => (k, SAll [ {| en_name := k; en_mods := []; en_value := VOne (DCount 1) |} ])) names |}.

(** A condition with a name that no search has is accepted, and holds for every event. *)
Theorem C67_unknown_refuted : exists k cond, cond <> k /\ exists e, parse_rule (rule_data (plain_rule [k] cond)) = Rule e /\ forall v, holds v e = true.
Proof. exists (chars "selection"), (chars "selektion"). split; [discriminate|]. eexists. split; [vm_compute; reflexivity|reflexivity]. Qed.
(** [1 of sel*] also refers to searches that have [sel] elsewhere in their name. *)
Theorem C67_stem_refuted : exists k1 k2 stem, ~ prefix stem k2 /\ exists e v, parse_rule (rule_data (plain_rule [k1; k2] (chars "1 of " ++ stem ++ chars "*"))) = Rule e /\
  holds v (on k1 1) = false /\ holds v e = true.
Proof.
  exists (chars "sel_a"), (chars "unsel"), (chars "sel"). split; [intros (q & E); discriminate|].
  eexists. exists (fun p => match p_lhs p with OField f => same f (chars "unsel") | _ => false end). split; [vm_compute; reflexivity|]. split; reflexivity.
Qed.
(** It is refused if one search has the stem as its name. *)
Theorem C67_own_stem_refuted : exists k1 k2, prefix k1 k2 /\ parse_rule (rule_data (plain_rule [k1; k2] (chars "1 of " ++ k1 ++ chars "*"))) = Err.
Proof. exists (chars "sel"), (chars "sel_b"). split; [exists (chars "_b"); reflexivity|vm_compute; reflexivity]. Qed.
(** Directly before a parenthesis, a star makes the parenthesis part of the pattern, and the
    construction of the regular expression throws. *)
Theorem C67_star_paren_refuted : exists k, parse_rule (rule_data (plain_rule [k] (chars "(1 of sel*)"))) = Undef /\
  exists e, parse_rule (rule_data (plain_rule [k] (chars "(1 of sel* )"))) = Rule e.
Proof. exists (chars "sel_a"). split; [vm_compute; reflexivity|]. eexists. vm_compute. reflexivity. Qed.
(** The name of a search that begins with [not] is taken for the negation of the searches whose
    name has the rest of it: the rule holds exactly for the events for which the search does not. *)
Theorem C67_not_refuted : exists k, exists e, parse_rule (rule_data (plain_rule [k] k)) = Rule e /\ forall v, holds v e = negb (holds v (on k 1)).
Proof. exists (chars "notepad"). eexists. split; [vm_compute; reflexivity|reflexivity]. Qed.
(** The expression of one field with one value. *)
Definition field_rule (key : text) (d : data) : outcome expr := parse_search_id (DRecord [(key, d)]).
(** A wildcard behind a backslash does not stand for itself: it repeats what is before it. *)
Theorem C67_escape_refuted : exists s rx t, field_rule (chars "f") (DString s) = Rule (EPred {| p_lhs := OField (chars "f"); p_op := op_match; p_rhs := OVal (DPattern rx) |}) /\
  rx_matches rx t /\ ~ glob s t.
Proof.
  exists (chars "a\*"), (chars "a*"), (chars "aa"). split; [vm_compute; reflexivity|]. split.
  - change (chars "a*") with (chr "a" :: chr "*" :: []). apply rm_more; [right; split; reflexivity|exact I|]. apply rm_more; [right; split; reflexivity|exact I|]. apply rm_none; [right; reflexivity|exact I|constructor].
  - intros H. inversion H; subst. match goal with X : glob _ _ |- _ => inversion X end.
Qed.
(** A dot beside a wildcard stands for any character. *)
Theorem C67_dot_refuted : exists s rx t, field_rule (chars "f") (DString s) = Rule (EPred {| p_lhs := OField (chars "f"); p_op := op_match; p_rhs := OVal (DPattern rx) |}) /\
  rx_matches rx t /\ ~ glob s t.
Proof.
  exists (chars "a.b?"), (chars "a.b."), (chars "axbx"). split; [vm_compute; reflexivity|]. split.
  - change (chars "a.b.") with [chr "a"; chr "."; chr "b"; chr "."]. change (chars "axbx") with [chr "a"; chr "x"; chr "b"; chr "x"].
    repeat (apply rm_one; [first [right; split; reflexivity|left; split; reflexivity]|first [exact I|reflexivity]|]). constructor.
  - intros H. inversion H; subst. match goal with X : glob (_ :: _) (_ :: _) |- _ => inversion X end.
Qed.
(** [startswith] and [endswith] say no more than [contains]. *)
Theorem C67_affix_refuted : forall name s, name <> [] -> ~ In (chr "|") name ->
  field_rule (name ++ chars "|startswith") (DString s) = field_rule (name ++ chars "|contains") (DString s) /\
  field_rule (name ++ chars "|endswith") (DString s) = field_rule (name ++ chars "|contains") (DString s).
Proof.
  intros name s NE NB. assert (K : forall m, In m [chars "startswith"; chars "endswith"; chars "contains"] -> split_bar [] (name ++ chr "|" :: m) = [name; m]).
  { intros m Hm. rewrite split_plain by exact NB. cbn [split_bar]. change (chr "|" =? chr "|") with true. cbv iota. rewrite app_nil_r, rev_involutive. f_equal.
    destruct Hm as [<-|[<-|[<-|[] ] ] ]; reflexivity. }
  assert (F : forall m, In m [chars "startswith"; chars "endswith"; chars "contains"] -> field_rule (name ++ chr "|" :: m) (DString s) = Rule (EPred (make_predicate name op_ni false (DString s)))).
  { intros m Hm. unfold field_rule. cbn [parse_search_id each]. unfold field_expr. cbn [fst snd]. rewrite (K m Hm). destruct Hm as [<-|[<-|[<-|[] ] ] ]; reflexivity. }
  assert (F1 := F (chars "startswith") (or_introl eq_refl)). assert (F2 := F (chars "endswith") (or_intror (or_introl eq_refl))). assert (F3 := F (chars "contains") (or_intror (or_intror (or_introl eq_refl)))).
  split; [exact (eq_trans F1 (eq_sym F3))|exact (eq_trans F2 (eq_sym F3))].
Qed.
(** [contains] says nothing if the value has a wildcard: the whole string has to match. *)
Theorem C67_contains_refuted : exists s, field_rule (chars "f|contains") (DString s) = field_rule (chars "f") (DString s) /\ existsb wild s = true.
Proof. exists (chars "a*b"). split; vm_compute; reflexivity. Qed.
(** A field without a name is undefined behaviour. *)
Theorem C67_no_name_refuted : exists d, field_rule [] d = Undef.
Proof. exists (DCount 1). reflexivity. Qed.

Definition assumptions_Sigma := (C67_re, C67_conditions, C67_searches, C67_wildcards, C67_rule_partial, C67_unknown_refuted, C67_stem_refuted, C67_own_stem_refuted, C67_star_paren_refuted, C67_not_refuted,
  C67_escape_refuted, C67_dot_refuted, C67_affix_refuted, C67_contains_refuted, C67_no_name_refuted).
Print Assumptions assumptions_Sigma.
