(** C56: queries mean what they say. *)
From Coq Require Import String Ascii List ZArith NArith Bool Arith Lia ZifyBool ZifyNat ZifyN.
From Coq Require Import Init.Datatypes.
From Verif Require Import OperatorModel EscapeModel AddressModel AddressProofs DataModel DataProofs TypeModel ExpressionModel LiteralModel LiteralProofs SyntaxModel TypeTextProofs SyntaxProofs.
Import ListNotations.
Open Scope N_scope.

(** [query] (SyntaxProofs.v) is a query as a user writes it: predicates and values, joined by
    [&&] and [||], put into parentheses and negated, to any depth; [chain_text] is its text.
    [query_ok] says which predicates and values it may have: the operands are meta extractors,
    names of fields ([field_ok]), types ([type_ok]) and values ([literal], as in C55).
    [chain_value] says when it holds, given the truth value [v] of each predicate. *)

(** Reading the text of a query gives an expression that holds exactly if the query does:
    [&&] binds more tightly than [||], parentheses group, [!] negates what stands next to it, a
    value stands for equality with something of its type, and a subnet also for an address in it. *)
Theorem C56_means : forall A x xs t n, query_ok x -> Forall (fun y => query_ok (snd y)) xs -> chain_text A x xs = Some t -> (length t < n)%nat ->
  exists e, query_p A (S n) t = Ok e [] /\
    forall v, holds v e = chain_value (query_value v x) (map (fun y => (fst y, query_value v (snd y))) xs).
Proof.
  intros A x xs t n OK OKs H L. eexists. split; [exact (chain_query A x xs t n OK OKs H L)|]. intros v. apply chain_holds.
Qed.

(** What is printed for an expression is read back as this expression. [printable] says which
    expressions these are: connectives have at least two operands, and a negation is not negated
    again. *)
Theorem C56_round_trip : forall A e t n, printable e -> show_expr A e = Some t -> (length t < n)%nat -> query_p A (S n) t = Ok e [].
Proof. exact expr_reads. Qed.

(** Different expressions are printed differently. *)
Theorem C56_different : forall A e f t, printable e -> printable f -> show_expr A e = Some t -> show_expr A f = Some t -> e = f.
Proof.
  intros A e f t P Q H K. pose proof (C56_round_trip A e t (S (length t)) P H (Nat.lt_succ_diag_r _)) as R. rewrite (C56_round_trip A f t (S (length t)) Q K (Nat.lt_succ_diag_r _)) in R. congruence.
Qed.

(** [x.y == 5 && (:string in ["a"] || ! #type == "z") || 10.0.0.0/8] *)
Definition zero_arith : arith := {| a_real := fun _ => 0; a_secs := fun _ => true; a_time := fun a b c d e f g => 0%Z; a_unix := fun _ => 0%Z; a_dur := fun _ u => u; a_now := 0%Z;
  a_pton := fun _ => None; a_ntop := fun _ => []; a_show_real := fun _ => []; a_show_dur := fun _ => []; a_show_time := fun _ => [] |}.
Definition pred_xy : predicate := {| p_lhs := OField (chars "x.y"); p_op := op_eq; p_rhs := OVal (DCount 5) |}.
Definition pred_str : predicate := {| p_lhs := OType (TBasic no_meta BString); p_op := op_in; p_rhs := OVal (DList [DString (chars "a")]) |}.
Definition pred_type : predicate := {| p_lhs := OMeta MType; p_op := op_eq; p_rhs := OVal (DString (chars "z")) |}.
Definition net10 : data := DSubnet (sn_make (v4_prefix ++ [10; 0; 0; 0]) 8).
Definition query_first : query := QPred false pred_xy.
Definition query_rest : list (connective * query) := [(CAnd, QParen false (QPred false pred_str) [(COr, QPred true pred_type)]); (COr, QVal false net10)].
Lemma xy_field : field_ok (chars "x.y").
Proof.
  split; [exists (chars "x"), [chars "y"]; split; [reflexivity|repeat constructor; discriminate]|]. split; [eexists _, _; split; reflexivity|].
  split; [cbn; intros H; repeat (destruct H as [H|H]; [discriminate H|]); destruct H|]. split; [reflexivity|]. intros c y H. discriminate.
Qed.
Lemma string_ok : operand_ok (OType (TBasic no_meta BString)).
Proof. repeat split; constructor. Qed.
Lemma query_xy_ok : query_ok query_first /\ Forall (fun y => query_ok (snd y)) query_rest.
Proof.
  split; [split; [exact xy_field|reflexivity]|]. constructor; [|constructor; [|constructor] ].
  - cbn [snd query_ok fold_right]. split; [split; [exact string_ok|cbn; auto]|]. split; [|exact Logic.I]. split; [exact Logic.I|reflexivity].
  - cbn [snd query_ok net10 literal]. split; [|reflexivity]. apply sn_make_wf. split; [reflexivity|]. repeat constructor.
Qed.
Example C56_means_example :
  (query_ok query_first /\ Forall (fun y => query_ok (snd y)) query_rest) /\
  chain_text zero_arith query_first query_rest = Some (chars "x.y == 5 && (:string in [""a""] || ! #type == ""z"") || 10.0.0.0/8") /\
  query_p zero_arith 80 (chars "x.y == 5 && (:string in [""a""] || ! #type == ""z"") || 10.0.0.0/8") =
    Ok (EOr [EAnd [EPred pred_xy; EOr [EPred pred_str; ENot (EPred pred_type)] ]; EOr [EPred (val_pred net10); EPred (addr_in net10)] ]) [].
Proof. split; [exact query_xy_ok|]. split; vm_compute; reflexivity. Qed.
Example C56_round_trip_example :
  let e := EOr [EAnd [EPred pred_xy; ENot (EOr [EPred pred_str; ENot (EPred pred_type)])]; EPred pred_type] in
  printable e /\ show_expr zero_arith e = Some (chars "((x.y == 5 && ! (:string in [""a""] || ! #type == ""z"")) || #type == ""z"")").
Proof.
  destruct query_xy_ok as [Q1 Q2]. inversion Q2 as [|? ? Q3 Q4]; subst. destruct Q3 as [Q5 [Q6 _] ]. cbn [query_ok query_first snd] in *.
  split; [|vm_compute; reflexivity]. cbn [printable fold_right length]. auto 14.
Qed.

(** A type that is made of others: [:record{a: list<int #skip>, b: foo} == nil]. *)
Example C56_type_example :
  let t := TRecord no_meta [(chars "a", TList no_meta (TBasic {| m_name := []; m_attrs := [(chars "skip", None)] |} BInteger)); (chars "b", named_none (chars "foo"))] in
  let p := EPred {| p_lhs := OType t; p_op := op_eq; p_rhs := OVal DNone |} in
  printable p /\ show_expr zero_arith p = Some (chars ":record{a: list<int #skip>, b: foo} == nil").
Proof.
  split; [|reflexivity]. split; [|exact Logic.I]. split; [|split; reflexivity]. cbn [readable ty_name ty_meta m_name no_meta readable_kind m_attrs fold_right snd fst map named_none].
  change (match chars "foo" with [] => False | n :: l => type_word (n :: l) /\ ~ In (n :: l) (map snd basics) end) with (type_word (chars "foo") /\ ~ In (chars "foo") (map snd basics)).
  repeat match goal with |- _ /\ _ => split | |- attrs_ok _ => split | |- NoDup _ => constructor | |- Forall _ _ => constructor | |- word _ => split | |- type_word _ => split | |- attr_ok _ => split end;
    try exact Logic.I; try reflexivity; try discriminate; intros H; cbn in H; repeat (destruct H as [H|H]; [discriminate H|]); exact H.
Qed.

(** ** What does not hold *)

(** The value of an attribute runs into the parenthesis behind it: what is printed for this
    conjunction is refused. *)
Theorem C56_attribute_refuted : forall A n, let t := TBasic {| m_name := []; m_attrs := [(chars "a", Some (chars "b"))] |} BInteger in
  let p := {| p_lhs := OMeta MType; p_op := op_eq; p_rhs := OType t |} in
  show_expr A (EAnd [EPred p; EPred p]) = Some (chars "(#type == :int #a=b && #type == :int #a=b)") /\
  query_p A (S (S (S (S (S n))))) (chars "(#type == :int #a=b && #type == :int #a=b)") = No /\
  query_p A (S (S (S (S (S n))))) (chars "#type == :int #a=b && #type == :int #a=b") = Ok (EAnd [EPred p; EPred p]) [].
Proof. intros A n. repeat split; reflexivity. Qed.

(** A negation of a negation is printed, and the text is refused. *)
Theorem C56_double_negation_refuted : forall A e t n, show_expr A e = Some t ->
  show_expr A (ENot (ENot e)) = Some (chars "! ! " ++ t) /\ query_p A (S n) (chars "! ! " ++ t) = No.
Proof. intros A e t n H. split; [cbn [show_expr]; rewrite H; reflexivity|reflexivity]. Qed.

(** A query of nothing is printed as [nil], which is read as a query for missing values. *)
Theorem C56_nothing_refuted : forall A n, show_expr A ENone = Some (chars "nil") /\
  query_p A (S n) (chars "nil") = Ok (EPred {| p_lhs := OType (TNone no_meta); p_op := op_eq; p_rhs := OVal DNone |}) [].
Proof. intros A n. split; reflexivity. Qed.

(** A connective with one operand is read as the operand. *)
Theorem C56_single_refuted : forall A e t n, printable e -> show_expr A e = Some t -> (length t < n)%nat ->
  show_expr A (EAnd [e]) = Some (chr "(" :: t ++ [chr ")"]) /\ query_p A (S (S (S n))) (chr "(" :: t ++ [chr ")"]) = Ok e [] /\ EAnd [e] <> e.
Proof.
  intros A e t n P H L. split; [cbn [show_expr map all_some]; rewrite H; cbn [option_map join_text flat_map]; now rewrite app_nil_r|]. split.
  - destruct (query_of A e P) as (q & Q1 & Q2 & Q3 & _). rewrite <- Q2. change (build q) with (build (QParen false q [])).
    apply (chain_query A (QParen false q []) [] (chr "(" :: t ++ [chr ")"]) (S (S n))); [split; [exact Q1|exact Logic.I]|constructor| |cbn [length]; rewrite app_length; cbn; lia].
    unfold chain_text. cbn [query_text map all_some bang app]. rewrite Q3, H. cbn [concat app]. now rewrite app_nil_r.
  - intros E. assert (SZ : forall x : expr, EAnd [x] <> x); [|exact (SZ e E)]. clear. fix IH 1. intros [|es|es|x|p] E; try discriminate. injection E as E. destruct es as [|y [|z es] ]; try discriminate. injection E as E. exact (IH y E).
Qed.

(** A field named [T] is printed like the value, and is read as the value. *)
Theorem C56_field_refuted : forall A n, let p x := {| p_lhs := x; p_op := op_eq; p_rhs := OVal (DCount 5) |} in
  show_expr A (EPred (p (OField (chars "T")))) = Some (chars "T == 5") /\ query_p A (S (S (S n))) (chars "T == 5") = Ok (EPred (p (OVal (DBool true)))) [].
Proof. intros A n. split; reflexivity. Qed.

(** A type is looked for behind a colon, and the search for it does not end if no word follows:
    the recursion exceeds every bound. Even the query [:] does this. *)
Lemma type_expr_loops : forall n s, stops identifier_char s -> type_expr_p n s = Bad.
Proof.
  induction n as [|n IH]; intros s S; [reflexivity|]. cbn [type_expr_p]. set (o := any_of _). assert (E : o s = Bad); [|unfold bind; rewrite E; reflexivity]. subst o.
  rewrite any_cons, alt_no. 2:{ unfold record_p. apply then_no, lit_no. destruct s as [|c s]; [exact Logic.I|]. cbn [stops] in *. destruct (N.eqb_spec (N_of_ascii "r") c); [subst; discriminate|reflexivity]. }
  rewrite any_cons, alt_no. 2:{ unfold placeholder_p. apply act_no. unfold identifier, plus. apply bind_no. destruct s as [|c s]; [reflexivity|]. cbn [stops sat] in *. now rewrite S. }
  unfold any_of, fold_right, alt. now rewrite IH.
Qed.
Lemma type_loops : forall n s, stops identifier_char s -> type_p n s = Bad.
Proof.
  intros [|n] s S; [reflexivity|]. cbn [type_p]. set (o := any_of _). assert (E : o s = Bad); [|unfold bind; rewrite E; reflexivity]. subst o. rewrite any_cons. unfold alt. now rewrite type_expr_loops.
Qed.
Lemma data_colon_other : forall A s, stops (N.eqb 58) s -> data_ A (58 :: s) = No.
Proof.
  intros A s H. unfold data_. cbn [data_p]. assert (CC : colons (58 :: s) = No).
  { destruct s as [|c s]; [reflexivity|]. change (colons (58 :: c :: s)) with (if 58 =? c then Ok tt s else No). cbn [stops] in H. now rewrite H. }
  assert (V : v6 (58 :: s) = No) by (apply v6_none; [exact CC|left; reflexivity]).
  assert (AD : addr_p A (58 :: s) = No) by (unfold addr_p; rewrite alt_no by reflexivity; now rewrite V).
  assert (T : time_p A (58 :: s) = No) by reflexivity.
  rewrite any_cons, alt_no by (now apply act_no). rewrite any_cons, alt_no by reflexivity.
  rewrite any_cons, alt_no by (apply act_no; unfold net_p; apply bind_no; now apply skip_no). rewrite any_cons, alt_no by (now apply act_no). reflexivity.
Qed.
Lemma operand_loops : forall A n s, stops (N.eqb 58) s -> type_p n s = Bad -> query_p A (S n) (58 :: s) = Bad.
Proof.
  intros A n s C T. assert (O : operand_p A n (58 :: s) = Bad).
  { unfold operand_p. rewrite any_cons, alt_no by (apply act_no, skip_no; now apply data_colon_other). rewrite any_cons, alt_no by reflexivity. rewrite any_cons, alt_no by reflexivity.
    rewrite any_cons. unfold alt. change (then_ (ch (chr ":")) (act OType (type_p n)) (58 :: s)) with (act OType (type_p n) s). unfold act, bind. now rewrite T. }
  unfold query_p. cbn [expr_p]. assert (G : group_p A n (expr_p A n) (58 :: s) = Bad); [|unfold bind at 1; now rewrite G].
  unfold group_p. rewrite any_cons, alt_no by reflexivity. rewrite any_cons, alt_no by reflexivity. rewrite any_cons, alt_no by reflexivity. rewrite any_cons.
  unfold pred_expr_p, alt, act, predicate_p, bind. now rewrite O.
Qed.
Theorem C56_missing_type_refuted : forall A n s, stops identifier_char s -> stops (N.eqb 58) s -> query_p A n (58 :: s) = Bad.
Proof. intros A [|n] s S C; [reflexivity|]. apply operand_loops; [exact C|now apply type_loops]. Qed.
Example C56_missing_type_example : stops identifier_char (chars " == 5") /\ stops (N.eqb 58) (chars " == 5") /\ stops identifier_char [] /\ stops (N.eqb 58) [].
Proof. repeat split. Qed.

(** The same happens when [+\]], which is an operator ([ni]), follows a type: the plus sign is
    taken for the type operator. *)
Theorem C56_ni_refuted : forall A n b t, In (chars "+]", op_ni) operations /\ query_p A n (58 :: basic_text b ++ chars " +] " ++ t) = Bad.
Proof.
  intros A n b t. split; [cbn; auto 20|]. destruct n as [|n]; [reflexivity|]. apply operand_loops; [destruct b; reflexivity|]. destruct n as [|[|n] ]; [reflexivity|reflexivity|].
  assert (E : type_expr_p (S n) (basic_text b ++ chars " +] " ++ t) = Bad).
  { cbn [type_expr_p]. set (o := any_of _). assert (E1 : o (basic_text b ++ chars " +] " ++ t) = Ok (named_none (basic_text b)) (chars " +] " ++ t)) by (destruct b; reflexivity).
    assert (E2 : o (chars "] " ++ t) = Bad).
    { subst o. rewrite any_cons, alt_no by reflexivity. rewrite any_cons, alt_no by reflexivity. unfold any_of, fold_right, alt. now rewrite type_expr_loops. }
    clearbody o. erewrite bind_ok; [|exact E1]. erewrite then_ok; [|change (chars " +] " ++ t) with (32 :: chars "+] " ++ t); apply skp_blank; reflexivity].
    unfold act, plus, bind at 1 2. erewrite then_ok; [|apply skp_stop; reflexivity]. unfold algebra_p. rewrite any_cons, alt_no by reflexivity. rewrite any_cons. unfold alt.
    change (chars "+] " ++ t) with (chr "+" :: chars "] " ++ t). rewrite (then_ok _ _ _ _ _ (ch_ok (chr "+") _)). erewrite then_ok; [|apply skp_stop; reflexivity].
    unfold act, bind. now rewrite E2. }
  change (S (S n)) with (S (S n)). cbn [type_p]. set (o := any_of _). assert (E1 : o (basic_text b ++ chars " +] " ++ t) = Bad); [|unfold bind; rewrite E1; reflexivity]. subst o.
  rewrite any_cons. unfold alt. now rewrite E.
Qed.

(** [:int <+5] is refused, because [<+] is taken for a type operator, although [:int < +5] is
    accepted. *)
Theorem C56_blank_refuted : forall A n, query_p A (S (S (S (S (S n))))) (chars ":int <+5") = No /\
  query_p A (S (S (S (S (S n))))) (chars ":int < +5") = Ok (EPred {| p_lhs := OType (TBasic no_meta BInteger); p_op := op_lt; p_rhs := OVal (DInt 5) |}) [].
Proof. intros A n. split; reflexivity. Qed.

Definition assumptions_syntax := (C56_means, C56_round_trip, C56_different, C56_double_negation_refuted, C56_nothing_refuted, C56_single_refuted, C56_field_refuted, C56_attribute_refuted,
  C56_missing_type_refuted, C56_ni_refuted, C56_blank_refuted).
Print Assumptions assumptions_syntax.
