(** Proofs about [SigmaModel]. *)
From Coq Require Import String Ascii List ZArith NArith Bool Arith Lia ZifyBool ZifyNat ZifyN.
From Coq Require Import Permutation.
From Coq Require Import Init.Datatypes.
From Verif Require Import OperatorModel EscapeModel AddressModel DataModel DataProofs TypeModel ExpressionModel ExpressionProofs LiteralModel LiteralProofs SyntaxModel SyntaxProofs SigmaModel.
Import ListNotations.
Open Scope N_scope.
Local Notation length := List.length.

(** * Conditions as they are written *)

(** What a condition refers to: a search, all of or one of the parts of a search, all or one of
    the searches, all or one of the searches whose name begins in some way. *)
Inductive atom := AName (k : text) | AOf (all : bool) (k : text) | AThem (all : bool) | AGlob (all : bool) (stem : text).
Inductive grp := GAtom (neg : bool) (a : atom) | GParen (neg : bool) (c : chain)
with chain := COne (g : grp) | CMore (g : grp) (op : connective) (c : chain).

Section Spec.
  Variable table : list (text * expr).

  (** The searches have names that are words and that differ. *)
  Definition table_ok : Prop := NoDup (map fst table) /\ Forall (fun x => fst x <> [] /\ forallb word (fst x) = true) table.
  (** [b] begins with [a]; [b] has [a] somewhere in it. *)
  Definition prefix (a b : text) : Prop := exists r, b = a ++ r.
  Definition within (a b : text) : Prop := exists l r, b = l ++ a ++ r.
  Definition known (k : text) : Prop := In k (map fst table).
  Definition atom_ok (a : atom) : Prop :=
    match a with
    | AName k => known k /\ k <> chars "all" /\ k <> chars "1" /\ ~ prefix (chars "not") k
    | AOf _ k => known k
    | AThem _ => forall k, known k -> ~ prefix k (chars "them")
    | AGlob _ stem => forallb word stem = true /\ ~ prefix (chars "them") stem /\ (forall k, known k -> ~ prefix k stem) /\ forall k, known k -> within stem k -> prefix stem k
    end.

  Definition spaces (w : text) : Prop := forallb isspace w = true.
  Definition quant (all : bool) : text := if all then chars "all of" else chars "1 of".
  Inductive atom_text : atom -> text -> Prop :=
  | at_name : forall k, atom_ok (AName k) -> atom_text (AName k) k
  | at_of : forall all k w, atom_ok (AOf all k) -> spaces w -> w <> [] -> atom_text (AOf all k) (quant all ++ w ++ k)
  | at_them : forall all w, atom_ok (AThem all) -> spaces w -> w <> [] -> atom_text (AThem all) (quant all ++ w ++ chars "them")
  | at_glob : forall all stem w, atom_ok (AGlob all stem) -> spaces w -> w <> [] -> atom_text (AGlob all stem) (quant all ++ w ++ stem ++ chars "*").
  (** Whether the text of a condition ends with a star. *)
  Definition atom_open (a : atom) : bool := match a with AGlob _ _ => true | _ => false end.
  Definition grp_open (g : grp) : bool := match g with GAtom _ a => atom_open a | _ => false end.
  Fixpoint chain_open (c : chain) : bool := match c with COne g => grp_open g | CMore _ _ c => chain_open c end.
  Definition op_word (op : connective) : text := match op with CAnd => chars "and" | COr => chars "or" end.
  Definition not_word (neg : bool) (w : text) : text := if neg then chars "not" ++ w else [].
  (** The texts of a condition, with white space between its words, and any between parentheses
      and what is in them; behind a star there is some. *)
  Inductive grp_text : grp -> text -> Prop :=
  | gt_atom : forall neg a t w, atom_text a t -> spaces w -> w <> [] -> grp_text (GAtom neg a) (not_word neg w ++ t)
  | gt_paren : forall neg c t w0 w w', chain_text c t -> spaces w0 -> spaces w -> spaces w' -> (chain_open c = true -> w' <> []) ->
      grp_text (GParen neg c) (not_word neg w0 ++ chars "(" ++ w ++ t ++ w' ++ chars ")")
  with chain_text : chain -> text -> Prop :=
  | ct_one : forall g t, grp_text g t -> chain_text (COne g) t
  | ct_more : forall g op c t u w w', grp_text g t -> chain_text c u -> spaces w -> w <> [] -> spaces w' -> w' <> [] ->
      chain_text (CMore g op c) (t ++ w ++ op_word op ++ w' ++ u).

  (** ** What a condition says, if [val] tells which predicates hold. *)
  Variable val : predicate -> bool.
  Definition quantify {A} (all : bool) (f : A -> bool) (xs : list A) : bool := if all then forallb f xs else existsb f xs.
  (** The search of a name; the parts of a search. *)
  Definition named (k : text) : list expr := map snd (filter (fun x => same (fst x) k) table).
  Definition parts (e : expr) : list expr := match e with EAnd es | EOr es => es | _ => [e] end.
  Definition atom_value (a : atom) : bool :=
    match a with
    | AName k => forallb (holds val) (named k)
    | AOf all k => forallb (fun e => quantify all (holds val) (parts e)) (named k)
    | AThem all => quantify all (fun x => holds val (snd x)) table
    | AGlob all stem => quantify all (fun x => holds val (snd x)) (filter (fun x => same (firstn (length stem) (fst x)) stem) table)
    end.
  Fixpoint grp_value (g : grp) : bool :=
    match g with
    | GAtom neg a => xorb neg (atom_value a)
    | GParen neg c => let '(x, xs) := chain_values c in xorb neg (chain_value x xs)
    end
  with chain_values (c : chain) : bool * list (connective * bool) :=
    match c with
    | COne g => (grp_value g, [])
    | CMore g op c => let '(x, xs) := chain_values c in (grp_value g, (op, x) :: xs)
    end.
  Definition cond_value (c : chain) : bool := let '(x, xs) := chain_values c in chain_value x xs.
End Spec.

Scheme grp_text_mind := Minimality for grp_text Sort Prop
  with chain_text_mind := Minimality for chain_text Sort Prop.
Combined Scheme text_ind from grp_text_mind, chain_text_mind.
Scheme grp_mind := Induction for grp Sort Prop
  with chain_mind := Induction for chain Sort Prop.
Combined Scheme syntax_ind from grp_mind, chain_mind.

(** * Characters *)

Definition nonword (s : text) : Prop := match s with [] => True | c :: _ => word c = false end.
Lemma same_iff : forall a b, same a b = true <-> a = b.
Proof. intros a b. unfold same. destruct (list_eq_dec N.eq_dec a b); split; intros; auto; discriminate. Qed.
Lemma starts_iff : forall k s, starts k s = true <-> prefix k s.
Proof.
  induction k as [|c k IH]; intros s; cbn [starts].
  - split; [|auto]. intros _. exists s. reflexivity.
  - destruct s as [|d s]; [split; [discriminate|intros (r & H); discriminate]|]. rewrite andb_true_iff, IH, N.eqb_eq. split.
    + intros (-> & r & ->). exists r. reflexivity.
    + intros (r & H). injection H as -> ->. split; [reflexivity|]. exists r. reflexivity.
Qed.
Lemma starts_word : forall k a r, forallb word k = true -> nonword r -> starts k (a ++ r) = starts k a.
Proof.
  induction k as [|c k IH]; intros a r W NW; [reflexivity|]. cbn [forallb] in W. apply andb_true_iff in W. destruct W as [W1 W2]. destruct a as [|d a]; cbn [app starts].
  - destruct r as [|d r]; [reflexivity|]. cbn in NW. destruct (c =? d) eqn:E; [|reflexivity]. apply N.eqb_eq in E. congruence.
  - now rewrite IH.
Qed.
Lemma lit_starts : forall l s, lit l s = if starts l s then Ok tt (skipn (length l) s) else No.
Proof.
  induction l as [|c l IH]; intros s; [reflexivity|]. destruct s as [|d s]; [reflexivity|]. cbn [lit starts length skipn]. destruct (c =? d); [|reflexivity]. cbn [andb]. apply IH.
Qed.
Lemma lit_word : forall l k r, forallb word l = true -> starts l k = false -> nonword r -> lit l (k ++ r) = No.
Proof. intros l k r W H NW. rewrite lit_starts, starts_word, H by assumption. reflexivity. Qed.
Lemma lit_phrase : forall a b k r, forallb word a = true -> forallb word k = true -> k <> a -> nonword r -> lit (a ++ 32 :: b) (k ++ r) = No.
Proof.
  induction a as [|c a IH]; intros b k r W V NE NW; cbn [app].
  - destruct k as [|d k]; [contradiction|]. cbn [forallb] in V. apply andb_true_iff in V. destruct V as [V _]. cbn [app lit]. destruct (32 =? d) eqn:E; [|reflexivity]. apply N.eqb_eq in E. subst d. discriminate.
  - cbn [forallb] in W. apply andb_true_iff in W. destruct W as [W1 W2]. destruct k as [|d k]; cbn [app].
    + destruct r as [|d r]; [reflexivity|]. cbn in NW. cbn [lit]. destruct (c =? d) eqn:E; [|reflexivity]. apply N.eqb_eq in E. congruence.
    + cbn [forallb] in V. apply andb_true_iff in V. destruct V as [V1 V2]. cbn [lit]. destruct (c =? d) eqn:E; [|reflexivity]. apply N.eqb_eq in E. subst d. apply IH; auto. congruence.
Qed.
Lemma word_space : forall c, word c = true -> isspace c = false.
Proof. intros c. unfold word, isspace. change (chr "_") with 95. change (chr "-") with 45. lia. Qed.
Lemma space_word : forall c, isspace c = true -> word c = false.
Proof. intros c H. destruct (word c) eqn:E; [|reflexivity]. apply word_space in E. congruence. Qed.
Lemma ws_spaces : forall w r, spaces w -> stops isspace r -> ws (w ++ r) = Ok tt r.
Proof.
  induction w as [|c w IH]; intros r H S; [now apply ws_stop|]. unfold spaces in H. cbn [forallb] in H. apply andb_true_iff in H. destruct H as [H1 H2].
  cbn [app]. rewrite ws_step, H1. now apply IH.
Qed.
Lemma word_stops : forall c k r, forallb word (c :: k) = true -> stops isspace ((c :: k) ++ r).
Proof. intros c k r H. cbn [forallb] in H. apply andb_true_iff in H. cbn [app stops]. now apply word_space. Qed.

(** * The table *)

Section Table.
  Variable table : list (text * expr).
  Hypothesis OK : table_ok table.

  Lemma known_word : forall k, known table k -> k <> [] /\ forallb word k = true.
  Proof. intros k H. apply in_map_iff in H. destruct H as (x & <- & H). destruct OK as [_ F]. rewrite Forall_forall in F. exact (F x H). Qed.
  Lemma longest_spec : forall xs best s,
    match best with Some (b, _) => starts b s = true | None => True end ->
    match longest best xs s with
    | Some (k, e) => (Some (k, e) = best \/ In (k, e) xs) /\ starts k s = true /\ (forall x, In x xs -> starts (fst x) s = true -> (length (fst x) <= length k)%nat) /\
                     match best with Some (b, _) => (length b <= length k)%nat | None => True end
    | None => best = None /\ forall x, In x xs -> starts (fst x) s = true -> fst x = []
    end.
  Proof.
    induction xs as [|[k e] xs IH]; intros best s B; cbn [longest].
    - destruct best as [ [b e]|]; [|split; [reflexivity|intros x []] ]. split; [now left|]. split; [exact B|]. split; [intros x []|lia].
    - set (best' := if starts k s && _ then Some (k, e) else best). specialize (IH best' s).
      assert (B' : match best' with Some (b, _) => starts b s = true | None => True end). { unfold best'. destruct (starts k s) eqn:E; cbn [andb]; [destruct (_ <? _)%nat|]; auto. }
      specialize (IH B'). destruct (longest best' xs s) as [ [k' e']|].
      + destruct IH as (I1 & I2 & I3 & I4). split; [|split; [exact I2|split] ].
        * unfold best' in I1. destruct (starts k s && _); destruct I1 as [I1|I1]; auto; [right; left; congruence|right; right; exact I1|right; right; exact I1].
        * intros x [<-|Hx] Sx; [|now apply I3]. cbn [fst] in *. unfold best' in I4. rewrite Sx in I4. cbn [andb] in I4. destruct best as [ [b eb]|].
          -- destruct (length b <? length k)%nat eqn:E; cbv iota beta in I4; lia.
          -- destruct (0 <? length k)%nat eqn:E; cbv iota beta in I4; lia.
        * destruct best as [ [b eb]|]; [|exact I]. unfold best' in I4. destruct (starts k s); cbn [andb] in I4; [|exact I4]. destruct (length b <? length k)%nat eqn:E; lia.
      + destruct IH as (I1 & I2). unfold best' in I1. destruct (starts k s) eqn:Sk; cbn [andb] in I1.
        * destruct best as [ [b eb]|]; [destruct (length b <? length k)%nat; discriminate|]. destruct (0 <? length k)%nat eqn:E; [discriminate|]. split; [reflexivity|].
          intros x [<-|Hx] Sx; [|now apply I2]. cbn [fst]. destruct k; [reflexivity|cbn in E; discriminate].
        * split; [exact I1|]. intros x [<-|Hx] Sx; [cbn [fst] in Sx; congruence|now apply I2].
  Qed.
  Lemma table_full : existsb (fun x : text * expr => match fst x with [] => true | _ => false end) table = false.
  Proof.
    destruct (existsb _ table) eqn:E; [|reflexivity]. apply existsb_exists in E. destruct E as (x & Hx & E). destruct OK as [_ F]. rewrite Forall_forall in F. destruct (F x Hx) as [F1 _]. destruct (fst x); [contradiction|discriminate].
  Qed.
  Lemma in_table : forall k e e', In (k, e) table -> In (k, e') table -> e = e'.
  Proof.
    destruct OK as [ND _]. clear OK. induction table as [|[x y] l IH]; intros k e e' H H'; [destruct H|]. cbn [map] in ND. inversion ND as [|? ? N1 N2]; subst.
    destruct H as [H|H], H' as [H'|H']; [congruence|injection H as -> ->|injection H' as -> ->|eapply IH; eauto]; exfalso; apply N1; apply in_map_iff; eexists; (split; [|eassumption]); reflexivity.
  Qed.
  Lemma named_one : forall k e, In (k, e) table -> named table k = [e].
  Proof.
    destruct OK as [ND _]. clear OK. unfold named. induction table as [|[x y] l IH]; intros k e H; [destruct H|]. cbn [map fst] in ND. inversion ND as [|? ? N1 N2]; subst. cbn [filter fst].
    assert (Absent : forall j, ~ In j (map fst l) -> filter (fun z : text * expr => same (fst z) j) l = []).
    { intros j Hj. clear - Hj. induction l as [|z l IH]; [reflexivity|]. cbn [filter map] in *. destruct (same (fst z) j) eqn:E; [apply same_iff in E; exfalso; apply Hj; now left|]. apply IH. intros H. apply Hj. now right. }
    destruct H as [H|H].
    - injection H as -> ->. rewrite (proj2 (same_iff k k) eq_refl). rewrite (Absent k N1). reflexivity.
    - destruct (same x k) eqn:E; [|now apply IH]. apply same_iff in E. subst x. exfalso. apply N1. apply in_map_iff. exists (k, e). auto.
  Qed.
  Lemma id_reads : forall k e r, In (k, e) table -> nonword r -> id_p table (k ++ r) = Ok e r.
  Proof.
    intros k e r H NW. unfold id_p. rewrite table_full. pose proof (longest_spec table None (k ++ r) I) as L.
    assert (Sk : starts k (k ++ r) = true) by (apply starts_iff; now exists r).
    assert (Kk : known table k) by (apply in_map_iff; exists (k, e); auto). destruct (known_word k Kk) as [NE W].
    destruct (longest None table (k ++ r)) as [ [k' e']|].
    - destruct L as ([L1|L1] & L2 & L3 & _); [discriminate|]. specialize (L3 (k, e) H Sk). cbn [fst] in L3.
      assert (Kk' : known table k') by (apply in_map_iff; exists (k', e'); auto). destruct (known_word k' Kk') as [NE' W'].
      rewrite starts_word in L2 by assumption. apply starts_iff in L2. destruct L2 as (q & ->). rewrite app_length in L3.
      assert (q = []) as -> by (destruct q; [reflexivity|cbn [length] in L3; lia]). rewrite app_nil_r in *. rewrite (in_table k' e e' H L1). now rewrite skipn_app, Nat.sub_diag, skipn_all.
    - destruct L as (_ & L). specialize (L (k, e) H Sk). contradiction.
  Qed.
  Lemma id_none : forall s, (forall k, known table k -> ~ prefix k s) -> id_p table s = No.
  Proof.
    intros s H. unfold id_p. rewrite table_full. pose proof (longest_spec table None s I) as L. destruct (longest None table s) as [ [k e]|]; [|reflexivity].
    destruct L as ([L1|L1] & L2 & _); [discriminate|]. exfalso. apply (H k); [apply in_map_iff; exists (k, e); auto|]. now apply starts_iff.
  Qed.

  (** ** Patterns *)

  Lemma glob_at_stem : forall stem s, forallb word stem = true -> glob_at (stem ++ chars "*") s = starts stem s.
  Proof.
    induction stem as [|c stem IH]; intros s W.
    - cbn [app glob_at starts]. change (chars "*") with [42]. cbn [glob_at]. change (42 =? chr "*") with true. cbv iota. destruct s; reflexivity.
    - cbn [forallb] in W. apply andb_true_iff in W. destruct W as [W1 W2]. cbn [app glob_at]. destruct (c =? chr "*") eqn:E; [apply N.eqb_eq in E; subst c; discriminate|].
      cbn [starts]. destruct s as [|d s]; [reflexivity|]. now rewrite IH.
  Qed.
  Lemma glob_search_stem : forall stem s, forallb word stem = true -> glob_search (stem ++ chars "*") s = true <-> within stem s.
  Proof.
    intros stem s W. induction s as [|c s IH]; cbn [glob_search]; rewrite glob_at_stem by exact W.
    - rewrite orb_false_r, starts_iff. split; [intros (r & H); exists [], r; exact H|]. intros (l & r & H). destruct l; [now exists r|discriminate].
    - rewrite orb_true_iff, starts_iff, IH. split.
      + intros [(r & H)|(l & r & ->)]; [now exists [], r|now exists (c :: l), r].
      + intros (l & r & H). destruct l as [|d l]; [left; now exists r|]. right. injection H as -> ->. now exists l, r.
  Qed.
  Lemma same_prefix : forall stem k, same (firstn (length stem) k) stem = true <-> prefix stem k.
  Proof.
    intros stem k. rewrite same_iff. split.
    - intros E. exists (skipn (length stem) k). rewrite <- E at 1. symmetry. apply firstn_skipn.
    - intros (r & ->). rewrite firstn_app, Nat.sub_diag, firstn_all. cbn [firstn]. apply app_nil_r.
  Qed.

  Definition all_exprs : list expr := map snd table.
  Definition stem_exprs (stem : text) : list expr := map snd (filter (fun x => same (firstn (length stem) (fst x)) stem) table).
  Lemma search_all : forall r, search table (chars "*") r = Ok all_exprs r.
  Proof.
    intros r. unfold search. change (forallb _ (chars "*")) with true. cbv iota. f_equal. unfold all_exprs. f_equal.
    erewrite filter_ext; [|intros x; instantiate (1 := fun _ => true); apply (glob_search_stem [] (fst x) eq_refl); exists [], (fst x); reflexivity].
    clear OK. induction table as [|x l IH]; [reflexivity|]. cbn [filter]. now rewrite IH.
  Qed.
  Lemma search_stem : forall stem r, atom_ok table (AGlob true stem) -> search table (stem ++ chars "*") r = Ok (stem_exprs stem) r.
  Proof.
    intros stem r (W & _ & _ & H). unfold search.
    assert (F : forallb (fun c => word c || (c =? chr "*")) (stem ++ chars "*") = true).
    { rewrite forallb_app, andb_true_iff. split; [|reflexivity]. rewrite forallb_forall in W |- *. intros c Hc. now rewrite (W c Hc). }
    rewrite F. f_equal. unfold stem_exprs. f_equal. apply filter_ext_in. intros x Hx. apply eq_true_iff_eq. rewrite glob_search_stem, same_prefix by exact W. split.
    - apply H. apply in_map_iff. exists x. auto.
    - intros (q & E). exists [], q. exact E.
  Qed.

  (** ** References *)

  Definition quant_join (all : bool) (xs : list expr) : expr := if all then join_all xs else join_any xs.
  Definition quant_force (all : bool) (e : expr) : expr := if all then force_all e else force_any e.
  Definition get (k : text) : expr := hd ENone (named table k).
  Definition atom_expr (a : atom) : expr :=
    match a with
    | AName k => get k
    | AOf all k => quant_force all (get k)
    | AThem all => quant_join all all_exprs
    | AGlob all stem => quant_join all (stem_exprs stem)
    end.
  Lemma known_get : forall k, known table k -> In (k, get k) table.
  Proof. intros k H. apply in_map_iff in H. destruct H as ([x e] & E & H). cbn [fst] in E. subst x. unfold get. rewrite (named_one k e H). exact H. Qed.

  Lemma quantify_join : forall v all xs, holds v (quant_join all xs) = quantify all (holds v) xs.
  Proof. intros v [] xs; cbn [quant_join quantify]; unfold join_all, join_any; rewrite hoist_holds; reflexivity. Qed.
  Lemma quantify_map : forall {A B} all (f : B -> bool) (g : A -> B) xs, quantify all f (map g xs) = quantify all (fun x => f (g x)) xs.
  Proof. intros A B [] f g xs; cbn [quantify]; [induction xs as [|x xs IH]|induction xs as [|x xs IH]]; cbn [map forallb existsb]; congruence. Qed.
  Lemma quantify_one : forall {A} all (f : A -> bool) x, quantify all f [x] = f x.
  Proof. intros A [] f x; cbn [quantify forallb existsb]; [apply andb_true_r|apply orb_false_r]. Qed.
  Lemma force_value : forall v all e, (match e with ENone => False | _ => True end) -> holds v (quant_force all e) = quantify all (holds v) (parts e).
  Proof. intros v [] [|es|es|e|p] H; try contradiction; cbn [quant_force force_all force_any parts]; try reflexivity; now rewrite quantify_one. Qed.
  Lemma atom_holds : forall v a, atom_ok table a -> holds v (atom_expr a) = atom_value table v a.
  Proof.
    intros v a H. destruct a as [k|all k|all|all stem]; cbn [atom_expr atom_value].
    - destruct H as (H & _). rewrite (named_one k _ (known_get k H)). cbn [forallb]. now rewrite andb_true_r.
    - rewrite (named_one k _ (known_get k H)). cbn [forallb]. rewrite andb_true_r. destruct (get k) eqn:E; try (apply force_value; exact I). destruct all; reflexivity.
    - rewrite quantify_join. unfold all_exprs. apply quantify_map.
    - rewrite quantify_join. unfold stem_exprs. apply quantify_map.
  Qed.

  (** What may follow a reference. *)
  Definition atom_follow (a : atom) (r : text) : Prop := match r with [] => True | c :: _ => isspace c = true \/ (atom_open a = false /\ c = chr ")") end.
  Lemma follow_nonword : forall a r, atom_follow a r -> nonword r.
  Proof. intros a [|c r] H; [exact I|]. cbn in *. destruct H as [H|[_ ->] ]; [now apply space_word|reflexivity]. Qed.
  Lemma quant_lit : forall all s, lit (quant all) (quant all ++ s) = Ok tt s.
  Proof. intros. apply lit_ok. Qed.
  Lemma quant_other : forall all s, lit (quant (negb all)) (quant all ++ s) = No.
  Proof. intros [] s; reflexivity. Qed.
  Lemma search_id_quant : forall all w s, spaces w -> stops isspace s ->
    search_id_p table (quant all ++ w ++ s) =
    match id_p table s with
    | No => match selection_p table s with
            | Ok xs r => Ok (quant_join all xs) r
            | No => alt (id_p table) (act join_all (selection_p table)) (quant all ++ w ++ s)
            | Bad => Bad
            end
    | Ok e r => Ok (quant_force all e) r
    | Bad => Bad
    end.
  Proof.
    intros all w s W S. pose proof (ws_spaces w s W S) as E. unfold search_id_p, any_of. cbn [fold_right]. unfold alt at 1 2 3 4. unfold then_ at 1 3 5 7. unfold bind at 1 2 3 4.
    destruct all; cbn [quant].
    - change (chars "1 of") with (quant (negb true)). change (chars "all of") with (quant true) at 1 3 5. rewrite !quant_other.
      change (lit (chars "all of") (quant true ++ w ++ s)) with (lit (quant true) (quant true ++ w ++ s)). rewrite !quant_lit. rewrite !(then_ok _ _ _ _ _ E). unfold act at 1 2, bind at 1 2.
      destruct (id_p table s) as [e r| |]; try reflexivity. destruct (selection_p table s) as [xs r| |]; reflexivity.
    - change (chars "all of") with (quant (negb false)). change (chars "1 of") with (quant false). rewrite !quant_other, !quant_lit. rewrite !(then_ok _ _ _ _ _ E). unfold act at 1 2, bind at 1 2.
      destruct (id_p table s) as [e r| |]; try reflexivity. destruct (selection_p table s) as [xs r| |]; reflexivity.
  Qed.
  Lemma atom_reads : forall a t r, atom_text table a t -> atom_follow a r -> search_id_p table (t ++ r) = Ok (atom_expr a) r.
  Proof.
    intros a t r H F. pose proof (follow_nonword a r F) as NW. destruct H as [k (K & N1 & N2 & N3)|all k w K W NE|all w K W NE|all stem w K W NE]; cbn [atom_expr]; rewrite <- ?app_assoc.
    - destruct (known_word k K) as [KN KW]. unfold search_id_p.
      assert (A1 : lit (chars "all of") (k ++ r) = No) by (apply (lit_phrase (chars "all") (chars "of")); auto).
      assert (A2 : lit (chars "1 of") (k ++ r) = No) by (apply (lit_phrase (chars "1") (chars "of")); auto).
      rewrite any_cons, alt_no by (apply then_no; exact A1). rewrite any_cons, alt_no by (apply then_no; exact A2). rewrite any_cons, alt_no by (apply then_no; exact A1). rewrite any_cons, alt_no by (apply then_no; exact A2).
      rewrite any_cons. apply alt_ok. apply id_reads; [now apply known_get|exact NW].
    - destruct (known_word k K) as [KN KW]. rewrite search_id_quant; [|exact W|destruct k; [contradiction|now apply word_stops] ]. rewrite (id_reads k _ r (known_get k K) NW). reflexivity.
    - rewrite search_id_quant; [|exact W|reflexivity]. rewrite id_none.
      + unfold selection_p. erewrite alt_ok; [reflexivity|]. erewrite then_ok; [apply search_all|apply lit_ok].
      + intros k Kk P. apply starts_iff in P. destruct (known_word k Kk) as [_ KW]. rewrite starts_word in P by assumption. apply starts_iff in P. exact (K k Kk P).
    - destruct K as (SW & ST & SP & SH). assert (NWS : nonword (chars "*" ++ r)) by reflexivity.
      assert (HS : stops isspace (stem ++ chars "*" ++ r)) by (destruct stem; [reflexivity|now apply word_stops]).
      rewrite search_id_quant by assumption. rewrite id_none.
      + unfold selection_p. rewrite alt_no.
        2:{ apply then_no. apply lit_word; [reflexivity| |exact NWS]. destruct (starts (chars "them") stem) eqn:E; [|reflexivity]. apply starts_iff in E. contradiction. }
        assert (P : pattern_p (stem ++ chars "*" ++ r) = Ok (stem ++ chars "*") r).
        { unfold pattern_p. rewrite app_assoc. assert (FB : forallb (fun c => negb (isspace c)) (stem ++ chars "*") = true).
          { rewrite forallb_app, andb_true_iff. split; [|reflexivity]. rewrite forallb_forall in SW |- *. intros c Hc. now rewrite (word_space c (SW c Hc)). }
          destruct (stem ++ chars "*") as [|c u] eqn:E; [destruct stem; discriminate|]. apply plus_sat; [exact FB|]. destruct r as [|c' r]; [exact I|]. cbn in F |- *. destruct F as [F|[F _] ]; [now rewrite F|discriminate]. }
        erewrite bind_ok; [|exact P]. rewrite search_stem; [reflexivity|]. repeat split; assumption.
      + intros k Kk Pk. apply starts_iff in Pk. destruct (known_word k Kk) as [_ KW]. rewrite starts_word in Pk by assumption. apply starts_iff in Pk. exact (SP k Kk Pk).
  Qed.

  (** ** Groups and chains *)

  Definition signed_e (neg : bool) (e : expr) : expr := if neg then ENot e else e.
  Fixpoint grp_expr (g : grp) : expr :=
    match g with
    | GAtom neg a => signed_e neg (atom_expr a)
    | GParen neg c => let '(x, xs) := chain_exprs c in signed_e neg (to_expr x xs)
    end
  with chain_exprs (c : chain) : expr * list (connective * expr) :=
    match c with
    | COne g => (grp_expr g, [])
    | CMore g op c => let '(x, xs) := chain_exprs c in (grp_expr g, (op, x) :: xs)
    end.
  Definition cond_expr (c : chain) : expr := let '(x, xs) := chain_exprs c in to_expr x xs.

  Definition grp_follow (g : grp) (r : text) : Prop := match r with [] => True | c :: _ => isspace c = true \/ (grp_open g = false /\ c = chr ")") end.
  Lemma atom_starts : forall a t, atom_text table a t -> exists c u, t = c :: u /\ isspace c = false /\ c <> chr "(".
  Proof.
    intros a t H. destruct H as [k (K & _)|all k w K W NE|all w K W NE|all stem w K W NE].
    - destruct (known_word k K) as [KN KW]. destruct k as [|c k]; [contradiction|]. cbn [forallb] in KW. apply andb_true_iff in KW. destruct KW as [KW _]. exists c, k. split; [reflexivity|]. split; [now apply word_space|]. intros ->. discriminate.
    - destruct all; cbn; eexists _, _; (split; [reflexivity|split; [reflexivity|discriminate] ]).
    - destruct all; cbn; eexists _, _; (split; [reflexivity|split; [reflexivity|discriminate] ]).
    - destruct all; cbn; eexists _, _; (split; [reflexivity|split; [reflexivity|discriminate] ]).
  Qed.
  Lemma atom_not : forall a t r, atom_text table a t -> atom_follow a r -> lit (chars "not") (t ++ r) = No.
  Proof.
    intros a t r H F. pose proof (follow_nonword a r F) as NW. destruct H as [k (K & _ & _ & N)|all k w K W NE|all w K W NE|all stem w K W NE]; try (destruct all; reflexivity).
    apply lit_word; [reflexivity| |exact NW]. destruct (starts (chars "not") k) eqn:E; [|reflexivity]. apply starts_iff in E. contradiction.
  Qed.
  Lemma text_starts : (forall g t, grp_text table g t -> exists c u, t = c :: u /\ isspace c = false) /\ (forall c t, chain_text table c t -> exists d u, t = d :: u /\ isspace d = false).
  Proof.
    apply text_ind.
    - intros neg a t w H W NE. destruct neg; cbn [not_word]; [eexists _, _; split; reflexivity|]. destruct (atom_starts a t H) as (c & u & -> & E & _). now exists c, u.
    - intros neg c t w0 w w' _ _ W0 W W' O. destruct neg; cbn [not_word]; eexists _, _; split; reflexivity.
    - auto.
    - intros g op c t u w w' _ (d & r & -> & E) _ _ _ _ _ _. eexists _, _. split; [reflexivity|exact E].
  Qed.

  Definition tail_p (n : nat) : parser (connective * expr) := then_ ws (bind s_and_or_p (fun c => then_ ws (act (pair c) (s_group_p table (s_expr_p table n))))).
  Definition ends_cond (r : text) : Prop := r = [] \/ exists q, r = chr ")" :: q.
  Lemma tail_end : forall n w r, spaces w -> ends_cond r -> tail_p n (w ++ r) = No.
  Proof.
    intros n w r W E. unfold tail_p. erewrite then_ok; [|apply ws_spaces; [exact W|destruct E as [->|(q & ->)]; reflexivity] ]. apply bind_no. destruct E as [->|(q & ->)]; reflexivity.
  Qed.
  Lemma spaces_head : forall w r, spaces w -> w <> [] -> exists c u, w ++ r = c :: u /\ isspace c = true.
  Proof. intros [|c w] r W NE; [contradiction|]. unfold spaces in W. cbn [forallb] in W. apply andb_true_iff in W. exists c, (w ++ r). split; [reflexivity|apply W]. Qed.

  Lemma conditions_read :
    (forall g t, grp_text table g t -> forall n r, (length t <= n)%nat -> grp_follow g r -> s_group_p table (s_expr_p table n) (t ++ r) = Ok (grp_expr g) r) /\
    (forall c t, chain_text table c t -> forall n r w, (length t <= n)%nat -> spaces w -> ends_cond r -> (chain_open c = true -> w <> [] \/ r = []) ->
       exists s', s_group_p table (s_expr_p table n) (t ++ w ++ r) = Ok (fst (chain_exprs c)) s' /\ (length s' <= length (t ++ w ++ r))%nat /\ steps (tail_p n) s' (snd (chain_exprs c)) (w ++ r)).
  Proof.
    assert (Paren : forall c t w w' n r,
      (forall n r w, (length t <= n)%nat -> spaces w -> ends_cond r -> (chain_open c = true -> w <> [] \/ r = []) ->
         exists s', s_group_p table (s_expr_p table n) (t ++ w ++ r) = Ok (fst (chain_exprs c)) s' /\ (length s' <= length (t ++ w ++ r))%nat /\ steps (tail_p n) s' (snd (chain_exprs c)) (w ++ r)) ->
      chain_text table c t -> spaces w -> spaces w' -> (chain_open c = true -> w' <> []) -> (length t < n)%nat ->
      ws (w ++ t ++ w' ++ chars ")" ++ r) = Ok tt (t ++ w' ++ chars ")" ++ r) /\ s_expr_p table n (t ++ w' ++ chars ")" ++ r) = Ok (cond_expr c) (chars ")" ++ r)).
    { intros c t w w' n r IH HT W W' O L. split.
      - apply ws_spaces; [exact W|]. destruct (proj2 text_starts c t HT) as (d & u & -> & E). exact E.
      - destruct n as [|n]; [lia|]. assert (Ln : (length t <= n)%nat) by lia.
        assert (EC : ends_cond (chars ")" ++ r)) by (right; now exists r).
        destruct (IH n (chars ")" ++ r) w' Ln W' EC) as (s' & G & _ & ST); [intros Ho; left; now apply O|].
        cbn [s_expr_p]. erewrite bind_ok; [|exact G]. erewrite bind_ok; [|apply steps_kleene; exact ST]. erewrite then_ok; [|apply ws_spaces; [exact W'|reflexivity] ].
        unfold ret, cond_expr. destruct (chain_exprs c). reflexivity. }
    apply text_ind.
    - intros neg a t w H W NE n r L F. assert (AF : atom_follow a r) by exact F. pose proof (atom_reads a t r H AF) as R. destruct (atom_starts a t H) as (c & u & Et & SP & NP).
      assert (CH : forall s, ch (chr "(") (t ++ s) = No) by (intros s; rewrite Et; apply ch_no; cbn [app stops]; apply N.eqb_neq; congruence).
      unfold s_group_p. cbn [grp_expr]. destruct neg; cbn [not_word signed_e].
      + rewrite any_cons, alt_no by reflexivity. rewrite <- !app_assoc. rewrite any_cons, alt_no.
        2:{ erewrite then_ok; [|apply lit_ok]. erewrite then_ok; [|apply ws_spaces; [exact W|rewrite Et; exact SP] ]. apply then_no. apply CH. }
        rewrite any_cons. apply alt_ok. erewrite then_ok; [|apply lit_ok]. erewrite then_ok; [|apply ws_spaces; [exact W|rewrite Et; exact SP] ]. erewrite act_ok; [reflexivity|exact R].
      + cbn [app]. rewrite any_cons, alt_no by (apply then_no; apply CH). rewrite any_cons, alt_no by (apply then_no; eapply atom_not; eassumption). rewrite any_cons, alt_no by (apply then_no; eapply atom_not; eassumption). rewrite any_cons. apply alt_ok. exact R.
    - intros neg c t w0 w w' HT IH W0 W W' O n r L F. rewrite !app_length in L. assert (Ln : (length t < n)%nat) by (change (length (chars "(")) with 1%nat in L; lia).
      destruct (Paren c t w w' n r IH HT W W' O Ln) as [P1 P2].
      assert (P3 : forall f : expr -> expr, then_ (ch (chr "(")) (then_ ws (bind (s_expr_p table n) (fun x => then_ ws (then_ (ch (chr ")")) (ret (f x)))))) (chars "(" ++ w ++ t ++ w' ++ chars ")" ++ r) = Ok (f (cond_expr c)) r).
      { intros f. erewrite then_ok; [|apply ch_ok]. erewrite then_ok; [|exact P1]. erewrite bind_ok; [|exact P2]. reflexivity. }
      unfold s_group_p. cbn [grp_expr]. replace (let '(x, xs) := chain_exprs c in signed_e neg (to_expr x xs)) with (signed_e neg (cond_expr c)) by (unfold cond_expr; destruct (chain_exprs c); reflexivity).
      destruct neg; cbn [not_word signed_e]; rewrite <- !app_assoc.
      + rewrite any_cons, alt_no by reflexivity. rewrite any_cons. apply alt_ok. erewrite then_ok; [|apply lit_ok]. erewrite then_ok; [|apply ws_spaces; [exact W0|reflexivity] ]. apply (P3 ENot).
      + cbn [app]. rewrite any_cons. apply alt_ok. apply (P3 (fun x => x)).
    - intros g t HT IH n r w L W E O. cbn [chain_exprs fst snd]. exists (w ++ r). split; [|split; [rewrite !app_length; lia|apply steps_nil; now apply tail_end] ].
      apply IH; [exact L|]. unfold grp_follow. cbn [chain_open] in O. destruct w as [|c w].
      + cbn [app]. destruct r as [|c r]; [exact I|]. right. split; [|destruct E as [E|(q & E)]; [discriminate|now injection E as -> _] ]. destruct (grp_open g); [|reflexivity]. destruct (O eq_refl) as [X|X]; [contradiction|discriminate].
      + left. unfold spaces in W. cbn [forallb] in W. apply andb_true_iff in W. apply W.
    - intros g op c t u w w' HT IH HC IHc W NE W' NE' n r w1 L W1 E O. rewrite !app_length in L. assert (Lt : (length t <= n)%nat) by lia. assert (Lu : (length u <= n)%nat) by lia.
      destruct (IHc n r w1 Lu W1 E O) as (s' & G & Ls & ST). cbn [chain_exprs]. destruct (chain_exprs c) as [x xs] eqn:EC. cbn [fst snd] in *.
      exists (w ++ op_word op ++ w' ++ u ++ w1 ++ r). rewrite <- !app_assoc. split; [|split].
      + apply IH; [exact Lt|]. destruct (spaces_head w (op_word op ++ w' ++ u ++ w1 ++ r) W NE) as (d & q & -> & D). now left.
      + rewrite !app_length. lia.
      + apply steps_cons with (s' := s'); [| |exact ST].
        * unfold tail_p. erewrite then_ok; [|apply ws_spaces; [exact W|destruct op; reflexivity] ].
          assert (A : s_and_or_p (op_word op ++ w' ++ u ++ w1 ++ r) = Ok op (w' ++ u ++ w1 ++ r)) by (destruct op; reflexivity). erewrite bind_ok; [|exact A].
          erewrite then_ok; [|apply ws_spaces; [exact W'|destruct (proj2 text_starts c u HC) as (d & q & -> & D); exact D] ]. erewrite act_ok; [reflexivity|exact G].
        * rewrite !app_length in *. destruct op; cbn [op_word chars length]; lia.
  Qed.
  Theorem condition_reads : forall c t w0 w, chain_text table c t -> spaces w -> w0 = [] -> condition_expr table (w0 ++ t ++ w) = Rule (cond_expr c).
  Proof.
    intros c t w0 w H W ->. cbn [app]. unfold condition_expr. set (n := length (t ++ w)). assert (L : (length t <= n)%nat) by (unfold n; rewrite app_length; lia).
    destruct (proj2 conditions_read c t H n [] w L W (or_introl eq_refl) (fun _ => or_intror eq_refl)) as (s' & G & _ & ST). rewrite app_nil_r in *.
    cbn [s_expr_p]. erewrite bind_ok; [|exact G]. erewrite bind_ok; [|apply steps_kleene; exact ST]. erewrite then_ok; [|rewrite <- (app_nil_r w); apply ws_spaces; [exact W|exact I] ].
    unfold ret, cond_expr. destruct (chain_exprs c). reflexivity.
  Qed.

  (** What is read means what is written. *)
  Lemma signed_holds : forall v neg e, holds v (signed_e neg e) = xorb neg (holds v e).
  Proof. intros v [] e; cbn [signed_e holds]; [now destruct (holds v e)|now destruct (holds v e)]. Qed.
  Lemma grp_value_paren : forall v neg c, grp_value table v (GParen neg c) = xorb neg (cond_value table v c).
  Proof. intros. unfold cond_value. cbn [grp_value]. change ((fix grp_value (g : grp) : bool := _ with chain_values (c : chain) : bool * list (connective * bool) := _ for chain_values) c) with (chain_values table v c). now destruct (chain_values table v c). Qed.
  Lemma grp_expr_paren : forall neg c, grp_expr (GParen neg c) = signed_e neg (cond_expr c).
  Proof. intros. unfold cond_expr. cbn [grp_expr]. change ((fix grp_expr (g : grp) : expr := _ with chain_exprs (c : chain) : expr * list (connective * expr) := _ for chain_exprs) c) with (chain_exprs c). now destruct (chain_exprs c). Qed.
  Lemma values_hold : forall v,
    (forall g t, grp_text table g t -> holds v (grp_expr g) = grp_value table v g) /\
    (forall c t, chain_text table c t -> holds v (fst (chain_exprs c)) = fst (chain_values table v c) /\ map (fun y => (fst y, holds v (snd y))) (snd (chain_exprs c)) = snd (chain_values table v c)).
  Proof.
    intros v. apply text_ind.
    - intros neg a t w H _ _. cbn [grp_expr grp_value]. rewrite signed_holds. f_equal. apply atom_holds. destruct H; assumption.
    - intros neg c t w0 w w' _ [IH1 IH2] _ _ _ _. rewrite grp_value_paren, grp_expr_paren, signed_holds. f_equal. unfold cond_expr, cond_value. destruct (chain_exprs c) as [x xs], (chain_values table v c) as [y ys]. cbn [fst snd] in *. rewrite holds_to_expr, IH1, IH2. reflexivity.
    - intros g t _ IH. cbn [chain_exprs chain_values fst snd map]. auto.
    - intros g op c t u w w' _ IH _ [IH1 IH2] _ _ _ _. cbn [chain_exprs chain_values]. destruct (chain_exprs c) as [x xs], (chain_values table v c) as [y ys]. cbn [fst snd map] in *. split; [exact IH|]. now rewrite IH1, IH2.
  Qed.
  Theorem condition_holds : forall v c t, chain_text table c t -> holds v (cond_expr c) = cond_value table v c.
  Proof.
    intros v c t H. destruct (proj2 (values_hold v) c t H) as [H1 H2]. unfold cond_expr, cond_value. destruct (chain_exprs c) as [x xs], (chain_values table v c) as [y ys]. cbn [fst snd] in *. rewrite holds_to_expr, H1, H2. reflexivity.
  Qed.
End Table.

(** * Searches as they are written *)

Inductive modifier := MAll | MContains | MRe.
Definition mod_text (m : modifier) : text := match m with MAll => chars "all" | MContains => chars "contains" | MRe => chars "re" end.
Definition has (m : modifier) (ms : list modifier) : bool := existsb (fun x => same (mod_text x) (mod_text m)) ms.
(** One value or several. *)
Inductive value := VOne (d : data) | VMany (ds : list data).
Definition value_list (v : value) : list data := match v with VOne d => [d] | VMany ds => ds end.
Record entry := { en_name : text; en_mods : list modifier; en_value : value }.
Inductive source := SAll (es : list entry) | SAny (ss : list source).
Section SourceInd.
  Variable P : source -> Prop.
  Hypothesis HA : forall es, P (SAll es).
  Hypothesis HS : forall ss, Forall P ss -> P (SAny ss).
  Fixpoint source_ind' (s : source) : P s :=
    match s with
    | SAll es => HA es
    | SAny ss => HS ss ((fix go (l : list source) : Forall P l := match l with [] => Forall_nil P | x :: r => Forall_cons x (source_ind' x) (go r) end) ss)
    end.
End SourceInd.

(** The data of a search. *)
Definition entry_data (e : entry) : text * data :=
  (en_name e ++ concat (map (fun m => chr "|" :: mod_text m) (en_mods e)), match en_value e with VOne d => d | VMany ds => DList ds end).
Fixpoint source_data (s : source) : data := match s with SAll es => DRecord (map entry_data es) | SAny ss => DList (map source_data ss) end.

(** Strings without characters that have a meaning in regular expressions, other than the
    wildcards. *)
Definition special (c : N) : bool := existsb (N.eqb c) (chars "^$\.*+?()[]{}|").
Definition wild (c : N) : bool := (c =? chr "*") || (c =? chr "?").
Definition glob_ok (s : text) : Prop := Forall (fun c => special c = false \/ wild c = true) s.
(** The regular expression of such a string. *)
Definition rx_of (s : text) : text := flat_map (fun c => if c =? chr "*" then chars ".*" else if c =? chr "?" then chars "." else [c]) s.
Definition entry_ok (e : entry) : Prop :=
  en_name e <> [] /\ ~ In (chr "|") (en_name e) /\ has MContains (en_mods e) && has MRe (en_mods e) = false /\
  Forall (fun d => nested d = false /\
    match d with
    | DString s => has MRe (en_mods e) = true \/ (glob_ok s /\ (has MContains (en_mods e) = true -> existsb wild s = false))
    | _ => has MRe (en_mods e) = false
    end) (value_list (en_value e)).
Fixpoint source_ok (s : source) : Prop :=
  match s with SAll es => Forall entry_ok es | SAny ss => (fix go (l : list source) : Prop := match l with [] => True | x :: r => source_ok x /\ go r end) ss end.

(** What a search says: all of its fields, each with any of its values, or all of them if it says
    so; any of its alternatives. *)
Definition test (e : entry) (d : data) : predicate :=
  let p op x := {| p_lhs := OField (en_name e); p_op := op; p_rhs := OVal x |} in
  if has MContains (en_mods e) then p op_ni d
  else match d with
       | DString s => if has MRe (en_mods e) then p op_match (DPattern s) else if existsb wild s then p op_match (DPattern (rx_of s)) else p op_eq d
       | _ => p op_eq d
       end.
Section SourceValue.
  Variable val : predicate -> bool.
  Definition entry_value (e : entry) : bool := quantify (has MAll (en_mods e)) (fun d => val (test e d)) (value_list (en_value e)).
  Fixpoint source_value (s : source) : bool := match s with SAll es => forallb entry_value es | SAny ss => existsb source_value ss end.
End SourceValue.

Lemma make_rx_plain : forall s, glob_ok s -> make_rx s = rx_of s.
Proof.
  induction s as [|c s IH]; intros H; [reflexivity|]. inversion H as [|? ? H1 H2]; subst. cbn [make_rx rx_of flat_map]. rewrite IH by exact H2.
  destruct (c =? chr "\") eqn:E; [apply N.eqb_eq in E; subst c; destruct H1; discriminate|]. destruct (c =? chr "*"); [reflexivity|]. destruct (c =? chr "?"); reflexivity.
Qed.
Lemma rx_of_len : forall s, (length s <= length (rx_of s))%nat.
Proof. induction s as [|c s IH]; [reflexivity|]. cbn [rx_of flat_map]. rewrite app_length. fold (rx_of s). destruct (c =? chr "*"), (c =? chr "?"); cbn [length chars]; lia. Qed.
Lemma rx_of_same : forall s, same s (rx_of s) = negb (existsb wild s).
Proof.
  induction s as [|c s IH]; [reflexivity|]. cbn [existsb]. apply eq_true_iff_eq. rewrite same_iff, negb_true_iff, orb_false_iff, <- negb_true_iff, <- negb_true_iff, <- IH, same_iff. unfold wild. cbn [rx_of flat_map]. fold (rx_of s).
  destruct (c =? chr "*") eqn:E1; [|destruct (c =? chr "?") eqn:E2]; cbn [orb negb]; split.
  - intros H. apply (f_equal (@List.length N)) in H. rewrite app_length in H. cbn [length chars] in H. pose proof (rx_of_len s). lia.
  - intros [H _]. discriminate.
  - intros H. cbn [chars app] in H. injection H as -> H. discriminate.
  - intros [H _]. discriminate.
  - intros H. cbn [app] in H. injection H as H. auto.
  - intros [_ H]. cbn [app]. congruence.
Qed.
Lemma make_pattern_plain : forall s, glob_ok s -> make_pattern s = if existsb wild s then Some (rx_of s) else None.
Proof. intros s H. unfold make_pattern. rewrite make_rx_plain, rx_of_same by exact H. destruct (existsb wild s); reflexivity. Qed.

(** ** Keys *)

Lemma split_plain : forall a acc s, ~ In (chr "|") a -> split_bar acc (a ++ s) = split_bar (rev a ++ acc) s.
Proof.
  induction a as [|c a IH]; intros acc s H; [reflexivity|]. cbn [app split_bar]. destruct (c =? chr "|") eqn:E; [apply N.eqb_eq in E; exfalso; apply H; now left|]. rewrite IH by (intros X; apply H; now right). cbn [rev]. now rewrite <- app_assoc.
Qed.
Lemma mod_no_bar : forall m, ~ In (chr "|") (mod_text m).
Proof. intros m H. destruct m; cbn in H; repeat (destruct H as [H|H]; [discriminate|]); exact H. Qed.
Lemma split_mods : forall ms a acc, ~ In (chr "|") a -> rev a ++ acc <> [] -> split_bar acc (a ++ concat (map (fun m => chr "|" :: mod_text m) ms)) = (rev acc ++ a) :: map mod_text ms.
Proof.
  induction ms as [|m ms IH]; intros a acc H NE; cbn [map concat].
  - rewrite split_plain by exact H. cbn [split_bar]. destruct (rev a ++ acc) eqn:E; [contradiction|]. rewrite <- E. rewrite rev_app_distr, rev_involutive. reflexivity.
  - rewrite split_plain by exact H. cbn [app split_bar]. change (chr "|" =? chr "|") with true. cbv iota. rewrite rev_app_distr, rev_involutive. f_equal.
    rewrite IH; [reflexivity|apply mod_no_bar|]. destruct m; discriminate.
Qed.
Lemma split_key : forall e, entry_ok e -> split_bar [] (fst (entry_data e)) = en_name e :: map mod_text (en_mods e).
Proof.
  intros e (NE & NB & _). cbn [entry_data fst]. rewrite split_mods; [reflexivity|exact NB|]. rewrite app_nil_r. intros E. apply NE. rewrite <- (rev_involutive (en_name e)), E. reflexivity.
Qed.
Lemma has_text : forall m ms, existsb (same (mod_text m)) (map mod_text ms) = has m ms.
Proof.
  intros m ms. unfold has. induction ms as [|x ms IH]; [reflexivity|]. cbn [map existsb]. rewrite IH. f_equal. apply eq_true_iff_eq. rewrite !same_iff. split; congruence.
Qed.
Lemma mods_implemented : forall ms, existsb unimplemented (map mod_text ms) = false.
Proof. induction ms as [|m ms IH]; [reflexivity|]. cbn [map existsb]. rewrite IH. destruct m; reflexivity. Qed.
Lemma op_mods : forall ms op, has MRe ms = false -> fold_left op_step (map mod_text ms) op = if has MContains ms then op_ni else op.
Proof.
  induction ms as [|m ms IH]; intros op H; [reflexivity|]. unfold has in *. cbn [existsb map fold_left] in *. apply orb_false_iff in H. destruct H as [H1 H2]. rewrite IH by exact H2.
  destruct m; cbn [mod_text]; [reflexivity| |discriminate]. change (same (chars "contains") (chars "contains")) with true. cbn [orb]. change (op_step op (chars "contains")) with op_ni. match goal with |- (if ?b then _ else _) = _ => now destruct b end.
Qed.

(** ** Fields *)

Lemma predicate_test : forall e d, entry_ok e -> In d (value_list (en_value e)) -> make_predicate (en_name e) (op_of (map mod_text (en_mods e))) (has MRe (en_mods e)) d = test e d.
Proof.
  intros e d (_ & _ & X & F) Hd. rewrite Forall_forall in F. destruct (F d Hd) as [_ D]. unfold make_predicate, test.
  destruct (has MRe (en_mods e)) eqn:R.
  - rewrite andb_true_r in X. rewrite X. destruct d; try discriminate. reflexivity.
  - unfold op_of. rewrite op_mods by exact R. destruct (has MContains (en_mods e)) eqn:C; destruct d; try reflexivity.
    + destruct D as [D|[D1 D2] ]; [discriminate|]. destruct s as [|c s]; [reflexivity|]. rewrite make_pattern_plain by exact D1. rewrite (D2 eq_refl). reflexivity.
    + destruct D as [D|[D1 _] ]; [discriminate|]. destruct s as [|c s]; [reflexivity|]. rewrite make_pattern_plain by exact D1. destruct (existsb wild (c :: s)); reflexivity.
Qed.
Lemma field_reads : forall v e, entry_ok e -> exists x, field_expr (entry_data e) = Rule x /\ holds v x = entry_value v e.
Proof.
  intros v e OK. unfold field_expr. rewrite split_key, mods_implemented by exact OK. change (chars "re") with (mod_text MRe). change (chars "all") with (mod_text MAll). rewrite !has_text.
  pose proof (fun d => predicate_test e d OK) as PT. destruct OK as (_ & _ & _ & F). cbn [entry_data snd]. unfold entry_value. destruct (en_value e) as [d|ds] eqn:EV; cbn [value_list] in *.
  - inversion F as [|? ? [N _] _]; subst. assert (PD := PT d (or_introl eq_refl)). rewrite quantify_one. rewrite <- PD. destruct d; try discriminate N; (eexists; split; [reflexivity|reflexivity]).
  - assert (NN : existsb nested ds = false). { destruct (existsb nested ds) eqn:E; [|reflexivity]. apply existsb_exists in E. destruct E as (d & Hd & E). rewrite Forall_forall in F. destruct (F d Hd). congruence. }
    rewrite NN. eexists. split; [reflexivity|]. rewrite hoist_holds.
    rewrite (map_ext_in _ (fun d => EPred (test e d))) by (intros d Hd; now rewrite PT).
    destruct (has MAll (en_mods e)); cbn [ExpressionProofs.holds quantify]; rewrite ?forallb_map', ?existsb_map'; reflexivity.
Qed.
Lemma each_reads : forall {A B} (f : A -> outcome B) (R : A -> B -> Prop) xs, Forall (fun x => exists y, f x = Rule y /\ R x y) xs -> exists ys, each f xs = Rule ys /\ Forall2 R xs ys.
Proof.
  intros A B f R xs H. induction H as [|x xs (y & E & r) H (ys & Es & rs)]; [exists []; auto|]. exists (y :: ys). split; [|constructor; assumption]. cbn [each]. rewrite E. cbn [after]. fold (each f). rewrite Es. reflexivity.
Qed.
Lemma forall2_quant : forall {A} (f : A -> bool) (v : predicate -> bool) xs ys, Forall2 (fun x y => holds v y = f x) xs ys -> forallb (holds v) ys = forallb f xs /\ existsb (holds v) ys = existsb f xs.
Proof. intros A f v xs ys H. induction H as [|x y xs ys E H [I1 I2] ]; [auto|]. cbn [forallb existsb]. rewrite E, I1, I2. auto. Qed.
(** The search is the same for all valuations. *)
Theorem source_reads : forall s, source_ok s -> exists x, parse_search_id (source_data s) = Rule x /\ forall v, holds v x = source_value v s.
Proof.
  induction s as [es|ss IH] using source_ind'; intros OK.
  - cbn [source_data parse_search_id].
    assert (G : exists ys, each field_expr (map entry_data es) = Rule ys /\ forall v, forallb (holds v) ys = forallb (entry_value v) es).
    { cbn [source_ok] in OK. induction OK as [|e es OK OKs (ys & E & H)]; [exists []; auto|]. destruct (field_reads (fun _ => true) e OK) as (x & Ex & _). exists (x :: ys). cbn [map each]. rewrite Ex. cbn [after]. fold (@each (text * data) expr field_expr). rewrite E.
      split; [reflexivity|]. intros v. cbn [forallb]. rewrite H. f_equal. destruct (field_reads v e OK) as (x' & Ex' & Hx). congruence. }
    destruct G as (ys & E & H). rewrite E. cbn [after]. exists (single EAnd ys). split; [reflexivity|]. intros v. rewrite holds_single_and. apply H.
  - cbn [source_data parse_search_id].
    assert (G : exists ys, each parse_search_id (map source_data ss) = Rule ys /\ forall v, existsb (holds v) ys = existsb (source_value v) ss).
    { cbn [source_ok] in OK. induction IH as [|s ss H IH IHs]; [exists []; auto|]. destruct OK as [O1 O2]. destruct (H O1) as (x & Ex & Hx). destruct (IHs O2) as (ys & E & Hy). exists (x :: ys). cbn [map each]. rewrite Ex. cbn [after]. fold (@each data expr parse_search_id). rewrite E.
      split; [reflexivity|]. intros v. cbn [existsb]. now rewrite Hx, Hy. }
    destruct G as (ys & E & H). rewrite E. cbn [after]. exists (single EOr ys). split; [reflexivity|]. intros v. rewrite holds_single_or. apply H.
Qed.

(** * Wildcards *)

(** The strings that a string with wildcards stands for: a backslash before a wildcard or a
    backslash takes away its meaning. *)
Inductive glob : text -> text -> Prop :=
| gl_nil : glob [] []
| gl_chr : forall c s t, wild c = false -> c <> chr "\" -> glob s t -> glob (c :: s) (c :: t)
| gl_one : forall c s t, glob s t -> glob (chr "?" :: s) (c :: t)
| gl_none : forall s t, glob s t -> glob (chr "*" :: s) t
| gl_more : forall c s t, glob (chr "*" :: s) t -> glob (chr "*" :: s) (c :: t)
| gl_esc : forall w s t, wild w = true \/ w = chr "\" -> glob s t -> glob (chr "\" :: w :: s) (w :: t)
| gl_back : forall s t, match s with [] => True | w :: _ => wild w = false /\ w <> chr "\" end -> glob s t -> glob (chr "\" :: s) (chr "\" :: t).

(** The strings that match a regular expression made of characters, of dots, and of stars behind
    them. *)
Definition rx_atom (a : N) : Prop := a = chr "." \/ special a = false.
Definition rx_char (a c : N) : Prop := (a = chr "." /\ dot c = true) \/ (special a = false /\ a = c).
Definition unquantified (r : text) : Prop := match r with [] => True | c :: _ => existsb (N.eqb c) (chars "*+?{") = false end.
Inductive rx_matches : text -> text -> Prop :=
| rm_nil : rx_matches [] []
| rm_one : forall a r c s, rx_char a c -> unquantified r -> rx_matches r s -> rx_matches (a :: r) (c :: s)
| rm_none : forall a r s, rx_atom a -> unquantified r -> rx_matches r s -> rx_matches (a :: chr "*" :: r) s
| rm_more : forall a r c s, rx_char a c -> unquantified r -> rx_matches (a :: chr "*" :: r) s -> rx_matches (a :: chr "*" :: r) (c :: s).

Lemma rx_of_free : forall s, glob_ok s -> unquantified (rx_of s).
Proof.
  intros [|c s] H; [exact I|]. inversion H as [|? ? H1 _]; subst. cbn [rx_of flat_map]. destruct (c =? chr "*") eqn:E1; [reflexivity|]. destruct (c =? chr "?") eqn:E2; [reflexivity|].
  cbn [app unquantified]. destruct H1 as [H1|H1]; [|unfold wild in H1; rewrite E1, E2 in H1; discriminate]. unfold special in H1. cbn [chars existsb] in *. rewrite !orb_false_iff in *. tauto.
Qed.
Lemma glob_rx : forall s t, glob_ok s -> Forall (fun c => dot c = true) t -> glob s t -> rx_matches (rx_of s) t.
Proof.
  intros s t OK D H. induction H as [|c s t W NB H IH|c s t H IH|s t H IH|c s t H IH|w s t W H IH|s t W H IH].
  - constructor.
  - inversion OK as [|? ? O1 O2]; subst. inversion D as [|? ? D1 D2]; subst.
    cbn [rx_of flat_map]. unfold wild in W. apply orb_false_iff in W. destruct W as [W1 W2]. rewrite W1, W2. cbn [app]. apply rm_one; [|now apply rx_of_free|now apply IH]. right. split; [|reflexivity]. destruct O1 as [O1|O1]; [exact O1|]. unfold wild in O1. rewrite W1, W2 in O1. discriminate.
  - inversion OK as [|? ? O1 O2]; subst. inversion D as [|? ? D1 D2]; subst.
    cbn [rx_of flat_map]. change (chr "?" =? chr "*") with false. change (chr "?" =? chr "?") with true. cbv iota. cbn [app chars]. apply rm_one; [left; auto|now apply rx_of_free|now apply IH].
  - inversion OK as [|? ? O1 O2]; subst.
    cbn [rx_of flat_map]. change (chr "*" =? chr "*") with true. cbv iota. cbn [app chars]. apply (rm_none (chr ".")); [now left|now apply rx_of_free|now apply IH].
  - inversion D as [|? ? D1 D2]; subst. specialize (IH OK D2). inversion OK as [|? ? O1 O2]; subst.
    cbn [rx_of flat_map] in *. change (chr "*" =? chr "*") with true in *. cbv iota in *. cbn [app chars] in *. apply (rm_more (chr ".")); [left; auto|now apply rx_of_free|exact IH].
  - inversion OK as [|? ? [O1|O1] O2]; discriminate.
  - inversion OK as [|? ? [O1|O1] O2]; discriminate.
Qed.
Lemma wild_cases : forall c, wild c = true -> c = chr "*" \/ c = chr "?".
Proof. intros c H. unfold wild in H. apply orb_true_iff in H. destruct H as [H|H]; apply N.eqb_eq in H; auto. Qed.
Lemma rx_glob : forall s t, glob_ok s -> rx_matches (rx_of s) t -> glob s t.
Proof.
  induction s as [|c s IH]; intros t OK H; [inversion H; constructor|]. inversion OK as [|? ? O1 O2]; subst. pose proof (rx_of_free s O2) as U.
  cbn [rx_of flat_map] in H. fold (rx_of s) in H. destruct (c =? chr "*") eqn:E1; [|destruct (c =? chr "?") eqn:E2].
  - apply N.eqb_eq in E1. subst c. cbn [chars app] in H. remember (chr "." :: chr "*" :: rx_of s) as r eqn:Er. change (N_of_ascii "." :: N_of_ascii "*" :: rx_of s) with (chr "." :: chr "*" :: rx_of s) in H. rewrite <- Er in H.
    induction H as [|a r c' s' A B H IHr|a r s' A B H IHr|a r c' s' A B H IHr].
    + discriminate.
    + injection Er as -> ->. discriminate.
    + injection Er as -> ->. apply gl_none. now apply IH.
    + apply gl_more. now apply IHr.
  - apply N.eqb_eq in E2. subst c. cbn [chars app] in H. inversion H as [|a r c' s' A B H'|a r s' A B H'|a r c' s' A B H']; subst.
    + apply gl_one. now apply IH.
    + rewrite <- H1 in U. discriminate.
    + rewrite <- H1 in U. discriminate.
  - cbn [app] in H. assert (W : wild c = false) by (unfold wild; now rewrite E1, E2). assert (NB : c <> chr "\") by (intros ->; destruct O1; discriminate).
    inversion H as [|a r c' s' A B H'|a r s' A B H'|a r c' s' A B H']; subst.
    + destruct A as [(-> & _)|(_ & ->)]; [destruct O1; discriminate|]. apply gl_chr; auto.
    + rewrite <- H1 in U. discriminate.
    + rewrite <- H1 in U. discriminate.
Qed.
Lemma glob_plain : forall s t, glob_ok s -> existsb wild s = false -> glob s t <-> t = s.
Proof.
  induction s as [|c s IH]; intros t OK W.
  - split; [intros H; inversion H; reflexivity|intros ->; constructor].
  - inversion OK as [|? ? O1 O2]; subst. cbn [existsb] in W. apply orb_false_iff in W. destruct W as [W1 W2]. assert (NB : c <> chr "\") by (intros ->; destruct O1; discriminate). split.
    + intros H. inversion H as [|? ? ? _ _ H'| | | | |]; subst; try discriminate; [|contradiction|contradiction]. f_equal. now apply IH.
    + intros ->. apply gl_chr; [exact W1|exact NB|]. now apply IH.
Qed.

(** * Rules *)

Lemma put_perm : forall k e m, ~ In k (map fst m) -> Permutation (put k e m) ((k, e) :: m).
Proof.
  intros k e m. induction m as [|[x y] m IH]; intros H; [reflexivity|]. cbn [put]. cbn [map fst] in H. destruct (same k x) eqn:E; [apply same_iff in E; subst; exfalso; apply H; now left|].
  destruct (text_lt k x); [reflexivity|]. rewrite IH by (intros X; apply H; now right). apply perm_swap.
Qed.
Lemma puts_perm : forall xs m, NoDup (map fst (xs ++ m)) -> Permutation (fold_left (fun m (x : text * expr) => put (fst x) (snd x) m) xs m) (xs ++ m).
Proof.
  induction xs as [|[k e] xs IH]; intros m ND; [reflexivity|]. cbn [fold_left fst snd app map] in *. inversion ND as [|? ? N1 N2]; subst.
  assert (NM : ~ In k (map fst m)) by (intros X; apply N1; rewrite map_app; apply in_or_app; now right).
  assert (P : Permutation (xs ++ put k e m) ((k, e) :: xs ++ m)). { rewrite (put_perm k e m NM). symmetry. apply Permutation_middle. }
  rewrite IH; [exact P|]. eapply Permutation_NoDup; [apply Permutation_map; symmetry; exact P|]. exact ND.
Qed.

(** A rule: names and searches, and the condition, among other attributes. *)
Record rule := { ru_before : list (text * data); ru_after : list (text * data); ru_searches : list (text * source); ru_rest : list (text * source); ru_condition : text }.
Definition detection_data (r : rule) : list (text * data) :=
  map (fun x => (fst x, source_data (snd x))) (ru_searches r) ++ (chars "condition", DString (ru_condition r)) :: map (fun x => (fst x, source_data (snd x))) (ru_rest r).
Definition rule_data (r : rule) : data := DRecord (ru_before r ++ (chars "detection", DRecord (detection_data r)) :: ru_after r).
Definition rule_searches (r : rule) : list (text * source) := ru_searches r ++ ru_rest r.
Definition rule_ok (r : rule) : Prop :=
  ~ In (chars "detection") (map fst (ru_before r)) /\ NoDup (map fst (rule_searches r)) /\
  Forall (fun x => fst x <> [] /\ forallb word (fst x) = true /\ fst x <> chars "condition" /\ source_ok (snd x)) (rule_searches r).
(** The table of a rule: each search by its name, with the meaning that it has. *)
Definition table_of (r : rule) (table : list (text * expr)) : Prop :=
  exists xs, Permutation table xs /\ Forall2 (fun x y => fst y = fst x /\ forall v, holds v (snd y) = source_value v (snd x)) (rule_searches r) xs.

Lemma lookup_skip : forall k a b, ~ In k (map fst a) -> lookup k (a ++ b) = lookup k b.
Proof. intros k a b H. induction a as [|[x d] a IH]; [reflexivity|]. cbn [app lookup map fst] in *. destruct (same x k) eqn:E; [apply same_iff in E; exfalso; apply H; now left|]. apply IH. intros X. apply H. now right. Qed.
Lemma filter_all : forall {A} (f : A -> bool) l, Forall (fun x => f x = true) l -> filter f l = l.
Proof. intros A f l H. induction H as [|x l E H IH]; [reflexivity|]. cbn [filter]. now rewrite E, IH. Qed.
Lemma same_false : forall a b, a <> b -> same a b = false.
Proof. intros a b H. destruct (same a b) eqn:E; [apply same_iff in E; contradiction|reflexivity]. Qed.
Theorem rule_reads : forall r, rule_ok r -> exists table, table_ok table /\ table_of r table /\ parse_rule (rule_data r) = condition_expr table (ru_condition r).
Proof.
  intros r (B & ND & F). set (ss := rule_searches r) in *.
  assert (FC : forall l, Forall (fun x : text * source => fst x <> [] /\ forallb word (fst x) = true /\ fst x <> chars "condition" /\ source_ok (snd x)) l ->
    filter (fun f : text * data => negb (same (fst f) (chars "condition"))) (map (fun x => (fst x, source_data (snd x))) l) = map (fun x => (fst x, source_data (snd x))) l).
  { intros l H. apply filter_all. rewrite Forall_map. eapply Forall_impl; [|exact H]. intros x (_ & _ & N & _). cbn [fst]. now rewrite same_false. }
  pose proof F as F'. unfold ss, rule_searches in F'. apply Forall_app in F'. destruct F' as [F1 F2].
  assert (Flt : filter (fun f : text * data => negb (same (fst f) (chars "condition"))) (detection_data r) = map (fun x => (fst x, source_data (snd x))) ss).
  { unfold detection_data. rewrite filter_app, FC by exact F1. cbn [filter fst]. rewrite (proj2 (same_iff _ _) eq_refl). cbn [negb]. rewrite FC by exact F2. unfold ss, rule_searches. now rewrite map_app. }
  assert (E : exists xs, each (fun f : text * data => after (parse_search_id (snd f)) (fun e => Rule (fst f, e))) (map (fun x => (fst x, source_data (snd x))) ss) = Rule xs /\
              Forall2 (fun x y => fst y = fst x /\ forall v, holds v (snd y) = source_value v (snd x)) ss xs).
  { clear - F. induction F as [|x ss (_ & _ & _ & O) F (xs & E & R)]; [exists []; auto|]. destruct (source_reads (snd x) O) as (e & Ee & He). exists ((fst x, e) :: xs). split; [|constructor; auto].
    cbn [map each fst snd]. rewrite Ee. cbn [after]. fold (@each (text * data) (text * expr) (fun f => after (parse_search_id (snd f)) (fun e => Rule (fst f, e)))). rewrite E. reflexivity. }
  destruct E as (xs & E & R).
  assert (Fst : map fst xs = map fst ss). { clear - R. induction R as [|x y l l' [H _] R IH]; [reflexivity|]. cbn [map]. congruence. }
  set (table := fold_left (fun m (x : text * expr) => put (fst x) (snd x) m) xs []).
  assert (P : Permutation table xs). { unfold table. rewrite puts_perm; rewrite app_nil_r; [reflexivity|]. rewrite Fst. exact ND. }
  exists table. split; [|split].
  - split.
    + eapply Permutation_NoDup; [apply Permutation_map; symmetry; exact P|]. rewrite Fst. exact ND.
    + rewrite Forall_forall. intros x Hx. apply (Permutation_in _ P) in Hx. apply (in_map fst) in Hx. rewrite Fst in Hx. apply in_map_iff in Hx. destruct Hx as (z & <- & Hz). rewrite Forall_forall in F. destruct (F z Hz) as (N1 & N2 & _). auto.
  - exists xs. split; [exact P|exact R].
  - unfold parse_rule, rule_data. rewrite lookup_skip by exact B. cbn [lookup]. rewrite (proj2 (same_iff _ _) eq_refl). unfold searches. rewrite Flt, E. cbn [after]. fold table.
    unfold detection_data. rewrite lookup_skip; [cbn [lookup]; now rewrite (proj2 (same_iff _ _) eq_refl)|]. rewrite map_map. cbn [fst]. intros X. apply in_map_iff in X. destruct X as (z & Ez & Hz). rewrite Forall_forall in F1. destruct (F1 z Hz) as (_ & _ & N & _). congruence.
Qed.
Lemma table_known : forall r table k, table_of r table -> (known table k <-> In k (map fst (rule_searches r))).
Proof.
  intros r table k (xs & P & R). assert (Fst : map fst xs = map fst (rule_searches r)). { clear - R. induction R as [|x y l l' [H _] R IH]; [reflexivity|]. cbn [map]. congruence. }
  unfold known. rewrite <- Fst. split; apply Permutation_in; apply Permutation_map; [exact P|now symmetry].
Qed.
