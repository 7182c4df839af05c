(** Lemmas about the text form of types. *)
From Coq Require Import String Ascii List ZArith NArith Bool Arith Lia ZifyBool ZifyNat ZifyN.
From Coq Require Import Init.Datatypes.
From Verif Require Import OperatorModel EscapeModel AddressModel AddressProofs DataModel DataProofs TypeModel TypeProofs ExpressionModel LiteralModel LiteralProofs SyntaxModel.
Import ListNotations.
Open Scope N_scope.

Lemma skp_stop : forall s, stops isspace s -> stops (N.eqb 47) s -> skp s = Ok tt s.
Proof.
  intros [|c s] H1 H2; [reflexivity|]. cbn [stops] in *. unfold skp. erewrite act_ok; [reflexivity|]. apply steps_kleene, steps_nil.
  rewrite alt_no; [|apply act_no; cbn [sat]; now rewrite H1]. unfold comment. apply then_no, lit_no. exact H2.
Qed.
Lemma skp_space : forall c s, isspace c = true -> stops isspace s -> stops (N.eqb 47) s -> skp (c :: s) = Ok tt s.
Proof.
  intros c s B H1 H2. unfold skp. erewrite act_ok; [reflexivity|]. apply steps_kleene. eapply steps_cons.
  - eapply alt_ok. unfold act. erewrite bind_ok; [reflexivity|]. cbn [sat]. now rewrite B.
  - cbn; lia.
  - apply steps_nil. destruct s as [|c' s]; [reflexivity|]. cbn [stops] in *. rewrite alt_no; [|apply act_no; cbn [sat]; now rewrite H1]. unfold comment. apply then_no, lit_no. exact H2.
Qed.
Lemma skp_blank : forall s, stops isspace s -> stops (N.eqb 47) s -> skp (32 :: s) = Ok tt s.
Proof. intros s. now apply skp_space. Qed.

(** * What follows a type *)

(** Behind blanks, there is no type operator. *)
Definition plain (s : text) : Prop :=
  stops identifier_char s /\ exists r, skp s = Ok tt r /\ stops isspace r /\ stops (N.eqb 47) r /\ forall o, algebra_p o r = No.
(** Nor is there an attribute. *)
Definition quiet (s : text) : Prop :=
  plain s /\ exists r, skp s = Ok tt r /\ stops (N.eqb 35) r.

Definition type_follow (c : N) : bool := (c =? 44) || (c =? 62) || (c =? 125).
Lemma quiet_close : forall c s, type_follow c = true -> quiet (c :: s).
Proof.
  intros c s H. assert (C : c = 44 \/ c = 62 \/ c = 125) by (unfold type_follow in H; lia). clear H.
  destruct C as [-> | [-> | ->] ]; (split; [split; [reflexivity|]|]); eexists; (split; [apply skp_stop; reflexivity|]); repeat split; reflexivity.
Qed.
Lemma quiet_end : quiet [].
Proof. split; [split; [exact Logic.I|]|]; exists []; repeat split; reflexivity. Qed.
Lemma quiet_line : forall c s, c = 10 -> s = [] \/ (exists r, s = chr "t" :: r) -> quiet (c :: s).
Proof.
  intros c s -> H. assert (K : skp (10 :: s) = Ok tt s) by (apply skp_space; [reflexivity| |]; destruct H as [->|(r & ->)]; reflexivity).
  split; [split; [reflexivity|]|]; exists s; (split; [exact K|]); destruct H as [->|(r & ->)]; repeat split; reflexivity.
Qed.

Lemma ident_ok : forall c x s, forallb identifier_char (c :: x) = true -> stops identifier_char s -> identifier ((c :: x) ++ s) = Ok (c :: x) s.
Proof. intros c x s H S. now apply plus_sat. Qed.

(** The keyword of a compound type is not followed by its bracket. *)
Fixpoint strip (l x : text) : option text :=
  match l, x with
  | [], _ => Some x
  | a :: l', b :: x' => if a =? b then strip l' x' else None
  | _ :: _, [] => None
  end.
Lemma lit_strip : forall f l x s, forallb f l = true -> stops f s -> lit l (x ++ s) = match strip l x with Some y => Ok tt (y ++ s) | None => No end.
Proof.
  intros f. induction l as [|a l IH]; intros x s H S; [reflexivity|]. cbn [forallb] in H. apply andb_true_iff in H. destruct H as [H1 H2]. destruct x as [|b x]; cbn [app strip].
  - destruct s as [|c s]; [reflexivity|]. cbn [stops] in S. cbn [lit]. destruct (N.eqb_spec a c); [subst; congruence|reflexivity].
  - cbn [lit]. destruct (a =? b); [now apply IH|reflexivity].
Qed.
Lemma strip_app : forall l x y, strip l x = Some y -> x = l ++ y.
Proof.
  induction l as [|a l IH]; intros x y H; [now injection H as ->|]. destruct x as [|b x]; [discriminate|]. cbn [strip] in H. destruct (N.eqb_spec a b); [|discriminate].
  subst. cbn [app]. f_equal. now apply IH.
Qed.
Lemma ident_plain : forall c s, identifier_char c = true -> stops isspace (c :: s) /\ stops (N.eqb 47) (c :: s) /\ (c =? 123) = false /\ (c =? 60) = false.
Proof. intros c s H. cbn [stops]. unfold identifier_char, isalnum, isspace in *. repeat split; lia. Qed.

(** The words that start a compound type. *)
Definition keywords : list text := [chars "enum"; chars "list"; chars "map"; chars "record"].
Lemma keyword_no : forall {B} (q : parser B) k w x s, In w keywords -> forallb identifier_char x = true -> stops identifier_char s -> x <> w -> (k = 123 \/ k = 60) ->
  then_ (lit w) (then_ skp (then_ (ch k) q)) (x ++ s) = No.
Proof.
  intros B q k w x s W X H NE K. assert (FW : forallb identifier_char w = true) by (repeat (destruct W as [<-|W]; [reflexivity|]); destruct W).
  destruct (strip w x) as [y|] eqn:E.
  - assert (L : lit w (x ++ s) = Ok tt (y ++ s)) by (rewrite (lit_strip identifier_char); [now rewrite E|exact FW|exact H]).
    rewrite (then_ok _ _ _ _ _ L). apply strip_app in E. subst x. destruct y as [|c y]; [now rewrite app_nil_r in NE|].
    rewrite forallb_app in X. apply andb_true_iff in X. destruct X as [_ X]. cbn [forallb] in X. apply andb_true_iff in X. destruct X as [X _].
    destruct (ident_plain c (y ++ s) X) as (S1 & S2 & S3 & S4). cbn [app]. rewrite (then_ok _ _ _ _ _ (skp_stop _ S1 S2)). apply then_no, ch_no. cbn [stops].
    destruct K as [-> | ->]; rewrite N.eqb_sym; assumption.
  - apply then_no. rewrite (lit_strip identifier_char); [now rewrite E|exact FW|exact H].
Qed.

Definition word (x : text) : Prop := x <> [] /\ forallb identifier_char x = true.
Definition type_word (x : text) : Prop := x <> [] /\ forallb identifier_char x = true /\ ~ In x keywords.
Lemma basic_word : forall b, type_word (basic_text b).
Proof.
  intros b. split; [destruct b; discriminate|]. split; [destruct b; reflexivity|]. intros H. unfold keywords in H. destruct b; cbn in H; repeat (destruct H as [H|H]; [discriminate H|]); exact H.
Qed.
Lemma word_ok : forall x s, word x -> stops identifier_char s -> identifier (x ++ s) = Ok x s.
Proof. intros [|c x] s [NE ID] S; [contradiction|]. now apply ident_ok. Qed.
Lemma basic_ok : forall b s, stops identifier_char s -> basic_p (basic_text b ++ s) = Ok (TBasic no_meta b) s.
Proof.
  intros b s S. assert (Q : not_ (sat identifier_char) s = Ok tt s). { destruct s as [|c s]; [reflexivity|]. cbn [stops] in S. unfold not_. cbn [sat]. now rewrite S. }
  unfold basic_p. eapply skip_ok; [|exact Q]. destruct b; reflexivity.
Qed.
Lemma basic_no : forall x s, forallb identifier_char x = true -> stops identifier_char s -> ~ In x (map snd basics) -> basic_p (x ++ s) = No.
Proof.
  intros x s ID H NB. unfold basic_p.
  assert (G : forall l, (forall b, In b l -> In b basics) -> any_of (map (fun x => act (fun _ => TBasic no_meta (fst x)) (lit (snd x))) l) (x ++ s) = No \/
    exists t c y, any_of (map (fun x => act (fun _ => TBasic no_meta (fst x)) (lit (snd x))) l) (x ++ s) = Ok t (c :: y) /\ identifier_char c = true).
  { induction l as [|b l IH]; intros Hl; [now left|]. cbn [map]. rewrite any_cons.
    assert (FW : forallb identifier_char (snd b) = true). { assert (Hb : In b basics) by (apply Hl; now left). repeat (destruct Hb as [<-|Hb]; [reflexivity|]). destruct Hb. }
    destruct (strip (snd b) x) as [y|] eqn:E.
    - right. assert (L : lit (snd b) (x ++ s) = Ok tt (y ++ s)) by (rewrite (lit_strip identifier_char); [now rewrite E|exact FW|exact H]).
      apply strip_app in E. destruct y as [|c y]; [exfalso; apply NB; rewrite E, app_nil_r; apply in_map, Hl; now left|].
      exists (TBasic no_meta (fst b)), c, (y ++ s). split; [eapply alt_ok; rewrite (act_ok _ _ _ _ _ L); reflexivity|].
      subst x. rewrite forallb_app in ID. apply andb_true_iff in ID. destruct ID as [_ ID]. cbn [forallb] in ID. now apply andb_true_iff in ID.
    - rewrite alt_no; [apply IH; intros y Hy; apply Hl; now right|]. apply act_no. rewrite (lit_strip identifier_char); [now rewrite E|exact FW|exact H]. }
  destruct (G basics (fun b Hb => Hb)) as [G'|(t & c & y & G' & C)]; [now apply skip_no|]. eapply skip_no2; [exact G'|]. unfold not_. cbn [sat]. now rewrite C.
Qed.
(** The parsers for compound types fail on other words. *)
Lemma compounds_no : forall n x s, type_word x -> stops identifier_char s ->
  enum_p (x ++ s) = No /\ list_type_p (type_p n) (x ++ s) = No /\ map_type_p (type_p n) (x ++ s) = No /\ record_p (type_p n) (x ++ s) = No.
Proof.
  intros n x s (NE & ID & KW) H. unfold enum_p, list_type_p, map_type_p, record_p.
  repeat split; (apply keyword_no; [cbn; auto 8|exact ID|exact H|intros ->; apply KW; cbn; auto 8|auto]).
Qed.
(** A word that is not followed by an operator is no type expression. *)
Lemma type_expr_word : forall n x s, x <> [] -> forallb identifier_char x = true -> x <> chars "record" -> plain s -> type_expr_p (S n) (x ++ s) = No.
Proof.
  intros n x s NE ID KW (ST & r & K & S1 & S2 & G). cbn [type_expr_p]. set (o := any_of [record_p (type_p n); placeholder_p; type_expr_p n]).
  assert (O : o (x ++ s) = Ok (named_none x) s).
  { unfold o. rewrite any_cons, alt_no.
    - rewrite any_cons. eapply alt_ok. unfold placeholder_p. erewrite act_ok; [reflexivity|]. now apply word_ok.
    - unfold record_p. apply keyword_no; [cbn; auto|exact ID|exact ST|exact KW|now left]. }
  rewrite (bind_ok _ _ _ _ _ O).
  rewrite (then_ok _ _ _ _ _ K). apply act_no. unfold plus. apply bind_no. rewrite (then_ok _ _ _ _ _ (skp_stop r S1 S2)). apply G.
Qed.

(** * Attributes *)

Definition attr_ok (x : list N * option (list N)) : Prop :=
  word (fst x) /\ match snd x with
                  | None => True
                  | Some v => v <> [] /\ forallb attr_char v = true /\ stops (N.eqb c_quote) v
                  end.
Definition attrs_ok (xs : list (list N * option (list N))) : Prop := Forall attr_ok xs /\ NoDup (map fst xs).

(** What can follow an attribute. *)
Definition attr_end (s : text) : Prop := stops (fun c => identifier_char c || attr_char c) s.
Lemma attr_reads : forall x s, attr_ok x -> attr_end s -> attr_p (show_attr x ++ s) = Ok x s.
Proof.
  intros [k v] s [K V] E. cbn [fst snd] in *. unfold attr_p, show_attr. cbn [fst snd app].
  assert (E1 : stops identifier_char s) by (destruct s; [exact Logic.I|]; cbn [attr_end stops] in *; destruct (identifier_char n); [discriminate|reflexivity]).
  assert (E2 : stops attr_char s) by (destruct s; [exact Logic.I|]; cbn [attr_end stops] in *; destruct (identifier_char n); [discriminate|exact E]).
  rewrite <- app_assoc. set (q := match v with Some v0 => chr "=" :: v0 | None => [] end ++ s).
  assert (Q : stops identifier_char q) by (unfold q; destruct v; [reflexivity|exact E1]).
  assert (P : then_ (ch (chr "#")) identifier (chr "#" :: k ++ q) = Ok k q) by (rewrite (then_ok _ _ _ _ _ (ch_ok (chr "#") _)); now apply word_ok).
  rewrite (bind_ok _ _ _ _ _ P). unfold q. destruct v as [v|]; cbn [app].
  - destruct V as (NE & AC & QU). erewrite act_ok; [reflexivity|]. unfold maybe. rewrite (then_ok _ _ _ _ _ (ch_ok (chr "=") _)). rewrite alt_no.
    + destruct v as [|c v]; [contradiction|]. now rewrite (plus_sat attr_char c v s AC E2).
    + unfold quoted. apply then_no, ch_no. destruct v as [|c v]; [contradiction|]. exact QU.
  - erewrite act_ok; [reflexivity|]. unfold maybe. rewrite then_no; [reflexivity|]. apply ch_no. destruct s as [|c s]; [exact Logic.I|]. cbn [attr_end stops] in *.
    unfold identifier_char, attr_char, isprint, isspace in *. destruct (N.eqb_spec (chr "=") c); [|reflexivity]. subst c. discriminate E.
Qed.
Lemma space_skp : forall x s, skp (32 :: show_attr x ++ s) = Ok tt (show_attr x ++ s).
Proof. intros x s. apply skp_blank; reflexivity. Qed.
Lemma attr_end_blank : forall s, attr_end (32 :: s).
Proof. reflexivity. Qed.
Lemma attrs_steps : forall xs s, Forall attr_ok xs -> xs = [] \/ attr_end s -> quiet s -> steps (then_ skp attr_p) (flat_map (fun x => 32 :: show_attr x) xs ++ s) xs s.
Proof.
  induction xs as [|x xs IH]; intros s H E Q.
  - apply steps_nil. destruct Q as [_ (r & K & R)]. cbn [flat_map app]. rewrite (then_ok _ _ _ _ _ K). unfold attr_p. apply bind_no, then_no, ch_no. exact R.
  - inversion H; subst. cbn [flat_map]. rewrite <- app_assoc. cbn [app]. set (k := flat_map (fun x0 => 32 :: show_attr x0) xs ++ s).
    destruct E as [E|E]; [discriminate|]. apply steps_cons with (s' := k); [|cbn [length]; rewrite app_length; lia|apply IH; auto].
    rewrite (then_ok _ _ _ _ _ (space_skp x k)). apply attr_reads; [assumption|]. unfold k. destruct xs; [exact E|reflexivity].
Qed.
Lemma show_attrs_flat : forall xs, show_attrs xs = flat_map (fun x => 32 :: show_attr x) xs.
Proof.
  intros [|x xs]; [reflexivity|]. unfold show_attrs. cbn [map join_text flat_map app]. do 2 f_equal. induction xs as [|y xs IH]; [reflexivity|]. cbn [map flat_map app]. now rewrite IH.
Qed.
Lemma attrs_read : forall xs s, Forall attr_ok xs -> xs = [] \/ attr_end s -> quiet s -> attrs_p (show_attrs xs ++ s) = Ok xs s.
Proof. intros xs s H E Q. unfold attrs_p. apply steps_kleene. rewrite show_attrs_flat. now apply attrs_steps. Qed.
Lemma attrs_plain : forall xs s, quiet s -> plain (show_attrs xs ++ s).
Proof.
  intros [|x xs] s [P Q]; [exact P|]. unfold show_attrs. cbn [map join_text app]. unfold show_attr at 1. cbn [app]. split; [reflexivity|].
  eexists. split; [apply skp_blank; reflexivity|]. repeat split; reflexivity.
Qed.

Lemma update_fresh : forall xs ys, NoDup (map fst (ys ++ xs)) -> fold_left SyntaxModel.update_attr xs ys = ys ++ xs.
Proof.
  induction xs as [|x xs IH]; intros ys H; [now rewrite app_nil_r|]. cbn [fold_left].
  assert (E : SyntaxModel.update_attr ys x = ys ++ [x]).
  { clear IH. induction ys as [|y ys IHy]; [reflexivity|]. cbn [app map] in H. inversion H as [|? ? H1 H2]; subst. cbn [SyntaxModel.update_attr app].
    destruct (bytes_eqb (fst y) (fst x)) eqn:B; [|f_equal; now apply IHy]. apply bytes_eqb_spec in B. exfalso. apply H1. rewrite B, map_app. apply in_or_app. right. now left. }
  rewrite E, IH; [now rewrite <- app_assoc|]. now rewrite <- app_assoc.
Qed.

(** * Types *)

(** What is read back: a named part becomes a placeholder for its name. *)
Definition ref_kind (r : ty -> ty) (t : ty) : ty :=
  match t with
  | TList m v => TList m (r v)
  | TMap m k v => TMap m (r k) (r v)
  | TRecord m fs => TRecord m (map (fun f => (fst f, r (snd f))) fs)
  | _ => t
  end.
Fixpoint reference (t : ty) : ty := match ty_name t with [] => ref_kind reference t | x => named_none x end.

(** Types that can be read back: a named type has a name that is a word and that does not mean
    another type; an unnamed one is made of at least one field or value, and its attributes are
    words with values that need no quotes. *)
Definition depth_kind (d : ty -> nat) (t : ty) : nat :=
  match t with
  | TList _ v => S (d v)
  | TMap _ k v => S (Nat.max (d k) (d v))
  | TRecord _ fs => S (fold_right (fun f => Nat.max (d (snd f))) O fs)
  | _ => O
  end.
Fixpoint depth (t : ty) : nat := match ty_name t with [] => depth_kind depth t | _ => O end.
Definition readable_kind (r : ty -> Prop) (t : ty) : Prop :=
  match t with
  | TBasic m _ => attrs_ok (m_attrs m)
  | TEnum m fs => attrs_ok (m_attrs m) /\ fs <> [] /\ Forall word fs
  | TList m v => attrs_ok (m_attrs m) /\ r v
  | TMap m k v => attrs_ok (m_attrs m) /\ r k /\ r v
  | TRecord m fs => attrs_ok (m_attrs m) /\ fs <> [] /\ Forall word (map fst fs) /\ fold_right (fun f P => r (snd f) /\ P) True fs
  | _ => False
  end.
Fixpoint readable (t : ty) : Prop :=
  match ty_name t with
  | [] => readable_kind readable t
  | x => type_word x /\ ~ In x (map snd basics)
  end.
Lemma readable_eq : forall t, readable t = match ty_name t with [] => readable_kind readable t | x => type_word x /\ ~ In x (map snd basics) end.
Proof. now destruct t. Qed.
Lemma depth_eq : forall t, depth t = match ty_name t with [] => depth_kind depth t | _ => O end.
Proof. now destruct t. Qed.
Lemma show_type_eq : forall t, show_type t = match ty_name t with [] => show_kind show_type t | x => x end.
Proof. now destruct t. Qed.
Lemma reference_eq : forall t, reference t = match ty_name t with [] => ref_kind reference t | x => named_none x end.
Proof. now destruct t. Qed.

(** Texts of types start with a letter, a digit, an underscore or a dot. *)
Lemma show_head : forall t, readable t -> exists c x, show_type t = c :: x /\ identifier_char c = true.
Proof.
  intros t R. rewrite readable_eq in R. rewrite show_type_eq. destruct (ty_name t) as [|c x].
  - destruct t; cbn [readable_kind] in R; try contradiction; try (eexists _, _; split; reflexivity). destruct b; eexists _, _; split; reflexivity.
  - destruct R as ((_ & ID & _) & _). exists c, x. split; [reflexivity|]. cbn [forallb] in ID. apply andb_true_iff in ID. apply ID.
Qed.
Lemma show_skp : forall t s, readable t -> skp (show_type t ++ s) = Ok tt (show_type t ++ s) /\ skp (32 :: show_type t ++ s) = Ok tt (show_type t ++ s).
Proof.
  intros t s R. destruct (show_head t R) as (c & x & -> & I). cbn [app]. destruct (ident_plain c (x ++ s) I) as (S1 & S2 & _). split; [now apply skp_stop|now apply skp_blank].
Qed.
Lemma word_skp : forall x s, word x -> skp (x ++ s) = Ok tt (x ++ s) /\ skp (32 :: x ++ s) = Ok tt (x ++ s).
Proof.
  intros [|c x] s [NE I]; [contradiction|]. cbn [forallb] in I. apply andb_true_iff in I. destruct I as [I _]. cbn [app]. destruct (ident_plain c (x ++ s) I) as (S1 & S2 & _). split; [now apply skp_stop|now apply skp_blank].
Qed.
Lemma close_end : forall c s, type_follow c = true -> attr_end (c :: s).
Proof.
  intros c s H. assert (C : c = 44 \/ c = 62 \/ c = 125) by (unfold type_follow in H; lia). destruct C as [-> | [-> | ->] ]; reflexivity.
Qed.
Lemma quiet_ident : forall s, quiet s -> stops identifier_char s.
Proof. now intros s ((H & _) & _). Qed.

(** The core of a type, without its attributes. *)
Definition bare (t : ty) : ty :=
  match t with
  | TBasic _ b => TBasic no_meta b
  | TEnum _ fs => TEnum no_meta fs
  | TList _ v => TList no_meta v
  | TMap _ k v => TMap no_meta k v
  | TRecord _ fs => TRecord no_meta fs
  | _ => t
  end.
(** The last attribute of a type must not run into what follows. *)
Definition ending (t : ty) (s : text) : Prop := ty_name t <> [] \/ m_attrs (ty_meta t) = [] \/ attr_end s.
Definition reads (n : nat) (t : ty) : Prop := forall s, quiet s -> ending t s -> type_p n (show_type t ++ s) = Ok (reference t) s.

Lemma enum_reads : forall fs s, fs <> [] -> Forall word fs -> enum_p (chars "enum {" ++ join_text (chars ", ") fs ++ chr "}" :: s) = Ok (TEnum no_meta fs) s.
Proof.
  intros [|x fs] s NE W; [contradiction|]. inversion W as [|? ? W1 W2]; subst. unfold enum_p. change (chars "enum {") with (chars "enum" ++ chars " {"). rewrite <- app_assoc.
  rewrite (then_ok _ _ _ _ _ (lit_ok _ _)). change (chars " {") with [32; 123]. cbn [app].
  rewrite (then_ok _ _ _ _ _ (skp_blank _ (eq_refl : stops isspace (123 :: _)) eq_refl)). rewrite (then_ok _ _ _ _ _ (ch_ok (chr "{") _)).
  assert (E : forall y k, word y -> (k = chr "}" :: s \/ exists k', k = 44 :: k') ->
    then_ skp (skip_ identifier skp) (y ++ k) = Ok y k /\ then_ skp (skip_ identifier skp) (32 :: y ++ k) = Ok y k).
  { intros y k Wy Hk. destruct (word_skp y k Wy) as [K1 K2]. assert (KS : skp k = Ok tt k /\ stops identifier_char k) by (destruct Hk as [->|(k' & ->)]; split; try apply skp_stop; reflexivity).
    destruct KS as [KS1 KS2]. split; [rewrite (then_ok _ _ _ _ _ K1)|rewrite (then_ok _ _ _ _ _ K2)]; (eapply skip_ok; [now apply word_ok|exact KS1]). }
  assert (L : list_ (then_ skp (skip_ identifier skp)) (ch (chr ",")) (join_text (chars ", ") (x :: fs) ++ chr "}" :: s) = Ok (x :: fs) (chr "}" :: s)).
  { apply list_items; [intros k Hk; now apply E| |reflexivity]. clear W. induction fs as [|y fs IH]; constructor; inversion W2; subst; [intros k Hk; now apply E|now apply IH]. }
  rewrite (bind_ok _ _ _ _ _ L). erewrite then_ok; [|reflexivity]. rewrite (then_ok _ _ _ _ _ (ch_ok (chr "}") _)). reflexivity.
Qed.
Lemma list_reads : forall n v s, readable v -> reads n v -> list_type_p (type_p n) (chars "list<" ++ show_type v ++ chr ">" :: s) = Ok (TList no_meta (reference v)) s.
Proof.
  intros n v s R H. unfold list_type_p. change (chars "list<") with (chars "list" ++ [60]). rewrite <- app_assoc. rewrite (then_ok _ _ _ _ _ (lit_ok _ _)). cbn [app].
  rewrite (then_ok _ _ _ _ _ (skp_stop _ (eq_refl : stops isspace (60 :: _)) eq_refl)). rewrite (then_ok _ _ _ _ _ (ch_ok (chr "<") _)).
  rewrite (then_ok _ _ _ _ _ (proj1 (show_skp v _ R))). rewrite (bind_ok _ _ _ _ _ (H _ (quiet_close (chr ">") s eq_refl) (or_intror (or_intror (close_end (chr ">") s eq_refl))))).
  rewrite (then_ok _ _ _ _ _ (skp_stop (chr ">" :: s) eq_refl eq_refl)). now rewrite (then_ok _ _ _ _ _ (ch_ok (chr ">") _)).
Qed.
Lemma map_reads : forall n k v s, readable k -> readable v -> reads n k -> reads n v ->
  map_type_p (type_p n) (chars "map<" ++ show_type k ++ chars ", " ++ show_type v ++ chr ">" :: s) = Ok (TMap no_meta (reference k) (reference v)) s.
Proof.
  intros n k v s Rk Rv Hk Hv. unfold map_type_p. change (chars "map<") with (chars "map" ++ [60]). rewrite <- app_assoc. rewrite (then_ok _ _ _ _ _ (lit_ok _ _)). cbn [app].
  rewrite (then_ok _ _ _ _ _ (skp_stop _ (eq_refl : stops isspace (60 :: _)) eq_refl)). rewrite (then_ok _ _ _ _ _ (ch_ok (chr "<") _)).
  rewrite (then_ok _ _ _ _ _ (proj1 (show_skp k _ Rk))). change (chars ", ") with [chr ","; 32]. cbn [app].
  rewrite (bind_ok _ _ _ _ _ (Hk _ (quiet_close (chr ",") _ eq_refl) (or_intror (or_intror (close_end (chr ",") _ eq_refl))))).
  rewrite (then_ok _ _ _ _ _ (skp_stop _ (eq_refl : stops isspace (chr "," :: _)) eq_refl)). rewrite (then_ok _ _ _ _ _ (ch_ok (chr ",") _)).
  rewrite (then_ok _ _ _ _ _ (proj2 (show_skp v _ Rv))). rewrite (bind_ok _ _ _ _ _ (Hv _ (quiet_close (chr ">") s eq_refl) (or_intror (or_intror (close_end (chr ">") s eq_refl))))).
  rewrite (then_ok _ _ _ _ _ (skp_stop (chr ">" :: s) eq_refl eq_refl)). now rewrite (then_ok _ _ _ _ _ (ch_ok (chr ">") _)).
Qed.
Lemma fields_fold : forall (P : ty -> Prop) fs, fold_right (fun f Q => P (snd f) /\ Q) True fs <-> Forall (fun f : list N * ty => P (snd f)) fs.
Proof.
  intros P fs. induction fs as [|f fs IH]; cbn [fold_right]; split; intros H; [constructor|exact Logic.I| |].
  - destruct H as [H1 H2]. constructor; [exact H1|now apply IH].
  - inversion H; subst. split; [assumption|now apply IH].
Qed.
Lemma record_reads : forall n fs s, fs <> [] -> Forall word (map fst fs) -> Forall (fun f => readable (snd f)) fs -> Forall (fun f => reads n (snd f)) fs ->
  record_p (type_p n) (chars "record{" ++ join_text (chars ", ") (map (fun f => fst f ++ chars ": " ++ show_type (snd f)) fs) ++ chr "}" :: s)
  = Ok (TRecord no_meta (map (fun f => (fst f, reference (snd f))) fs)) s.
Proof.
  intros n fs s NE W R H. unfold record_p. change (chars "record{") with (chars "record" ++ [123]). rewrite <- app_assoc.
  rewrite (then_ok _ _ _ _ _ (lit_ok _ _)). cbn [app].
  rewrite (then_ok _ _ _ _ _ (skp_stop _ (eq_refl : stops isspace (123 :: _)) eq_refl)). rewrite (then_ok _ _ _ _ _ (ch_ok (chr "{") _)).
  set (e := then_ skp (skip_ (field_p (type_p n)) skp)). set (txt := fun f : list N * ty => fst f ++ chars ": " ++ show_type (snd f)).
  assert (E : forall f k, word (fst f) -> readable (snd f) -> reads n (snd f) -> (k = chr "}" :: s \/ exists k', k = 44 :: k') ->
    e (txt f ++ k) = Ok (fst f, reference (snd f)) k /\ e (32 :: txt f ++ k) = Ok (fst f, reference (snd f)) k).
  { intros [y t] k Wy Rt Ht Hk. cbn [fst snd] in *. unfold txt. cbn [fst snd]. rewrite <- app_assoc.
    destruct (word_skp y (((chars ": " ++ show_type t)) ++ k) Wy) as [K1 K2].
    assert (KS : skp k = Ok tt k /\ quiet k /\ attr_end k) by (destruct Hk as [->|(k' & ->)]; (split; [apply skp_stop; reflexivity|split; [now apply quiet_close|now apply close_end] ])).
    destruct KS as (KS1 & KS2 & KS3).
    assert (F : field_p (type_p n) (y ++ (chars ": " ++ show_type t) ++ k) = Ok (y, reference t) k).
    { change (chars ": ") with [chr ":"; 32]. cbn [app]. unfold field_p. erewrite bind_ok; [|eapply alt_ok; now apply word_ok].
      rewrite (then_ok _ _ _ _ _ (skp_stop _ (eq_refl : stops isspace (chr ":" :: _)) eq_refl)). rewrite (then_ok _ _ _ _ _ (ch_ok (chr ":") _)).
      rewrite (then_ok _ _ _ _ _ (proj2 (show_skp t _ Rt))). now rewrite (act_ok _ _ _ _ _ (Ht k KS2 (or_intror (or_intror KS3)))). }
    unfold e. split; [rewrite (then_ok _ _ _ _ _ K1)|rewrite (then_ok _ _ _ _ _ K2)]; (eapply skip_ok; [exact F|exact KS1]). }
  destruct fs as [|f fs]; [contradiction|]. cbn [map].
  assert (L : list_ e (ch (chr ",")) (join_text (chars ", ") (txt f :: map txt fs) ++ chr "}" :: s) = Ok ((fst f, reference (snd f)) :: map (fun f => (fst f, reference (snd f))) fs) (chr "}" :: s)).
  { cbn [map] in W. inversion W; subst. inversion R; subst. inversion H; subst. apply list_items; [intros k Hk; now apply E| |reflexivity].
    clear NE W R H. induction fs as [|g fs IH]; cbn [map] in *; constructor.
    - intros k Hk. repeat match goal with Q : Forall _ (_ :: _) |- _ => inversion Q; clear Q; subst end. now apply E.
    - repeat match goal with Q : Forall _ (_ :: _) |- _ => inversion Q; clear Q; subst end. now apply IH. }
  rewrite (bind_ok _ _ _ _ _ L). erewrite then_ok; [|reflexivity]. rewrite (then_ok _ _ _ _ _ (ch_ok (chr "}") _)). reflexivity.
Qed.

(** A bracket behind a keyword is no operator. *)
Lemma bracket_plain : forall c x s, identifier_char c = true -> plain (60 :: (c :: x) ++ s).
Proof.
  intros c x s H. split; [reflexivity|]. eexists. split; [apply skp_stop; reflexivity|]. split; [reflexivity|]. split; [reflexivity|]. intros o. unfold algebra_p.
  rewrite any_cons, alt_no by (apply then_no, lit_no; reflexivity). rewrite any_cons, alt_no by (apply then_no, ch_no; reflexivity).
  rewrite any_cons, alt_no; [rewrite any_cons, alt_no by (apply then_no, ch_no; reflexivity); reflexivity|]. apply then_no. cbn [chars lit app]. change (N_of_ascii "<" =? 60) with true. cbv iota.
  change (N_of_ascii "+") with 43. destruct (N.eqb_spec 43 c); [|reflexivity]. subst c. discriminate H.
Qed.
Lemma brace_plain : forall s, plain (32 :: 123 :: s).
Proof. intros s. split; [reflexivity|]. eexists. split; [apply skp_blank; reflexivity|]. repeat split; reflexivity. Qed.

Lemma finish : forall n core u xs s, attrs_ok xs -> quiet s -> xs = [] \/ attr_end s ->
  any_of [type_expr_p n; basic_p; enum_p; list_type_p (type_p n); map_type_p (type_p n); record_p (type_p n); placeholder_p] (core ++ show_attrs xs ++ s) = Ok u (show_attrs xs ++ s) ->
  type_p (S n) (core ++ show_attrs xs ++ s) = Ok (with_attrs u xs) s.
Proof.
  intros n core u xs s [A _] Q E H. cbn [type_p]. rewrite (bind_ok _ _ _ _ _ H). now rewrite (act_ok _ _ _ _ _ (attrs_read xs s A E Q)).
Qed.
Lemma meta_back : forall m, m_name m = [] -> attrs_ok (m_attrs m) -> {| m_name := []; m_attrs := fold_left SyntaxModel.update_attr (m_attrs m) [] |} = m.
Proof. intros [x a] E [_ ND]. cbn [m_name m_attrs] in *. subst x. now rewrite update_fresh. Qed.
Lemma head_ident : forall t s, readable t -> exists c x, show_type t ++ s = (c :: x) ++ s /\ identifier_char c = true.
Proof. intros t s R. destruct (show_head t R) as (c & x & -> & I). eauto. Qed.

Lemma name_reads : forall n x s, type_word x -> ~ In x (map snd basics) -> quiet s -> type_p (S (S n)) (x ++ s) = Ok (named_none x) s.
Proof.
  intros n x s W NB Q. pose proof W as (NE & ID & KW). pose proof (quiet_ident s Q) as ST. destruct (compounds_no (S n) x s W ST) as (C1 & C2 & C3 & C4).
  assert (P : any_of [type_expr_p (S n); basic_p; enum_p; list_type_p (type_p (S n)); map_type_p (type_p (S n)); record_p (type_p (S n)); placeholder_p] (x ++ s) = Ok (named_none x) s).
  { rewrite any_cons, alt_no by (apply type_expr_word; [exact NE|exact ID|intros X; apply KW; rewrite X; cbn; auto|apply Q]).
    rewrite any_cons, alt_no by (now apply basic_no). rewrite any_cons, alt_no by exact C1. rewrite any_cons, alt_no by exact C2. rewrite any_cons, alt_no by exact C3. rewrite any_cons, alt_no by exact C4.
    rewrite any_cons. eapply alt_ok. unfold placeholder_p. erewrite act_ok; [reflexivity|]. now apply word_ok. }
  exact (finish (S n) x _ [] s (conj (Forall_nil _) (NoDup_nil _)) Q (or_introl eq_refl) P).
Qed.

Lemma type_reads : forall t n, readable t -> (2 * depth t + 2 <= n)%nat -> reads n t.
Proof.
  induction t as [|m|m b|m es|m v IHv|m kt vt IHk IHv|m fs IH|m v IHv] using ty_rect'; intros n R Hn s Q E; destruct n as [|[|n] ]; try (exfalso; clear - Hn; lia).
  all: rewrite show_type_eq, reference_eq; rewrite readable_eq in R; rewrite depth_eq in Hn; unfold ending, ty_name in *; cbn [ty_meta] in *.
  all: match goal with |- context [match ?y with [] => _ | _ => _ end] => destruct y as [|c x] eqn:NM end.
  (* names *)
  all: try (destruct R as (W & NB); now apply name_reads).
  all: cbn [readable_kind] in R; try contradiction.
  all: cbn [depth_kind] in Hn; destruct E as [E|E]; [contradiction|].
  all: cbn [show_kind ref_kind].
  - (* basic *) rewrite <- app_assoc. rewrite (finish (S n) _ (TBasic no_meta b) _ s R Q E); [cbn [with_attrs no_meta m_name m_attrs]; now rewrite meta_back|].
    pose proof (attrs_plain (m_attrs m) s Q) as PL. destruct (basic_word b) as (NE & ID & KW).
    rewrite any_cons, alt_no by (apply type_expr_word; [exact NE|exact ID|intros X; apply KW; rewrite X; cbn; auto|exact PL]).
    rewrite any_cons. eapply alt_ok. apply basic_ok. apply PL.
  - (* enum *) destruct R as (A & NE & W).
    replace ((chars "enum {" ++ join_text (chars ", ") es ++ chr "}" :: show_attrs (m_attrs m)) ++ s) with ((chars "enum {" ++ join_text (chars ", ") es ++ [chr "}"]) ++ show_attrs (m_attrs m) ++ s) by (now rewrite <- !app_assoc).
    rewrite (finish (S n) _ (TEnum no_meta es) _ s A Q E); [cbn [with_attrs no_meta m_name m_attrs]; now rewrite meta_back|].
    rewrite <- !app_assoc. cbn [app]. set (k := show_attrs (m_attrs m) ++ s).
    change (chars "enum {" ++ join_text (chars ", ") es ++ chr "}" :: k) with (chars "enum" ++ 32 :: 123 :: (join_text (chars ", ") es ++ chr "}" :: k)).
    rewrite any_cons, alt_no by (apply type_expr_word; [discriminate|reflexivity|discriminate|apply brace_plain]).
    rewrite any_cons, alt_no by (apply basic_no; [reflexivity|reflexivity|cbn; intros X; repeat (destruct X as [X|X]; [discriminate X|]); exact X]).
    rewrite any_cons. eapply alt_ok. exact (enum_reads es k NE W).
  - (* list *) destruct R as (A & Rv). assert (Hv : reads (S n) v) by (apply IHv; [exact Rv|lia]).
    replace ((chars "list<" ++ show_type v ++ chr ">" :: show_attrs (m_attrs m)) ++ s) with ((chars "list<" ++ show_type v ++ [chr ">"]) ++ show_attrs (m_attrs m) ++ s) by (now rewrite <- !app_assoc).
    rewrite (finish (S n) _ (TList no_meta (reference v)) _ s A Q E); [cbn [with_attrs no_meta m_name m_attrs]; now rewrite meta_back|].
    rewrite <- !app_assoc. cbn [app]. set (k := show_attrs (m_attrs m) ++ s).
    assert (P : plain (60 :: show_type v ++ chr ">" :: k)) by (destruct (head_ident v (chr ">" :: k) Rv) as (c & x & -> & I); now apply bracket_plain).
    change (chars "list<" ++ show_type v ++ chr ">" :: k) with (chars "list" ++ 60 :: (show_type v ++ chr ">" :: k)).
    rewrite any_cons, alt_no by (apply type_expr_word; [discriminate|reflexivity|discriminate|exact P]).
    rewrite any_cons, alt_no by (apply basic_no; [reflexivity|reflexivity|cbn; intros X; repeat (destruct X as [X|X]; [discriminate X|]); exact X]).
    rewrite any_cons, alt_no by (unfold enum_p; apply keyword_no; [cbn; auto|reflexivity|reflexivity|discriminate|auto]).
    rewrite any_cons. eapply alt_ok. exact (list_reads (S n) v k Rv Hv).
  - (* map *) destruct R as (A & Rk & Rv). assert (Hk : reads (S n) kt) by (apply IHk; [exact Rk|lia]). assert (Hv : reads (S n) vt) by (apply IHv; [exact Rv|lia]).
    replace ((chars "map<" ++ show_type kt ++ chars ", " ++ show_type vt ++ chr ">" :: show_attrs (m_attrs m)) ++ s) with ((chars "map<" ++ show_type kt ++ chars ", " ++ show_type vt ++ [chr ">"]) ++ show_attrs (m_attrs m) ++ s) by (now rewrite <- !app_assoc).
    rewrite (finish (S n) _ (TMap no_meta (reference kt) (reference vt)) _ s A Q E); [cbn [with_attrs no_meta m_name m_attrs]; now rewrite meta_back|].
    rewrite <- !app_assoc. cbn [app]. set (k := show_attrs (m_attrs m) ++ s). set (z := chars ", " ++ show_type vt ++ chr ">" :: k).
    assert (P : plain (60 :: show_type kt ++ z)) by (destruct (head_ident kt z Rk) as (c & x & -> & I); now apply bracket_plain).
    change (chars "map<" ++ show_type kt ++ z) with (chars "map" ++ 60 :: (show_type kt ++ z)).
    rewrite any_cons, alt_no by (apply type_expr_word; [discriminate|reflexivity|discriminate|exact P]).
    rewrite any_cons, alt_no by (apply basic_no; [reflexivity|reflexivity|cbn; intros X; repeat (destruct X as [X|X]; [discriminate X|]); exact X]).
    rewrite any_cons, alt_no by (unfold enum_p; apply keyword_no; [cbn; auto|reflexivity|reflexivity|discriminate|auto]).
    rewrite any_cons, alt_no by (unfold list_type_p; apply keyword_no; [cbn; auto|reflexivity|reflexivity|discriminate|auto]).
    rewrite any_cons. eapply alt_ok. exact (map_reads (S n) kt vt k Rk Rv Hk Hv).
  - (* record *) destruct R as (A & NE & W & Rf). rewrite fields_fold in Rf.
    assert (Hd : forall f, In f fs -> (depth (snd f) < S (fold_right (fun f => Nat.max (depth (snd f))) O fs))%nat).
    { intros f Hf. clear - Hf. induction fs as [|g fs IH]; [destruct Hf|]. cbn [fold_right]. destruct Hf as [->|Hf]; [lia|specialize (IH Hf); lia]. }
    assert (Hf : forall k, (2 * S (fold_right (fun f => Nat.max (depth (snd f))) O fs) <= k)%nat -> Forall (fun f => reads k (snd f)) fs).
    { intros k Hk. apply Forall_forall. intros f Hf. rewrite Forall_forall in IH, Rf. apply IH; [exact Hf|now apply Rf|]. specialize (Hd f Hf). lia. }
    replace ((chars "record{" ++ join_text (chars ", ") (map (fun f => fst f ++ chars ": " ++ show_type (snd f)) fs) ++ chr "}" :: show_attrs (m_attrs m)) ++ s)
      with ((chars "record{" ++ join_text (chars ", ") (map (fun f => fst f ++ chars ": " ++ show_type (snd f)) fs) ++ [chr "}"]) ++ show_attrs (m_attrs m) ++ s) by (now rewrite <- !app_assoc).
    rewrite (finish (S n) _ (TRecord no_meta (map (fun f => (fst f, reference (snd f))) fs)) _ s A Q E); [cbn [with_attrs no_meta m_name m_attrs]; now rewrite meta_back|].
    rewrite <- !app_assoc. cbn [app]. set (k := show_attrs (m_attrs m) ++ s). pose proof (attrs_plain (m_attrs m) s Q) as PL. fold k in PL.
    set (body := join_text (chars ", ") (map (fun f => fst f ++ chars ": " ++ show_type (snd f)) fs) ++ chr "}" :: k).
    change (chars "record{" ++ join_text (chars ", ") (map (fun f => fst f ++ chars ": " ++ show_type (snd f)) fs) ++ chr "}" :: k) with (chars "record{" ++ body).
    assert (TE : type_expr_p (S n) (chars "record{" ++ body) = No).
    { cbn [type_expr_p]. set (o := any_of [record_p (type_p n); placeholder_p; type_expr_p n]).
      assert (O : o (chars "record{" ++ body) = Ok (TRecord no_meta (map (fun f => (fst f, reference (snd f))) fs)) k)
        by (unfold o; rewrite any_cons; eapply alt_ok; apply record_reads; [exact NE|exact W|exact Rf|apply Hf; lia]).
      rewrite (bind_ok _ _ _ _ _ O). destruct PL as (_ & r & K & S1 & S2 & G). rewrite (then_ok _ _ _ _ _ K). apply act_no. unfold plus. apply bind_no. rewrite (then_ok _ _ _ _ _ (skp_stop r S1 S2)). apply G. }
    rewrite any_cons, alt_no by exact TE.
    change (chars "record{" ++ body) with (chars "record" ++ 123 :: body).
    rewrite any_cons, alt_no by (apply basic_no; [reflexivity|reflexivity|cbn; intros X; repeat (destruct X as [X|X]; [discriminate X|]); exact X]).
    rewrite any_cons, alt_no by (unfold enum_p; apply keyword_no; [cbn; auto|reflexivity|reflexivity|discriminate|auto]).
    rewrite any_cons, alt_no by (unfold list_type_p; apply keyword_no; [cbn; auto|reflexivity|reflexivity|discriminate|auto]).
    rewrite any_cons, alt_no by (unfold map_type_p; apply keyword_no; [cbn; auto|reflexivity|reflexivity|discriminate|auto]).
    rewrite any_cons. eapply alt_ok. change (chars "record" ++ 123 :: body) with (chars "record{" ++ body). apply record_reads; [exact NE|exact W|exact Rf|apply Hf; lia].
Qed.

(** The text of a type is long enough for its depth. *)
Lemma join_total : forall sep ts t, In t ts -> (length t <= length (join_text sep ts))%nat.
Proof.
  intros sep [|x ts] t H; [destruct H|]. cbn [join_text]. rewrite app_length. destruct H as [->|H]; [lia|]. induction ts as [|y ts IH]; [destruct H|].
  cbn [flat_map]. rewrite !app_length. destruct H as [->|H]; [lia|]. specialize (IH H). lia.
Qed.
Lemma depth_length : forall t, readable t -> (2 * depth t + 1 <= length (show_type t))%nat.
Proof.
  induction t as [|m|m b|m es|m v IHv|m kt vt IHk IHv|m fs IH|m v IHv] using ty_rect'; intros R; rewrite show_type_eq, depth_eq; rewrite readable_eq in R; unfold ty_name in *; cbn [ty_meta] in *.
  all: match goal with |- context [match ?y with [] => _ | _ => _ end] => destruct y as [|c x] eqn:NM end; try (cbn; lia).
  all: cbn [readable_kind] in R; try contradiction; cbn [show_kind depth_kind]; repeat rewrite app_length; cbn [length]; repeat rewrite app_length;
    change (length (chars "enum {")) with 6%nat; change (length (chars "list<")) with 5%nat; change (length (chars "map<")) with 4%nat; change (length (chars "record{")) with 7%nat; cbn [length]; repeat rewrite app_length; cbn [length].
  - destruct b; cbn; lia.
  - destruct R as [_ R]. specialize (IHv R). lia.
  - destruct R as (_ & R1 & R2). specialize (IHk R1). specialize (IHv R2). lia.
  - destruct R as (_ & _ & _ & R). rewrite fields_fold in R. set (l := map _ fs).
    assert (G : forall f, In f fs -> (2 * depth (snd f) + 1 <= length (join_text (chars ", ") l))%nat).
    { intros f Hf. rewrite Forall_forall in IH, R. specialize (IH f Hf (R f Hf)). pose proof (join_total (chars ", ") l _ (in_map _ _ _ Hf)) as J. cbn beta in J. rewrite !app_length in J. lia. }
    assert (M : (2 * fold_right (fun f => Nat.max (depth (snd f))) O fs <= length (join_text (chars ", ") l))%nat).
    { clear - G. clearbody l. induction fs as [|f fs IH]; [cbn; lia|]. cbn [fold_right]. pose proof (G f (or_introl eq_refl)). assert ((2 * fold_right (fun f => Nat.max (depth (snd f))) 0 fs <= length (join_text (chars ", ") l))%nat) by (apply IH; intros g Hg; apply G; now right). lia. }
    lia.
Qed.
