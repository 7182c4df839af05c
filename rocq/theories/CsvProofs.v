(** Proofs about the import of comma-separated values. *)
From Coq Require Import List ZArith NArith Bool Arith Lia ZifyBool ZifyNat ZifyN.
From Verif Require Import AddressModel AddressProofs DataModel EscapeModel LiteralModel LiteralProofs CsvModel.
Import ListNotations.
Open Scope N_scope.

(** * What the cells of a file say *)

(** The number that decimal digits write down. *)
Fixpoint weigh (ds : text) : N := match ds with [] => 0 | d :: r => (d - 48) * 10 ^ N.of_nat (length r) + weigh r end.
Definition decimal_digits (ds : text) : Prop := ds <> [] /\ Forall (fun c => 48 <= c <= 57) ds.
(** Text of a byte. *)
Definition byte_text (ds : text) (x : N) : Prop := decimal_digits ds /\ (length ds <= 3)%nat /\ weigh ds = x /\ x < 256.
(** Between double quotes, a double quote has a backslash in front. *)
Definition in_quotes (s : text) : text := flat_map (fun c => if c =? 34 then [92; 34] else [c]) s.
(** Characters that are not control characters, and no backslash. *)
Definition visible (s : text) : Prop := Forall (fun c => 32 <= c /\ c <> 127 /\ c <> 92) s.
(** Text without comma that does not start with a double quote. *)
Definition plain (s : text) : Prop := s <> [] /\ ~ In 44 s /\ hd 0 s <> 34.
(** A cell ends at a comma or with the line. *)
Definition ends (r : text) : Prop := match r with [] => True | c :: _ => c = 44 end.

Section Spec.
  Variable A : arith.

  Inductive number : column -> text -> data -> Prop :=
  | says_true : number KBool [84] (DBool true)
  | says_false : number KBool [70] (DBool false)
  | says_count : forall ds, decimal_digits ds -> (length ds <= 20)%nat -> weigh ds < 2 ^ 64 -> number KCount ds (DCount (weigh ds))
  | says_int : forall ds, decimal_digits ds -> (length ds <= 19)%nat -> weigh ds < 2 ^ 63 -> number KInt ds (DInt (Z.of_N (weigh ds)))
  | says_plus : forall ds, decimal_digits ds -> (length ds <= 19)%nat -> weigh ds < 2 ^ 63 -> number KInt (43 :: ds) (DInt (Z.of_N (weigh ds)))
  | says_minus : forall ds, decimal_digits ds -> (length ds <= 19)%nat -> weigh ds <= 2 ^ 63 -> number KInt (45 :: ds) (DInt (- Z.of_N (weigh ds)))
  | says_address : forall s a, address_text s a -> number KAddress s (DAddress a)
  | says_subnet : forall s a ds, address_text s a -> decimal_digits ds -> (length ds <= 3)%nat -> weigh ds <= 32 -> number KSubnet (s ++ 47 :: ds) (DSubnet (sn_make a (weigh ds)))
  with address_text : text -> address -> Prop :=
  | says_v4 : forall p q s t a b c d, byte_text p a -> byte_text q b -> byte_text s c -> byte_text t d ->
      address_text (p ++ 46 :: q ++ 46 :: s ++ 46 :: t) (v4_prefix ++ [a; b; c; d]).

  (** The types of the elements of lists for which that holds. *)
  Definition scalar (t : column) : Prop := match t with KBool | KInt | KCount | KReal | KDuration | KTime | KAddress | KSubnet => True | _ => False end.
  (** [says t s v]: in a column of type [t], the cell [s] stands for [v]. *)
  Inductive says : column -> text -> data -> Prop :=
  | says_null : forall t, (forall names, t <> KEnum names) -> says t [] DNone
  | says_number : forall t s v, number t s v -> says t s v
  | says_plain : forall s, plain s -> says KString s (DString s)
  | says_quoted : forall s, visible s -> says KString (34 :: in_quotes s ++ [34]) (DString s)
  | says_pattern : forall s, s <> [] -> ~ In 44 s -> says KPattern s (DPattern s)
  | says_enum : forall names s i, plain s -> nth_error names i = Some s -> ~ In s (firstn i names) -> (i < 256)%nat -> says (KEnum names) s (DEnum (N.of_nat i))
  | says_unknown : forall names s, plain s -> ~ In s names -> says (KEnum names) s DNone
  | says_list : forall t xs vs, scalar t -> Forall2 (fun x v => exists k s, x = repeat 32 k ++ s /\ number t s v) xs vs ->
      says (KList t) (91 :: match xs with [] => [] | x :: l => x ++ flat_map (fun y => 44 :: y) l end ++ [93]) (DList vs)
  (** Times, durations and reals are written as in queries (see C55 and C60). *)
  | says_time : forall s z, (forall r, follow r = true -> time_p A (s ++ r) = Ok z r) -> says KTime s (DTime z)
  | says_duration : forall s z, (forall r, follow r = true -> duration_p A (s ++ r) = Ok z r) -> says KDuration s (DDuration z)
  | says_real : forall s d, (forall r, follow r = true -> real_ true (s ++ r) = Ok d r) -> says KReal s (DReal (a_real A d)).

  (** The line with these cells. *)
  Definition join_cells (cs : list text) : text := match cs with [] => [] | c :: r => c ++ flat_map (fun x => 44 :: x) r end.
  Definition line_says (ts : list column) (l : text) (row : list data) : Prop :=
    exists cs, l = join_cells cs /\ length cs = length ts /\ length row = length ts /\
      forall i t c v, nth_error ts i = Some t -> nth_error cs i = Some c -> nth_error row i = Some v -> says t c v.
End Spec.

(** * Cells *)

Lemma ends_follow : forall r, ends r -> follow r = true.
Proof. intros [|c r] H; [reflexivity|]. cbn in H. subst c. reflexivity. Qed.
Lemma weigh_num : forall ds, weigh ds = num ds.
Proof.
  assert (G : forall ds n, fold_left (fun n c => n * 10 + (c - 48)) ds n = n * 10 ^ N.of_nat (length ds) + weigh ds).
  { induction ds as [|d ds IH]; intros n; [cbn; lia|]. cbn [fold_left weigh length]. rewrite IH, Nat2N.inj_succ, N.pow_succ_r'. lia. }
  intros ds. unfold num. rewrite G. lia.
Qed.
Lemma digits_forallb : forall ds, decimal_digits ds -> forallb isdigit ds = true /\ (1 <= length ds)%nat.
Proof.
  intros ds [H F]. split; [|destruct ds; [contradiction|cbn; lia] ]. apply forallb_forall. rewrite Forall_forall in F. intros x Hx. specialize (F x Hx). unfold isdigit. lia.
Qed.

Lemma plus_ext : forall {B} (p q : parser B), (forall s, p s = q s) -> forall s, plus p s = plus q s.
Proof.
  intros B p q E. assert (K : forall n s, kleene_ n p s = kleene_ n q s). { induction n; intros s; cbn [kleene_]; [reflexivity|]. rewrite E. destruct (q s); auto. now rewrite IHn. }
  intros s. unfold plus, bind, act, bind, kleene. rewrite E. destruct (q s); auto. now rewrite K.
Qed.
Lemma but_comma : forall s, but [[44] ] s = sat (fun c => negb (c =? 44)) s.
Proof. intros [|c s]; [reflexivity|]. unfold but. cbn [existsb lit sat]. rewrite N.eqb_sym. destruct (c =? 44); reflexivity. Qed.
Lemma plus_but : forall s r, s <> [] -> ~ In 44 s -> ends r -> plus (but [[44] ]) (s ++ r) = Ok s r.
Proof.
  intros s r H I E. rewrite (plus_ext _ _ but_comma). destruct s as [|c s]; [contradiction|]. apply plus_sat.
  - apply forallb_forall. intros x Hx. destruct (N.eqb_spec x 44); [subst; contradiction|reflexivity].
  - destruct r as [|d r]; [exact Logic.I|]. cbn in *. subst d. reflexivity.
Qed.
Lemma plus_but_none : forall r, ends r -> plus (but [[44] ]) r = No.
Proof. intros r E. rewrite (plus_ext _ _ but_comma). unfold plus. apply bind_no. destruct r as [|d r]; [reflexivity|]. cbn in *. subst d. reflexivity. Qed.

Lemma quoted_in : forall s r, visible s -> quoted c_quote (34 :: in_quotes s ++ 34 :: r) = Ok s r.
Proof.
  intros s r V. apply quoted_ok with (l := map (fun c => [c]) s).
  - induction V as [|c s (H1 & H2 & H3) V IH]; [apply steps_nil, str_chr_end; reflexivity|]. cbn [in_quotes flat_map map]. rewrite <- app_assoc.
    destruct (N.eqb_spec c 34) as [->|Hc].
    + cbn [app]. eapply steps_cons; [apply str_chr_quote|cbn [length]; lia|exact IH].
    + cbn [app]. eapply steps_cons; [apply str_chr_plain|cbn [length]; lia|exact IH]; [now apply N.eqb_neq|unfold iscntrl; lia|now apply N.eqb_neq].
  - induction s; [reflexivity|]. cbn. f_equal. apply IHs. now inversion V.
Qed.
Lemma quoted_none : forall s, hd 0 s <> 34 -> quoted c_quote s = No.
Proof. intros s H. unfold quoted. apply then_no, ch_no. destruct s as [|c s]; [exact Logic.I|]. cbn [hd stops] in *. unfold c_quote. apply N.eqb_neq. congruence. Qed.

Section Cells.
  Variable A : arith.
  Notation cell := (cell A defaults).

  Lemma field_plain : forall s r, plain s -> ends r -> field defaults (s ++ r) = Ok s r.
  Proof.
    intros s r (N1 & N2 & N3) E. unfold field. rewrite alt_no; [now apply plus_but|]. apply quoted_none. destruct s; [contradiction|exact N3].
  Qed.
  Lemma field_none : forall r, ends r -> field defaults r = No.
  Proof. intros r E. unfold field. rewrite alt_no; [now apply plus_but_none|]. apply quoted_none. destruct r; cbn in *; [discriminate|subst; discriminate]. Qed.

  Lemma or_null_ok : forall p s v r, p s = Ok v r -> or_null p s = Ok v r.
  Proof. intros p s v r H. unfold or_null. erewrite act_ok; [|unfold maybe; rewrite H; reflexivity]. reflexivity. Qed.
  Lemma or_null_no : forall p s, p s = No -> or_null p s = Ok DNone s.
  Proof. intros p s H. unfold or_null. erewrite act_ok; [|unfold maybe; rewrite H; reflexivity]. reflexivity. Qed.

  Lemma null_ok : forall t r, (forall names, t <> KEnum names) -> ends r -> cell t r = Ok DNone r.
  Proof.
    intros t r H E. destruct t; cbn [CsvModel.cell make_parser]; try (exfalso; now apply (H fields)); apply or_null_no; try (now apply act_no, field_none);
      try (now apply act_no, plus_but_none); (destruct r as [|c r]; [reflexivity|cbn in E; subst c; reflexivity]).
  Qed.

  (** ** Numbers and addresses *)

  Lemma dec_text : forall ds x r, byte_text ds x -> stops isdigit r -> dec (ds ++ r) = Ok x r.
  Proof.
    intros ds x r (D & L & W & B) S. apply digits_forallb in D. destruct D as [D L1]. rewrite weigh_num in W. unfold dec, guard.
    erewrite bind_ok; [|apply udec_ok; [exact D|exact S|lia|rewrite W; change (2 ^ 16) with 65536; lia] ]. rewrite W. destruct (N.ltb_spec x 256); [reflexivity|lia].
  Qed.
  Lemma address_ok : forall s a r, address_text s a -> stops isdigit r -> addr_p A (s ++ r) = Ok a r.
  Proof.
    intros s a r [p q u t w x y z P Q U T] S. unfold addr_p. eapply alt_ok. erewrite act_ok; [reflexivity|].
    unfold v4. rewrite <- app_assoc. cbn [app]. rewrite <- app_assoc. cbn [app]. rewrite <- app_assoc. cbn [app].
    erewrite bind_ok; [|eapply skip_ok; [apply dec_text; [exact P|reflexivity]|apply ch_ok] ].
    erewrite bind_ok; [|eapply skip_ok; [apply dec_text; [exact Q|reflexivity]|apply ch_ok] ].
    erewrite bind_ok; [|eapply skip_ok; [apply dec_text; [exact U|reflexivity]|apply ch_ok] ].
    erewrite bind_ok; [|apply dec_text; [exact T|exact S] ]. reflexivity.
  Qed.
  Lemma address_v4 : forall s a, address_text s a -> is_v4 a = true.
  Proof. intros s a []. reflexivity. Qed.
  Lemma address_start : forall s a, address_text s a -> match s with [] => False | c :: _ => isspace c = false end.
  Proof.
    intros s a [p q u t w x y z ((H & F) & _) _ _ _]. destruct p as [|c p]; [contradiction|]. inversion F as [|c' p' F1 F2]. cbn [app]. unfold isspace. lia.
  Qed.
  Lemma sdec_text : forall sg ds r, signed sg -> decimal_digits ds -> (length ds <= 19)%nat -> follow r = true ->
    let z := match sg with [45] => (- Z.of_N (weigh ds))%Z | _ => Z.of_N (weigh ds) end in
    (- 2 ^ 63 <= z < 2 ^ 63)%Z -> sdec 19 1 64 (sg ++ ds ++ r) = Ok z r.
  Proof.
    intros sg ds r Hs D L F z B. apply digits_forallb in D. destruct D as [D L1]. unfold sdec. rewrite sign_digits by assumption.
    rewrite take_fit; [|exact D|apply follow_stops; [exact F|reflexivity]|lia]. destruct (Nat.ltb_spec (length ds) 1); [lia|].
    rewrite <- weigh_num. assert (E : (if match sg with [45] => true | _ => false end then (- Z.of_N (weigh ds))%Z else Z.of_N (weigh ds)) = z).
    { unfold z. destruct Hs as [-> | [-> | ->] ]; reflexivity. }
    rewrite E. change (64 - 1)%Z with 63%Z. destruct ((- 2 ^ 63 <=? z) && (z <? 2 ^ 63))%Z eqn:C; [reflexivity|]. lia.
  Qed.
  Lemma number_ok : forall t s v, number t s v -> exists p, make_parser A t = Some p /\ fits t v = true /\
    match s with [] => False | c :: _ => isspace c = false end /\ forall r, follow r = true -> p (s ++ r) = Ok v r.
  Proof.
    assert (DS : forall ds, decimal_digits ds -> match ds with [] => False | c :: _ => isspace c = false end).
    { intros ds (H & F). destruct ds as [|c p]; [contradiction|]. inversion F as [|c' p' F1 F2]. unfold isspace. lia. }
    intros t s v H. destruct H as [ | |ds D L B|ds D L B|ds D L B|ds D L B|s a H|s a ds H D L B]; eexists; (split; [reflexivity|]); (split; [reflexivity|]).
    - split; [reflexivity|]. intros r F. reflexivity.
    - split; [reflexivity|]. intros r F. reflexivity.
    - split; [now apply DS|]. intros r F. erewrite act_ok; [reflexivity|]. apply digits_forallb in D. destruct D as [D L1]. rewrite weigh_num in *.
      apply udec_ok; [exact D|apply follow_stops; [exact F|reflexivity]|lia|exact B].
    - split; [now apply DS|]. intros r F. erewrite act_ok; [reflexivity|]. unfold integer_p. apply si_plain; [|exact F].
      apply (sdec_text []); [now left|exact D|exact L|exact F|]. cbv iota zeta. change (2 ^ 63) with 9223372036854775808 in B. change (2 ^ 63)%Z with 9223372036854775808%Z. lia.
    - split; [reflexivity|]. intros r F. erewrite act_ok; [reflexivity|]. unfold integer_p. apply si_plain; [|exact F].
      apply (sdec_text [43]); [right; now left|exact D|exact L|exact F|]. cbv iota zeta. change (2 ^ 63) with 9223372036854775808 in B. change (2 ^ 63)%Z with 9223372036854775808%Z. lia.
    - split; [reflexivity|]. intros r F. erewrite act_ok; [reflexivity|]. unfold integer_p. apply si_plain; [|exact F].
      apply (sdec_text [45]); [right; now right|exact D|exact L|exact F|]. cbv iota zeta. change (2 ^ 63) with 9223372036854775808 in B. change (2 ^ 63)%Z with 9223372036854775808%Z. lia.
    - split; [eapply address_start, H|]. intros r F. erewrite act_ok; [reflexivity|]. apply address_ok; [exact H|apply follow_stops; [exact F|reflexivity] ].
    - split; [pose proof (address_start _ _ H) as S; destruct s; [contradiction|exact S]|]. intros r F. erewrite act_ok; [reflexivity|]. rewrite <- app_assoc. cbn [app].
      unfold net_p. erewrite bind_ok; [|eapply skip_ok; [apply address_ok; [exact H|reflexivity]|apply ch_ok] ].
      apply digits_forallb in D. destruct D as [D L1]. rewrite weigh_num in *.
      erewrite bind_ok; [|unfold guard; erewrite bind_ok; [|apply udec_ok; [exact D|apply follow_stops; [exact F|reflexivity]|lia|change (2 ^ 8) with 256; lia] ];
        destruct (N.leb_spec (num ds) 128); [reflexivity|lia] ].
      unfold net_make. rewrite (address_v4 _ _ H). destruct (N.ltb_spec 32 (num ds)); [lia|]. reflexivity.
  Qed.

  (** ** Lists *)

  Lemma ws_blanks : forall k s, stops isspace s -> ws (repeat 32 k ++ s) = Ok tt s.
  Proof. induction k as [|k IH]; intros s S; [now apply ws_stop|]. cbn [repeat app]. rewrite ws_step. now apply IH. Qed.
  Lemma element_number : forall t k s v r, number t s v -> follow r = true -> stops isspace r -> element A defaults t (repeat 32 k ++ s ++ r) = Ok v r.
  Proof.
    intros t k s v r H F S. destruct (number_ok t s v H) as (p & M & _ & St & P).
    assert (E : element A defaults t = then_ ws (skip_ p ws)) by (destruct t; cbn [element make_parser] in *; try discriminate; congruence).
    rewrite E. rewrite (then_ok _ _ _ _ _ (ws_blanks k (s ++ r) ltac:(destruct s; [contradiction|exact St]))). eapply skip_ok; [apply P, F|]. now apply ws_stop.
  Qed.
  Lemma list_ok : forall t xs vs r, scalar t -> Forall2 (fun x v => exists k s, x = repeat 32 k ++ s /\ number t s v) xs vs ->
    element A defaults (KList t) ((91 :: match xs with [] => [] | x :: l => x ++ flat_map (fun y => 44 :: y) l end ++ [93]) ++ r) = Ok (DList vs) r.
  Proof.
    intros t xs vs r Sc H. cbn [element]. cbn [app]. rewrite (then_ok _ _ _ _ _ (ch_ok 91 _)). rewrite <- app_assoc. cbn [app].
    assert (K : forall l ws, Forall2 (fun x v => exists k s, x = repeat 32 k ++ s /\ number t s v) l ws ->
      steps (then_ (lit (o_set defaults)) (element A defaults t)) (flat_map (fun y => 44 :: y) l ++ 93 :: r) ws (93 :: r)).
    { induction 1 as [|x v l ws (k & s & -> & N1) H2 IH]; [apply steps_nil; reflexivity|]. cbn [flat_map]. rewrite <- app_assoc. cbn [app].
      eapply steps_cons; [| |exact IH]; [|cbn [length]; rewrite !app_length; cbn [length]; lia]. unfold then_. erewrite bind_ok; [|reflexivity]. cbv beta. rewrite <- app_assoc.
      apply element_number; [exact N1| |]; destruct l; reflexivity. }
    destruct H as [|x v l ws (k & s & -> & N1) H2].
    - cbn [app]. assert (E : element A defaults t (93 :: r) = No) by (destruct t; try contradiction; reflexivity).
      erewrite bind_ok; [|unfold maybe, list_; rewrite bind_no by exact E; reflexivity]. cbv beta. rewrite (then_ok _ _ _ _ _ (ch_ok 93 r)). reflexivity.
    - rewrite <- !app_assoc. erewrite bind_ok.
      2: { unfold maybe, list_. erewrite bind_ok; [|apply element_number; [exact N1| |]; destruct l; reflexivity].
           rewrite (act_ok _ _ _ _ _ (steps_kleene _ _ _ _ (K _ _ H2))). reflexivity. }
      cbv beta. rewrite (then_ok _ _ _ _ _ (ch_ok 93 r)). reflexivity.
  Qed.

  (** ** All cells *)

  Lemma find_name_at : forall names s i j, nth_error names i = Some s -> ~ In s (firstn i names) -> find_name s j names = Some (N.of_nat (j + i) mod 256).
  Proof.
    induction names as [|f names IH]; intros s i j H N1; [destruct i; discriminate|]. cbn [find_name]. destruct i as [|i].
    - injection H as ->. rewrite (proj2 (bytes_eqb_spec s s) eq_refl). now rewrite Nat.add_0_r.
    - cbn [nth_error] in H. cbn [firstn] in N1. destruct (bytes_eqb f s) eqn:E; [apply bytes_eqb_spec in E; subst; exfalso; apply N1; now left|].
      rewrite (IH s i (S j) H); [f_equal; f_equal; lia|]. intros K. apply N1. now right.
  Qed.
  Lemma find_name_none : forall names s j, ~ In s names -> find_name s j names = None.
  Proof.
    induction names as [|f names IH]; intros s j N1; [reflexivity|]. cbn [find_name]. destruct (bytes_eqb f s) eqn:E; [apply bytes_eqb_spec in E; subst; exfalso; apply N1; now left|].
    apply IH. intros K. apply N1. now right.
  Qed.
  Lemma fits_null : forall t, fits t DNone = true. Proof. destruct t; reflexivity. Qed.
  Lemma fits_list : forall t l, fits (KList t) (DList l) = forallb (fits t) l.
  Proof. reflexivity. Qed.
  Lemma says_ok : forall t s v, says A t s v -> fits t v = true /\ forall r, ends r -> cell t (s ++ r) = Ok v r.
  Proof.
    intros t s v H. destruct H as [t H|t s v H|s H|s H|s H1 H2|names s i H1 H2 H3 H4|names s H1 H2|t xs vs Sc H|s z H|s z H|s d H].
    - split; [apply fits_null|]. intros r E. now apply null_ok.
    - destruct (number_ok t s v H) as (p & M & F & _ & P). split; [exact F|]. intros r E. assert (C : cell t = or_null p) by (destruct t; cbn [CsvModel.cell make_parser] in *; try discriminate; congruence).
      rewrite C. apply or_null_ok, P, ends_follow, E.
    - split; [reflexivity|]. intros r E. cbn [CsvModel.cell]. apply or_null_ok. erewrite act_ok; [reflexivity|]. now apply field_plain.
    - split; [reflexivity|]. intros r E. cbn [CsvModel.cell]. apply or_null_ok. erewrite act_ok; [reflexivity|]. unfold field. eapply alt_ok. cbn [app]. rewrite <- app_assoc. now apply quoted_in.
    - split; [reflexivity|]. intros r E. cbn [CsvModel.cell]. apply or_null_ok. erewrite act_ok; [reflexivity|]. now apply plus_but.
    - split; [reflexivity|]. intros r E. cbn [CsvModel.cell]. erewrite act_ok; [|apply field_plain; [exact H1|exact E] ]. rewrite (find_name_at names s i 0 H2 H3). rewrite N.mod_small by lia. reflexivity.
    - split; [reflexivity|]. intros r E. cbn [CsvModel.cell]. erewrite act_ok; [|apply field_plain; [exact H1|exact E] ]. now rewrite find_name_none.
    - split.
      + rewrite fits_list. apply forallb_forall. intros v Hv. induction H as [|x w l ws (k & s & _ & N1) _ IH]; [destruct Hv|].
        destruct Hv as [<-|Hv]; [destruct (number_ok _ _ _ N1) as (p & _ & F & _); exact F|now apply IH].
      + intros r E. cbn [CsvModel.cell]. apply or_null_ok. now apply list_ok.
    - split; [reflexivity|]. intros r E. cbn [CsvModel.cell make_parser]. apply or_null_ok. erewrite act_ok; [reflexivity|]. apply H, ends_follow, E.
    - split; [reflexivity|]. intros r E. cbn [CsvModel.cell make_parser]. apply or_null_ok. erewrite act_ok; [reflexivity|]. apply H, ends_follow, E.
    - split; [reflexivity|]. intros r E. cbn [CsvModel.cell make_parser]. apply or_null_ok. erewrite act_ok; [reflexivity|]. apply H, ends_follow, E.
  Qed.

  (** ** Lines *)

  Lemma cells_ok : forall ts2 cs2 vs2 ts1 rows vs1 first,
    Forall2 (fun p v => fits (fst p) v = true /\ forall r, ends r -> cell (fst p) (snd p ++ r) = Ok v r) (combine ts2 cs2) vs2 ->
    length cs2 = length ts2 -> length vs1 = length ts1 -> ts2 <> [] ->
    cells A defaults (ts1 ++ ts2) ts2 first (if first then join_cells cs2 else flat_map (fun x => 44 :: x) cs2) {| b_rows := rows; b_cur := vs1 |} =
    (Good, {| b_rows := rows ++ [vs1 ++ vs2]; b_cur := [] |}).
  Proof.
    induction ts2 as [|t ts2 IH]; intros cs2 vs2 ts1 rows vs1 first H L1 L2 NE; [contradiction|].
    destruct cs2 as [|c cs2]; [discriminate|]. cbn [combine] in H. inversion H as [|p v q vs3 (F & P) H3]; subst. cbn [fst snd] in *. clear H.
    cbn [length] in L1. cbn [cells].
    assert (Sp : (if first then Ok 0 (if first then join_cells (c :: cs2) else flat_map (fun x => 44 :: x) (c :: cs2))
      else ch (o_sep defaults) (if first then join_cells (c :: cs2) else flat_map (fun x => 44 :: x) (c :: cs2))) = Ok (if first then 0 else 44) (c ++ flat_map (fun x => 44 :: x) cs2)) by (destruct first; reflexivity).
    rewrite Sp. rewrite P by (destruct cs2; reflexivity || exact Logic.I). unfold add. cbn [b_cur b_rows].
    rewrite nth_error_app2 by lia. rewrite L2, Nat.sub_diag. cbn [nth_error]. rewrite F. rewrite !app_length. cbn [length].
    destruct ts2 as [|t2 ts2].
    - destruct cs2; [|discriminate]. inversion H3; subst. cbn [length]. replace (length vs1 + 1 =? length ts1 + 1)%nat with true by (symmetry; apply Nat.eqb_eq; lia). reflexivity.
    - replace (length vs1 + 1 =? length ts1 + S (length (t2 :: ts2)))%nat with false by (symmetry; apply Nat.eqb_neq; cbn [length]; lia).
      specialize (IH cs2 vs3 (ts1 ++ [t]) rows (vs1 ++ [v]) false H3 ltac:(lia) ltac:(rewrite !app_length; cbn [length]; lia) ltac:(discriminate)).
      rewrite <- !app_assoc in IH. exact IH.
  Qed.
  Lemma says_combine : forall ts cs row, length cs = length ts -> length row = length ts ->
    (forall i t c v, nth_error ts i = Some t -> nth_error cs i = Some c -> nth_error row i = Some v -> says A t c v) ->
    Forall2 (fun p v => fits (fst p) v = true /\ forall r, ends r -> cell (fst p) (snd p ++ r) = Ok v r) (combine ts cs) row.
  Proof.
    induction ts as [|t ts IH]; intros cs row L1 L2 H; destruct cs as [|c cs], row as [|v row]; try discriminate; cbn [combine]; constructor.
    - cbn [fst snd]. apply says_ok. apply (H 0%nat); reflexivity.
    - apply IH; [now injection L1|now injection L2|]. intros i. apply (H (S i)).
  Qed.
  Lemma line_ok : forall ts l row rows, ts <> [] -> line_says A ts l row ->
    line_p A defaults ts l {| b_rows := rows; b_cur := [] |} = (Good, {| b_rows := rows ++ [row]; b_cur := [] |}).
  Proof.
    intros ts l row rows NE (cs & -> & L1 & L2 & H). unfold line_p. apply (cells_ok ts cs row [] rows [] true); [|exact L1|reflexivity|exact NE]. now apply says_combine.
  Qed.

  (** * Reading *)

  Definition fine (size : nat) (slices : list (list (list data))) : Prop := Forall (fun x => (1 <= length x <= size)%nat) slices.
  (** Between two lines. *)
  Definition calm (size : nat) (r : reader) : Prop := b_cur (r_builder r) = [] /\ (length (b_rows (r_builder r)) < size)%nat /\ fine size (r_slices r).
  Definition out (r : reader) : list (list data) := concat (r_slices r) ++ b_rows (r_builder r).

  Lemma finish_ok : forall size e r, b_cur (r_builder r) = [] -> (length (b_rows (r_builder r)) <= size)%nat -> (0 < size)%nat -> fine size (r_slices r) -> exists r', finish e r = (e, r') /\
    calm size r' /\ out r' = out r /\ b_rows (r_builder r') = [] /\ r_lines r' = r_lines r /\ r_num r' = r_num r /\ r_invalid r' = r_invalid r.
  Proof.
    intros size e [lines [rows cur] slices num inv] C L P F. cbn in C, L, F |- *. subst cur. unfold finish. cbn [r_builder b_rows b_cur r_slices r_lines r_num r_invalid].
    destruct rows as [|x rows].
    - eexists. split; [reflexivity|]. unfold calm, out. cbn. repeat split; auto.
    - eexists. split; [reflexivity|]. unfold calm, out. cbn. repeat split; auto.
      + unfold fine. apply Forall_app. split; [exact F|]. constructor; [|constructor]. cbn in L |- *. lia.
      + rewrite concat_app. cbn. now rewrite !app_nil_r.
  Qed.

  (** What one call does to a file of [lines] that say [rows]. *)
  Definition stepped (size events : nat) (waits : list wait) (rows : list (list data)) (lines : list text) (r : reader) (e : ending) (r' : reader) (n : nat) : Prop :=
    (n <= length lines)%nat /\ (n <= events)%nat /\ r_lines r' = skipn n lines /\ out r' = out r ++ firstn n rows /\ calm size r' /\ r_num r' = (r_num r + n)%nat /\ r_invalid r' = r_invalid r /\
    match e with
    | Enough => n = events /\ b_rows (r_builder r') = []
    | End => n = length lines /\ b_rows (r_builder r') = []
    | Timeout => In Late waits /\ b_rows (r_builder r') = []
    | Stall => In Stalled waits
    | _ => False
    end.
  Lemma read_ok : forall ts size, ts <> [] -> (0 < size)%nat -> forall lines rows, Forall2 (line_says A ts) lines rows -> forall events waits r, r_lines r = lines -> calm size r ->
    exists e r' n, read_lines A defaults ts size lines events waits r = (e, r') /\ stepped size events waits rows lines r e r' n.
  Proof.
    intros ts size NE P lines rows H. unfold stepped. induction H as [|l row lines rows H1 H2 IH]; intros events waits r E (C & L & F).
    - destruct events as [|events]; cbn [read_lines].
      + destruct (finish_ok size Enough r C ltac:(lia) P F) as (r' & -> & K & O & B & E1 & E2 & E3). exists Enough, r', 0%nat. rewrite E1, E2, E3, O, B. cbn. rewrite app_nil_r. intuition lia.
      + destruct (finish_ok size End r C ltac:(lia) P F) as (r' & -> & K & O & B & E1 & E2 & E3). exists End, r', 0%nat. rewrite E1, E2, E3, O, B. cbn. rewrite app_nil_r. intuition lia.
    - destruct events as [|events]; cbn [read_lines].
      + destruct (finish_ok size Enough r C ltac:(lia) P F) as (r' & -> & K & O & B & E1 & E2 & E3). exists Enough, r', 0%nat. rewrite E1, E2, E3, O, B. cbn. rewrite app_nil_r. intuition lia.
      + destruct (hd Now waits) eqn:W.
        * destruct r as [rl [br bc] sl nu iv]. cbn in C, L, F, E. subst bc. cbn [r_builder r_slices r_num r_invalid]. rewrite (line_ok ts l row br NE H1). cbn [b_rows].
          assert (WI : forall w, In w (tl waits) -> In w waits) by (destruct waits; cbn; auto). cbn [Nat.add].
          assert (X : exists r1, (if (length (br ++ [row]) =? size)%nat then
              match finish Enough {| r_lines := lines; r_builder := {| b_rows := br ++ [row]; b_cur := [] |}; r_slices := sl; r_num := S nu; r_invalid := iv |} with
              | (Enough, r'') => read_lines A defaults ts size lines events (tl waits) r''
              | x => x
              end else read_lines A defaults ts size lines events (tl waits) {| r_lines := lines; r_builder := {| b_rows := br ++ [row]; b_cur := [] |}; r_slices := sl; r_num := S nu; r_invalid := iv |})
            = read_lines A defaults ts size lines events (tl waits) r1 /\ calm size r1 /\ out r1 = concat sl ++ br ++ [row] /\ r_lines r1 = lines /\ r_num r1 = S nu /\ r_invalid r1 = iv).
          { rewrite app_length. cbn [length]. destruct (Nat.eqb_spec (length br + 1) size) as [Es|Es].
            - destruct (finish_ok size Enough {| r_lines := lines; r_builder := {| b_rows := br ++ [row]; b_cur := [] |}; r_slices := sl; r_num := S nu; r_invalid := iv |} eq_refl
                ltac:(cbn; rewrite app_length; cbn; lia) P F) as (r' & -> & K & O & B & E1 & E2 & E3). exists r'. split; [reflexivity|]. split; [exact K|]. split; [exact O|]. auto.
            - eexists. split; [reflexivity|]. unfold calm, out. cbn. rewrite app_length. cbn. repeat split; auto. lia. }
          destruct X as (r1 & -> & K & O & E1 & E2 & E3). destruct (IH events (tl waits) r1 E1 K) as (e & r' & n & -> & N1 & N2 & N3 & N4 & N5 & N6 & N7 & N8).
          exists e, r', (S n). split; [reflexivity|]. cbn [length firstn skipn]. split; [lia|]. split; [lia|]. split; [exact N3|]. split; [rewrite N4, O; unfold out; cbn; rewrite <- !app_assoc; reflexivity|].
          split; [exact N5|]. split; [rewrite N6, E2; cbn; lia|]. split; [rewrite N7, E3; reflexivity|].
          destruct e; try contradiction.
          -- destruct N8. split; [lia|assumption].
          -- destruct N8. split; [lia|assumption].
          -- destruct N8. split; auto.
          -- auto.
        * destruct (finish_ok size Timeout r C ltac:(lia) P F) as (r' & -> & K & O & B & E1 & E2 & E3). exists Timeout, r', 0%nat. rewrite E1, E2, E3, O, B. cbn. rewrite app_nil_r.
          assert (In Late waits) by (destruct waits; cbn in W; [discriminate|subst; now left]). intuition lia.
        * exists Stall, r, 0%nat. cbn. rewrite app_nil_r. assert (In Stalled waits) by (destruct waits; cbn in W; [discriminate|subst; now left]). unfold calm. intuition lia.
  Qed.

  Lemma Forall2_skip : forall {B C} (P : B -> C -> Prop) n l m, Forall2 P l m -> Forall2 P (skipn n l) (skipn n m).
  Proof. intros B C P n. induction n as [|n IH]; intros l m H; [exact H|]. destruct H; [constructor|]. cbn. now apply IH. Qed.
  Lemma firstn_plus : forall {B} n m (l : list B), firstn n l ++ firstn m (skipn n l) = firstn (n + m) l.
  Proof. intros B n. induction n as [|n IH]; intros m [|x l]; try reflexivity; [now rewrite skipn_nil, !firstn_nil|]. cbn. f_equal. apply IH. Qed.
  Lemma skipn_plus : forall {B} n m (l : list B), skipn m (skipn n l) = skipn (n + m) l.
  Proof. intros B n. induction n as [|n IH]; intros m [|x l]; try reflexivity; [now rewrite !skipn_nil|]. cbn. apply IH. Qed.

  Definition ran (size : nat) (rows : list (list data)) (lines : list text) (r : reader) (e : ending) (r' : reader) (n : nat) : Prop :=
    (n <= length lines)%nat /\ r_lines r' = skipn n lines /\ out r' = out r ++ firstn n rows /\ calm size r' /\ r_num r' = (r_num r + n)%nat /\ r_invalid r' = r_invalid r /\
    (e = Enough \/ e = Stall \/ (e = End /\ n = length lines /\ b_rows (r_builder r') = [])).
  Lemma run_ok : forall ts size limit, ts <> [] -> (0 < size)%nat -> forall calls lines rows r, Forall2 (line_says A ts) lines rows -> r_lines r = lines -> calm size r ->
    exists e r' n, run A defaults ts size limit calls r = (e, r') /\ ran size rows lines r e r' n.
  Proof.
    intros ts size limit NE P. unfold ran. induction calls as [|[ev ws] calls IH]; intros lines rows r H E K.
    - exists Stall, r, 0%nat. cbn. rewrite app_nil_r. intuition lia.
    - cbn [run]. set (ev' := match limit with Some n => Nat.min ev (n - count r) | None => ev end). unfold read. rewrite E.
      destruct (read_ok ts size NE P lines rows H ev' ws r E K) as (e & r1 & n & -> & N1 & N2 & N3 & N4 & N5 & N6 & N7 & N8). cbv beta iota.
      assert (G : exists e0 r' n0, (if match limit with Some n => (n <=? count r1)%nat | None => false end then (Enough, r1) else run A defaults ts size limit calls r1) = (e0, r') /\
        (n0 <= length lines)%nat /\ r_lines r' = skipn n0 lines /\ out r' = out r ++ firstn n0 rows /\ calm size r' /\ r_num r' = (r_num r + n0)%nat /\ r_invalid r' = r_invalid r /\
        (e0 = Enough \/ e0 = Stall \/ (e0 = End /\ n0 = length lines /\ b_rows (r_builder r') = []))).
      { destruct (match limit with Some n => (n <=? count r1)%nat | None => false end); [exists Enough, r1, n; intuition|].
        destruct (IH (skipn n lines) (skipn n rows) r1 (Forall2_skip _ _ _ _ H) N3 N5) as (e0 & r' & m & -> & M1 & M2 & M3 & M4 & M5 & M6 & M7).
        rewrite skipn_length in M1. exists e0, r', (n + m)%nat. split; [reflexivity|]. split; [lia|]. split; [now rewrite M2, skipn_plus|].
        split; [rewrite M3, N4, <- app_assoc, firstn_plus; reflexivity|]. split; [exact M4|]. split; [lia|]. split; [congruence|].
        rewrite skipn_length in M7. destruct M7 as [M7|[M7|(M7 & M8 & M9)] ]; [now left|right; now left|right; right; split; [exact M7|split; [lia|exact M9] ] ]. }
      destruct e; try contradiction; try exact G.
      exists End, r1, n. split; [reflexivity|]. destruct N8. intuition.
  Qed.
  Lemma run_limit : forall ts size limit, ts <> [] -> (0 < size)%nat -> forall calls lines rows r, Forall2 (line_says A ts) lines rows -> r_lines r = lines -> calm size r ->
    (forall c, In c calls -> ~ In Stalled (snd c)) -> b_rows (r_builder r) = [] -> (count r <= limit)%nat ->
    (count (snd (run A defaults ts size (Some limit) calls r)) <= limit)%nat.
  Proof.
    intros ts size limit NE P. induction calls as [|[ev ws] calls IH]; intros lines rows r H E K W B L; [exact L|].
    cbn [run]. unfold read. rewrite E. destruct (read_ok ts size NE P lines rows H (Nat.min ev (limit - count r)) ws r E K) as (e & r1 & n & -> & N1 & N2 & N3 & N4 & N5 & N6 & N7 & N8).
    assert (B1 : b_rows (r_builder r1) = []) by (destruct e; try contradiction; try apply N8; exfalso; exact (W _ (or_introl eq_refl) N8)).
    assert (L1 : (count r1 <= limit)%nat).
    { unfold out in N4. rewrite B1, B, !app_nil_r in N4. unfold count in *. rewrite N4, app_length. pose proof (firstn_le_length n rows). lia. }
    assert (G : (count (snd (if (limit <=? count r1)%nat then (Enough, r1) else run A defaults ts size (Some limit) calls r1)) <= limit)%nat).
    { destruct (limit <=? count r1)%nat; [exact L1|]. apply (IH (skipn n lines) (skipn n rows)); auto; [now apply Forall2_skip|]. intros c Hc. apply W. now right. }
    destruct e; try contradiction; try exact G; exact L1.
  Qed.
  Lemma run_complete : forall ts size, ts <> [] -> (0 < size)%nat -> forall calls lines rows r, Forall2 (line_says A ts) lines rows -> r_lines r = lines -> calm size r ->
    Forall (fun c => (0 < fst c)%nat /\ snd c = []) calls -> (length lines < length calls)%nat -> fst (run A defaults ts size None calls r) = End.
  Proof.
    intros ts size NE P. induction calls as [|[ev ws] calls IH]; intros lines rows r H E K W L; [cbn in L; lia|].
    cbn [run]. unfold read. rewrite E. inversion W as [|x y (W1 & W2) W3]; subst x y. cbn [fst snd] in W1, W2. subst ws.
    destruct (read_ok ts size NE P lines rows H ev [] r E K) as (e & r1 & n & -> & N1 & N2 & N3 & N4 & N5 & N6 & N7 & N8).
    destruct e; try contradiction; [|reflexivity|destruct N8 as [ [] _] ].
    destruct N8 as [N8 _]. apply (IH (skipn n lines) (skipn n rows)); auto; [now apply Forall2_skip|]. rewrite skipn_length. cbn [length] in L. lia.
  Qed.

  (** * Lists of strings *)

  Lemma kleene_end : forall {B} (p : parser B) n s l r, kleene_ n p s = Ok l r -> p r = No.
  Proof.
    induction n as [|n IH]; intros s l r H; [discriminate|]. cbn [kleene_] in H. destruct (p s) eqn:E; [|injection H as <- <-; exact E|discriminate].
    destruct (kleene_ n p r0) eqn:E2; try discriminate. injection H as <- <-. eapply IH, E2.
  Qed.
  Definition opens (o : options) : Prop := match o_set o with [] => False | c :: _ => c <> 93 end /\ match o_kvp o with [] => False | c :: _ => c <> 93 end.
  Lemma but_at : forall o r, opens o -> but [o_set o; o_kvp o] (93 :: r) = Ok 93 r.
  Proof.
    intros o r (H1 & H2). unfold but. destruct (o_set o) as [|c l]; [contradiction|]. destruct (o_kvp o) as [|d k]; [contradiction|]. cbn [existsb lit].
    destruct (N.eqb_spec c 93); [contradiction|]. destruct (N.eqb_spec d 93); [contradiction|]. reflexivity.
  Qed.
  Lemma but_fuel : forall seps n s, (length s < n)%nat -> kleene_ n (but seps) s <> Bad.
  Proof.
    intros seps. induction n as [|n IH]; intros s L; [lia|]. cbn [kleene_]. unfold but at 1. destruct (existsb _ seps); [discriminate|]. destruct s as [|c s]; [discriminate|].
    cbn [length] in L. specialize (IH s ltac:(lia)). destruct (kleene_ n (but seps) s); [discriminate|discriminate|congruence].
  Qed.
  Lemma element_string : forall o s, opens o -> (exists v r, element A o KString s = Ok v r /\ stops (N.eqb 93) r /\ (length r < length s)%nat) \/ (element A o KString s = No /\ stops (N.eqb 93) s).
  Proof.
    intros o s O. cbn [element]. set (seps := [o_set o; o_kvp o]). assert (G : forall r, but seps r = No -> stops (N.eqb 93) r).
    { intros [|c r] H; [exact Logic.I|]. cbn [stops]. destruct (N.eqb_spec 93 c) as [<-|Hc]; [|reflexivity]. unfold seps in H. rewrite but_at in H by exact O. discriminate. }
    assert (Sh : forall n s l r, kleene_ n (but seps) s = Ok l r -> (length r <= length s)%nat).
    { induction n as [|n IH]; intros x l r H; [discriminate|]. cbn [kleene_] in H. unfold but at 1 in H. destruct (existsb _ seps); [injection H as _ <-; lia|]. destruct x as [|c x]; [injection H as _ <-; cbn; lia|].
      destruct (kleene_ n (but seps) x) eqn:E; try discriminate. injection H as _ <-. apply IH in E. cbn [length]. lia. }
    destruct (but seps s) as [c r| |] eqn:E.
    - left. assert (Ls : s = c :: r). { unfold but in E. destruct (existsb _ seps); [discriminate|]. destruct s; [discriminate|]. injection E as -> ->. reflexivity. }
      destruct (kleene (but seps) r) as [l t| |] eqn:E2.
      + exists (DString (c :: l)), t. split; [|split; [eapply G, kleene_end, E2|apply Sh in E2; subst s; cbn; lia] ]. erewrite act_ok; [reflexivity|]. unfold plus. erewrite bind_ok by exact E. now rewrite (act_ok _ _ _ _ _ E2).
      + exfalso. assert (F : forall n x, kleene_ n (but seps) x <> No). { induction n; intros x; cbn [kleene_]; [discriminate|]. destruct (but seps x); try discriminate. specialize (IHn r0). destruct (kleene_ n (but seps) r0); congruence. } now apply F in E2.
      + exfalso. apply (but_fuel seps (S (length r)) r); [lia|exact E2].
    - right. split; [|now apply G]. apply act_no. unfold plus. now apply bind_no.
    - exfalso. unfold but in E. destruct (existsb _ seps); [discriminate|]. destruct s; discriminate.
  Qed.
  Lemma strings_none : forall o s, opens o -> element A o (KList KString) s = No.
  Proof.
    intros o s O. change (element A o (KList KString) s) with (then_ (ch 91) (bind (maybe (list_ (element A o KString) (lit (o_set o)))) (fun l => then_ (ch 93) (ret (DList (or_nil l))))) s).
    destruct (ch 91 s) as [c t| |] eqn:E; [|now apply then_no|]. 2: { exfalso. destruct s as [|c s]; [discriminate|]. unfold ch, sat in E. destruct (91 =? c); discriminate. }
    rewrite (then_ok _ _ _ _ _ E). clear s c E. set (e := element A o KString) in *.
    assert (K : forall n s, (length s < n)%nat -> stops (N.eqb 93) s -> exists l r, kleene_ n (then_ (lit (o_set o)) e) s = Ok l r /\ stops (N.eqb 93) r).
    { induction n as [|n IH]; intros s L St; [lia|]. cbn [kleene_]. unfold then_ at 1, bind.
      assert (Ll : forall l s u r, lit l s = Ok u r -> (length r <= length s)%nat).
      { induction l as [|d l IHl]; intros x u r H; [injection H as _ <-; lia|]. cbn [lit] in H. destruct x as [|c x]; [discriminate|]. destruct (d =? c); [|discriminate]. apply IHl in H. cbn [length]. lia. }
      destruct (lit (o_set o) s) as [u t1| |] eqn:E1.
      - apply Ll in E1. destruct (element_string o t1 O) as [(v & r & E2 & S2 & L2)|(E2 & S2)]; fold e in E2; rewrite E2.
        + destruct (IH r ltac:(lia) S2) as (l & r' & E3 & S3). rewrite E3. eauto.
        + eauto.
      - eauto.
      - exfalso. revert E1. generalize (o_set o) as l. intros l. revert s L St. induction l as [|d l IHl]; intros s L St E1; [discriminate|]. cbn [lit] in E1. destruct s as [|c s]; [discriminate|]. destruct (d =? c); [|discriminate].
        clear -E1. revert s E1. induction l as [|d l IHl]; intros s E1; [discriminate|]. cbn [lit] in E1. destruct s as [|c s]; [discriminate|]. destruct (d =? c); [|discriminate]. now apply IHl in E1. }
    assert (M : exists l r, maybe (list_ e (lit (o_set o))) t = Ok l r /\ stops (N.eqb 93) r).
    { unfold maybe, list_. destruct (element_string o t O) as [(v & r & E2 & S2 & L2)|(E2 & S2)]; fold e in E2.
      - rewrite (bind_ok _ _ _ _ _ E2). destruct (K (S (length r)) r ltac:(lia) S2) as (l & r' & E3 & S3). rewrite (act_ok _ (kleene (then_ (lit (o_set o)) e)) r l r' E3). eauto.
      - rewrite bind_no by exact E2. eauto. }
    destruct M as (l & r & E & S). rewrite (bind_ok _ _ _ _ _ E). now apply then_no, ch_no.
  Qed.
End Cells.
