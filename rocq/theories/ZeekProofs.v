(** Lemmas on Zeek logs, for C72. *)
From Coq Require Import List ZArith NArith Bool Arith Lia String Ascii ZifyBool ZifyNat ZifyN.
From Coq Require Import Init.Datatypes.
From Verif Require Import AddressModel AddressProofs DataModel EscapeModel EscapeProofs LiteralModel LiteralProofs CsvModel CsvProofs ZeekModel.
Import ListNotations.
Open Scope N_scope.
Local Notation length := List.length.
Local Notation concat := List.concat.

(** ** What a log says *)

(** [c] is the hexadecimal digit of [x]. *)
Definition hexd (c x : N) : Prop := nth_error (chars "0123456789abcdef") (N.to_nat x) = Some c \/ nth_error (chars "0123456789ABCDEF") (N.to_nat x) = Some c.
(** Zeek's names of types. *)
Inductive named : kind -> text -> Prop :=
| named_bool : named ZBool (chars "bool") | named_int : named ZInt (chars "int") | named_count : named ZCount (chars "count")
| named_port : named ZPort (chars "port") | named_double : named ZReal (chars "double") | named_interval : named ZDuration (chars "interval")
| named_time : named ZTime (chars "time") | named_string : named ZString (chars "string") | named_enum : named ZString (chars "enum")
| named_file : named ZString (chars "file") | named_pattern : named ZPattern (chars "pattern") | named_addr : named ZAddress (chars "addr")
| named_subnet : named ZSubnet (chars "subnet")
| named_vector : forall e t, named e t -> named (ZList e) (chars "vector[" ++ t ++ chars "]")
| named_set : forall e t, named e t -> named (ZList e) (chars "set[" ++ t ++ chars "]")
| named_table : forall e t, named e t -> named (ZList e) (chars "table[" ++ t ++ chars "]").
(** The header of a log. The columns have a name, the name of a type, and that type. *)
Record heading := {
  h_sep : N; h_hi : N; h_lo : N; h_set : N; h_empty : text; h_unset : text; h_path : text; h_open : text;
  h_columns : list (text * text * kind) }.
Definition line_of (p : string) (c : N) (v : text) : text := chars p ++ c :: v.
Definition heading_lines (h : heading) : list text :=
  let c := h_sep h in
  [chars "#separator \x" ++ [h_hi h; h_lo h]; line_of "#set_separator" c [h_set h]; line_of "#empty_field" c (h_empty h); line_of "#unset_field" c (h_unset h);
   line_of "#path" c (h_path h); line_of "#open" c (h_open h);
   line_of "#fields" c (join_text [c] (map (fun x => fst (fst x)) (h_columns h))); line_of "#types" c (join_text [c] (map (fun x => snd (fst x)) (h_columns h)))].
Definition word (c : N) (t : text) : Prop := t <> [] /\ ~ In c t.
(** A header as Zeek writes it: the separators are special characters, and nothing is missing. *)
Definition heading_ok (h : heading) : Prop :=
  (exists x y, hexd (h_hi h) x /\ hexd (h_lo h) y /\ h_sep h = 16 * x + y) /\
  ~ In (h_sep h) (chars "#_abcdefghijklmnopqrstuvwxyz") /\ isdigit (h_set h) = false /\
  h_empty h <> [] /\ h_unset h <> [] /\ h_path h <> [] /\ h_open h <> [] /\ h_columns h <> [] /\
  Forall (fun x => word (h_sep h) (fst (fst x)) /\ word (h_sep h) (snd (fst x)) /\ named (snd x) (snd (fst x))) (h_columns h).

(** The number that digits make. *)
Fixpoint value (ds : text) : N := match ds with [] => 0 | d :: r => (d - 48) * 10 ^ N.of_nat (List.length r) + value r end.
(** Bytes stand for themselves, but for a backslash, an x and two hexadecimal digits. *)
Inductive bytes_say : text -> text -> Prop :=
| bytes_nil : bytes_say [] []
| bytes_plain : forall c t s, c <> 92 -> bytes_say t s -> bytes_say (c :: t) (c :: s)
| bytes_hex : forall hi lo x y t s, hexd hi x -> hexd lo y -> bytes_say t s -> bytes_say (92 :: 120 :: hi :: lo :: t) (16 * x + y :: s).

Section Spec.
  Variable A : arith.
  Variable seconds : decimal -> Z.
  Definition number_text (neg : bool) (ds : text) : text := (if neg then [45] else []) ++ ds.
  (** What the text of a value says. *)
  Inductive plain : kind -> text -> data -> Prop :=
  | plain_true : plain ZBool (chars "T") (DBool true)
  | plain_false : plain ZBool (chars "F") (DBool false)
  | plain_count : forall k ds, k = ZCount \/ k = ZPort -> forallb isdigit ds = true -> (1 <= length ds <= 20)%nat -> value ds < 2 ^ 64 -> plain k ds (DCount (value ds))
  | plain_int : forall sg ds, signed sg -> forallb isdigit ds = true -> (1 <= length ds <= 19)%nat ->
      let z := if match sg with [45] => true | _ => false end then (- Z.of_N (value ds))%Z else Z.of_N (value ds) in
      (- 2 ^ 63 <= z < 2 ^ 63)%Z -> plain ZInt (sg ++ ds) (DInt z)
  | plain_decimal : forall k sg i f v, signed sg -> forallb isdigit i = true -> forallb isdigit f = true -> (1 <= length i <= 20)%nat -> (1 <= length f <= 20)%nat ->
      let d := {| d_neg := match sg with [45] => true | _ => false end; d_int := i; d_frac := f |} in
      (k = ZReal /\ v = DReal (a_real A d) \/ k = ZTime /\ v = DTime (seconds d) \/ k = ZDuration /\ v = DDuration (seconds d)) ->
      plain k (sg ++ i ++ 46 :: f) v
  | plain_string : forall t s, t <> [] -> bytes_say t s -> plain ZString t (DString s)
  | plain_address : forall a, wf a -> is_v4 a = true -> plain ZAddress (show_addr A a) (DAddress a).
  (** What stands for an empty cell. *)
  Definition nothing (k : kind) : data :=
    match k with
    | ZBool => DBool false | ZInt => DInt 0 | ZCount | ZPort => DCount 0 | ZReal => DReal 0 | ZDuration => DDuration 0 | ZTime => DTime 0
    | ZString => DString [] | ZPattern => DPattern [] | ZAddress => DAddress [0; 0; 0; 0; 0; 0; 0; 0; 0; 0; 0; 0; 0; 0; 0; 0]
    | ZSubnet => DSubnet {| sn_net := [0; 0; 0; 0; 0; 0; 0; 0; 0; 0; 0; 0; 0; 0; 0; 0]; sn_bits := 0 |} | ZEnum => DEnum 0 | ZMap => DMap [] | ZList _ => DList []
    end.
  (** What a cell says. *)
  Inductive cell_says (h : heading) : kind -> text -> data -> Prop :=
  | cell_unset : forall k, cell_says h k (h_unset h) DNone
  | cell_empty : forall k, h_empty h <> h_unset h -> k <> ZEnum -> k <> ZMap -> cell_says h k (h_empty h) (nothing k)
  | cell_plain : forall k t v, t <> h_unset h -> t <> h_empty h -> plain k t v -> cell_says h k t v
  | cell_list : forall e ts vs, join_text [h_set h] ts <> h_unset h -> join_text [h_set h] ts <> h_empty h -> ts <> [] ->
      Forall2 (plain e) ts vs -> Forall (fun t => ~ In (h_set h) t) ts -> cell_says h (ZList e) (join_text [h_set h] ts) (DList vs).
  Inductive row_says (h : heading) : list kind -> list text -> list data -> Prop :=
  | row_nil : row_says h [] [] []
  | row_cons : forall k ks t ts v vs, cell_says h k t v -> row_says h ks ts vs -> row_says h (k :: ks) (t :: ts) (v :: vs).
  (** The layout of a log. *)
  Definition layout (h : heading) : text * list (text * kind) := (chars "zeek." ++ h_path h, map (fun x => (fst (fst x), snd x)) (h_columns h)).
  Definition kinds (h : heading) : list kind := map snd (h_columns h).
  (** A line with cells. *)
  Definition cut (h : heading) (l : text) (ts : list text) : Prop :=
    l = join_text [h_sep h] ts /\ Forall (fun t => ~ In (h_sep h) t) ts /\ last ts [] <> [] /\ hd 0 l <> 35.
  Notation event := (text * list (text * kind) * list data)%type.
  (** What the lines say that follow, given the header of the log they are in. *)
  Inductive ahead : option heading -> list text -> list event -> Prop :=
  | ahead_end : forall h, ahead (Some h) [] []
  | ahead_head : forall o h ls evs, heading_ok h -> ahead (Some h) ls evs -> ahead o (heading_lines h ++ ls) evs
  | ahead_comment : forall h l ls evs, hd 0 l = 35 -> (forall t, l <> chars "#separator" ++ t) -> ahead (Some h) ls evs -> ahead (Some h) (l :: ls) evs
  | ahead_odd : forall h l ts ls evs, cut h l ts -> length ts <> length (h_columns h) -> ahead (Some h) ls evs -> ahead (Some h) (l :: ls) evs
  | ahead_row : forall h l ts vs ls evs, cut h l ts -> row_says h (kinds h) ts vs -> ahead (Some h) ls evs ->
      ahead (Some h) (l :: ls) ((layout h, vs) :: evs).
End Spec.

(** ** Text *)

Lemma starts_app : forall p t, starts p (p ++ t) = true.
Proof. induction p as [|c p IH]; intros t; [reflexivity|]. cbn [app starts]. now rewrite N.eqb_refl, IH. Qed.
Lemma starts_spec : forall p t, starts p t = true <-> exists r, t = p ++ r.
Proof.
  split; [|intros (r & ->); apply starts_app]. revert t. induction p as [|c p IH]; intros t H; [now exists t|].
  destruct t as [|d t]; [discriminate|]. cbn [starts] in H. apply andb_true_iff in H. destruct H as [H1 H2]. apply N.eqb_eq in H1. subst d.
  destruct (IH _ H2) as (r & ->). now exists r.
Qed.
Lemma after_one : forall c p v, ~ In c p -> after [c] (p ++ c :: v) = Some v.
Proof.
  intros c p v. induction p as [|d p IH]; intros H.
  - cbn [app after starts]. rewrite N.eqb_refl. reflexivity.
  - cbn [app after starts]. destruct (N.eqb_spec c d) as [->|H1]; [exfalso; apply H; now left|]. cbn [andb]. apply IH. intros I. apply H. now right.
Qed.
Lemma split_word : forall c t cur r, ~ In c t -> split_ [c] 0 cur (t ++ r) = split_ [c] 0 (cur ++ t) r.
Proof.
  intros c t. induction t as [|d t IH]; intros cur r H; [now rewrite app_nil_r|]. cbn [app split_ starts].
  destruct (N.eqb_spec c d) as [->|H1]; [exfalso; apply H; now left|]. cbn [andb]. rewrite IH by (intros I; apply H; now right). now rewrite <- app_assoc.
Qed.
Lemma split_join_ : forall c ts t, Forall (fun t => ~ In c t) (t :: ts) -> last (t :: ts) [] <> [] -> split [c] (t ++ flat_map (fun y => [c] ++ y) ts) = t :: ts.
Proof.
  intros c. induction ts as [|u ts IH]; intros t F L; unfold split in *.
  - cbn [flat_map]. rewrite split_word by (exact (Forall_inv F)). cbn [app split_]. cbn in L. destruct t; [contradiction|reflexivity].
  - cbn [flat_map]. rewrite split_word by (exact (Forall_inv F)). cbn [app split_ starts]. rewrite N.eqb_refl. cbn [andb List.length Nat.sub]. f_equal.
    apply (IH u); [exact (Forall_inv_tail F)|exact L].
Qed.
Lemma split_join : forall c ts, Forall (fun t => ~ In c t) ts -> last ts [] <> [] -> split [c] (join_text [c] ts) = ts.
Proof. intros c [|t ts] F L; [reflexivity|]. now apply split_join_. Qed.

(** ** The header *)

Lemma rfind_last : forall c t, rfind_chr c (t ++ [c]) = Some (length t).
Proof. intros c. induction t as [|d t IH]; cbn [app rfind_chr List.length]; [now rewrite N.eqb_refl|]. now rewrite IH. Qed.
Lemma parse_named : forall k t, named k t -> forall n, (length t <= n)%nat -> parse_type_ n t = Some k.
Proof.
  assert (G : forall (p : string) t e n, (p = "vector" \/ p = "set" \/ p = "table")%string ->
     (forall n, (length t <= n)%nat -> parse_type_ n t = Some e) -> (length (chars p ++ 91%N :: t ++ [93%N]) <= n)%nat -> parse_type_ n (chars p ++ 91 :: t ++ [93]) = Some (ZList e)).
  { intros p t e n P IH L. destruct n as [|n]; [rewrite app_length in L; cbn in L; lia|].
    assert (B : basic (chars p ++ 91 :: t ++ [93]) = None) by (destruct P as [->|[->| ->] ]; reflexivity).
    assert (V : starts (chars "vector") (chars p ++ 91 :: t ++ [93]) || starts (chars "set") (chars p ++ 91 :: t ++ [93]) || starts (chars "table") (chars p ++ 91 :: t ++ [93]) = true)
      by (destruct P as [->|[->| ->] ]; reflexivity).
    assert (F : find_chr 91 (chars p ++ 91 :: t ++ [93]) = Some (length (chars p))) by (destruct P as [->|[->| ->] ]; reflexivity).
    assert (R : rfind_chr 93 (chars p ++ 91 :: t ++ [93]) = Some (length (chars p) + S (length t))%nat).
    { replace (chars p ++ 91 :: t ++ [93]) with ((chars p ++ 91 :: t) ++ [93]) by (now rewrite <- app_assoc). rewrite rfind_last, app_length. reflexivity. }
    cbn [parse_type_]. rewrite B, V. change (chr "[") with 91. change (chr "]") with 93. rewrite F, R.
    destruct (Nat.leb_spec (length (chars p) + S (length t)) (length (chars p))); [lia|].
    replace (skipn (S (length (chars p))) (chars p ++ 91 :: t ++ [93])) with (t ++ [93]).
    2:{ replace (S (length (chars p))) with (length (chars p ++ [91])) by (rewrite app_length; cbn; lia).
        replace (chars p ++ 91 :: t ++ [93]) with ((chars p ++ [91]) ++ t ++ [93]) by (now rewrite <- app_assoc). rewrite skipn_app, skipn_all, Nat.sub_diag. reflexivity. }
    replace (length (chars p) + S (length t) - length (chars p) - 1)%nat with (length t) by lia. rewrite firstn_app, firstn_all, Nat.sub_diag. cbn [firstn]. rewrite app_nil_r.
    rewrite IH; [reflexivity|]. rewrite app_length in L. cbn [List.length] in L. rewrite app_length in L. lia. }
  intros k t H. induction H; intros n L; try (destruct n; reflexivity).
  - apply (G "vector"%string); [tauto|assumption|exact L].
  - apply (G "set"%string); [tauto|assumption|exact L].
  - apply (G "table"%string); [tauto|assumption|exact L].
Qed.
Lemma hexd_spec : forall c x, hexd c x -> isxdigit c = true /\ hex_value c = x /\ c <> 92 /\ x < 16.
Proof.
  intros c x H. assert (L : (N.to_nat x < 16)%nat).
  { destruct H as [H|H]; apply (f_equal (fun o => match o with Some _ => true | None => false end)) in H;
      destruct (Nat.lt_ge_cases (N.to_nat x) 16) as [L|L]; try exact L; rewrite (proj2 (nth_error_None _ _)) in H by (cbn; lia); discriminate. }
  assert (X : x < 16) by lia. assert (E : x = N.of_nat (N.to_nat x)) by lia. remember (N.to_nat x) as n. unfold hexd in H. rewrite <- Heqn in H. clear Heqn. subst x.
  do 16 (destruct n as [|n]; [destruct H as [H|H]; injection H as <-; repeat split; try reflexivity; discriminate|]). lia.
Qed.
Lemma stoi_two : forall a b x y, hexd a x -> hexd b y -> stoi [a; b] = Some (16 * x + y).
Proof. intros a b x y H1 H2. destruct (hexd_spec _ _ H1) as (A1 & A2 & _), (hexd_spec _ _ H2) as (B1 & B2 & _). cbn [stoi]. now rewrite A1, B1, A2, B2. Qed.
Definition log_of (h : heading) : log :=
  {| g_sep := [h_sep h]; g_set := [h_set h]; g_empty := h_empty h; g_unset := h_unset h; g_name := chars "zeek." ++ h_path h;
     g_columns := map (fun x => (fst (fst x), snd x)) (h_columns h) |}.
Lemma value_line : forall c (p : string) ps v ls, ~ In c (chars p) -> v <> [] ->
  values [c] (chars p :: ps) (line_of p c v :: ls) = option_map (fun x => (v :: fst x, snd x)) (values [c] ps ls).
Proof. intros c p ps v ls H N. cbn [values]. unfold line_of. rewrite starts_app, after_one by exact H. destruct v as [|d v]; [contradiction|reflexivity]. Qed.
Lemma not_in_prefix : forall c p, ~ In c (chars "#_abcdefghijklmnopqrstuvwxyz") -> In p prefixes -> ~ In c p.
Proof.
  intros c p H I J. apply H. clear H. unfold prefixes in I. cbn [map In] in I.
  repeat (destruct I as [<-|I]; [cbn [chars In] in J; repeat (destruct J as [<-|J]; [apply mem_in; reflexivity|]); contradiction|]). contradiction.
Qed.
Lemma all_some_map : forall {B C} (f : B -> option C) l ks, Forall2 (fun x k => f x = Some k) l ks -> all_some (map f l) = Some ks.
Proof. intros B C f l ks H. induction H as [|x k l ks H F IH]; [reflexivity|]. cbn [map all_some]. now rewrite H, IH. Qed.
Lemma words_last : forall {X} c (f : X -> text) l, l <> [] -> Forall (fun x => word c (f x)) l -> Forall (fun t => ~ In c t) (map f l) /\ last (map f l) [] <> [].
Proof.
  intros X c f l N F. split.
  - clear N. induction F as [|x l W F IH]; cbn [map]; constructor; [apply W|exact IH].
  - induction l as [|x l IH]; [contradiction|]. destruct l as [|y l]; [exact (proj1 (Forall_inv F))|]. apply IH; [discriminate|exact (Forall_inv_tail F)].
Qed.
Lemma join_nonempty : forall c ts, last ts [] <> [] -> join_text [c] ts <> [].
Proof. intros c [|t [|u ts] ] H; [contradiction|cbn in *; now rewrite app_nil_r|]. cbn [join_text flat_map]. intros E. apply app_eq_nil in E. destruct E as [_ E]. discriminate. Qed.
Lemma combine_map : forall {X Y Z} (f : X -> Y) (g : X -> Z) l, combine (map f l) (map g l) = map (fun x => (f x, g x)) l.
Proof. intros. induction l as [|x l IH]; [reflexivity|]. cbn. now rewrite IH. Qed.
Lemma header_ok : forall h ls, heading_ok h -> parse_header (heading_lines h ++ ls) = HLog (log_of h) ls.
Proof.
  intros h ls ((x & y & X & Y & E) & P & D & N1 & N2 & N3 & N4 & N5 & F).
  destruct (hexd_spec _ _ X) as (_ & _ & X1 & _), (hexd_spec _ _ Y) as (_ & _ & Y1 & _).
  assert (S0 : separators (skipn 11 (chars "#separator \x" ++ [h_hi h; h_lo h])) = Some [h_sep h]).
  { change (skipn 11 (chars "#separator \x" ++ [h_hi h; h_lo h])) with (92 :: 120 :: [h_hi h; h_lo h]). cbn [separators].
    change (starts (chars "\x") (92 :: 120 :: [h_hi h; h_lo h])) with true. change (firstn 2 (skipn 2 (92 :: 120 :: [h_hi h; h_lo h]))) with [h_hi h; h_lo h].
    rewrite (stoi_two _ _ _ _ X Y), <- E. change (starts (chars "\x") (120 :: [h_hi h; h_lo h])) with false.
    change (chars "\x") with [92; 120]. cbn [starts]. destruct (N.eqb_spec 92 (h_hi h)); [congruence|]. destruct (N.eqb_spec 92 (h_lo h)); [congruence|]. reflexivity. }
  assert (Q : forall p, In (chars p) prefixes -> ~ In (h_sep h) (chars p)) by (intros p I; now apply not_in_prefix).
  assert (F1 : Forall (fun z => word (h_sep h) (fst (fst z))) (h_columns h)) by (eapply Forall_impl; [|exact F]; cbn; tauto).
  assert (F2 : Forall (fun z => word (h_sep h) (snd (fst z))) (h_columns h)) by (eapply Forall_impl; [|exact F]; cbn; tauto).
  destruct (words_last _ (fun z => fst (fst z)) _ N5 F1) as [W1 W2]. destruct (words_last _ (fun z => snd (fst z)) _ N5 F2) as [W3 W4].
  unfold heading_lines. cbn [app]. unfold parse_header. change (starts (chars "#separator ") (chars "#separator \x" ++ [h_hi h; h_lo h])) with true. cbn [app] in S0 |- *.
  rewrite S0. unfold prefixes. cbn [map].
  rewrite !value_line by (try (apply Q; unfold prefixes; cbn [map In]; tauto); try assumption; try (now apply join_nonempty); discriminate).
  cbn [values option_map fst snd]. rewrite (split_join _ _ W1 W2), (split_join _ _ W3 W4), !map_length, Nat.eqb_refl. cbn [negb].
  rewrite (all_some_map _ _ (map snd (h_columns h))).
  2:{ clear -F. induction F as [|z l H F IH]; cbn [map]; constructor; [|exact IH]. apply parse_named; [apply H|lia]. }
  unfold log_of. now rewrite combine_map.
Qed.

(** ** Cells *)

Lemma value_num_ : forall ds n, fold_left (fun n c => n * 10 + (c - 48)) ds n = n * 10 ^ N.of_nat (length ds) + value ds.
Proof.
  induction ds as [|d ds IH]; intros n; cbn [fold_left value List.length]; [cbn; lia|]. rewrite IH, Nat2N.inj_succ, N.pow_succ_r'. lia.
Qed.
Lemma value_num : forall ds, num ds = value ds.
Proof. intros ds. unfold num. rewrite value_num_. lia. Qed.
Lemma hex_byte : forall x y, x < 16 -> y < 16 -> (N.lor (N.shiftl x 4) y) mod 256 = 16 * x + y.
Proof.
  intros x y X Y. assert (X' : (N.to_nat x < 16)%nat) by lia. assert (Y' : (N.to_nat y < 16)%nat) by lia.
  rewrite <- (N2Nat.id x), <- (N2Nat.id y). generalize dependent (N.to_nat x). generalize dependent (N.to_nat y). clear.
  intros m M n L. do 16 (destruct n as [|n]; [do 16 (destruct m as [|m]; [reflexivity|]); lia|]). lia.
Qed.
Lemma bytes_loop : forall t s, bytes_say t s -> forall f acc, (length t <= f)%nat -> unescape_loop byte_unescaper f t acc = Returns (acc ++ s).
Proof.
  intros t s H. induction H as [|c t s H B IH|hi lo x y t s X Y B IH]; intros f acc L.
  - destruct f; cbn [unescape_loop]; now rewrite app_nil_r.
  - rewrite (loop_step _ byte_progress (c :: t) [c] t acc f); [|unfold byte_unescaper, c_backslash; destruct (N.eqb_spec c 92); [contradiction|reflexivity]|exact L|discriminate].
    rewrite IH by (cbn [List.length] in L; lia). now rewrite <- app_assoc.
  - destruct (hexd_spec _ _ X) as (X1 & X2 & _ & X3), (hexd_spec _ _ Y) as (Y1 & Y2 & _ & Y3).
    rewrite (loop_step _ byte_progress (92 :: 120 :: hi :: lo :: t) [16 * x + y] t acc f); [| |exact L|discriminate].
    + rewrite IH by (cbn [List.length] in L; lia). now rewrite <- app_assoc.
    + unfold byte_unescaper. change (92 =? c_backslash) with true. cbn [negb List.length Nat.ltb Nat.leb]. change (120 =? c_x) with true. cbn [negb].
      unfold hex_unescaper. rewrite X1, Y1. cbn [negb orb]. unfold hex_to_byte. rewrite X2, Y2. now rewrite hex_byte.
Qed.
Lemma bytes_unescaped : forall t s, bytes_say t s -> unescaped t = s.
Proof. intros t s H. unfold unescaped, byte_unescape, unescape. now rewrite (bytes_loop _ _ H _ [] (le_n _)). Qed.

(** What follows a value: nothing, or the set separator. *)
Definition behind (sep r : text) : Prop := r = [] \/ exists c r', sep = [c] /\ r = c :: r' /\ isdigit c = false.
Lemma behind_digit : forall sep r, behind sep r -> stops isdigit r.
Proof. intros sep r [->|(c & r' & _ & -> & H)]; [exact Logic.I|exact H]. Qed.
Lemma but_one : forall c s, but [[c] ] s = sat (fun d => negb (c =? d)) s.
Proof. intros c [|d s]; [reflexivity|]. unfold but. cbn [existsb lit]. unfold then_, bind, ch. cbn [sat]. destruct (c =? d); reflexivity. Qed.
Section Cells.
  Variable A : arith.
  Variable seconds : decimal -> Z.
  Notation plain := (plain A seconds).
  Notation value_p := (value_p A seconds).

  Lemma bytes_reads : forall sep t s r, t <> [] -> bytes_say t s -> behind sep r -> (sep = [] \/ exists c, sep = [c] /\ ~ In c t) -> bytes_p sep (t ++ r) = Ok s r.
  Proof.
    intros sep t s r N B R [->|(c & -> & I)]; unfold bytes_p.
    - destruct R as [->|(c & r' & E & _)]; [|discriminate]. destruct t as [|d t]; [contradiction|]. erewrite act_ok; [|apply plus_sat; [|exact Logic.I] ].
      + f_equal. now apply bytes_unescaped.
      + clear. induction (d :: t); [reflexivity|assumption].
    - destruct t as [|d t]; [contradiction|]. rewrite (act_ok _ _ _ (d :: t) r); [f_equal; now apply bytes_unescaped|].
      rewrite (plus_ext _ _ (but_one c)). apply plus_sat.
      + apply forallb_forall. intros x X. destruct (N.eqb_spec c x) as [->|]; [contradiction|reflexivity].
      + destruct R as [->|(c' & r' & E & -> & _)]; [exact Logic.I|]. injection E as <-. cbn. now rewrite N.eqb_refl.
  Qed.
  Lemma plain_reads : forall k t v, plain k t v -> forall sep r, behind sep r -> (sep = [] \/ exists c, sep = [c] /\ ~ In c t) -> value_p sep k (t ++ r) = Ok v r.
  Proof.
    intros k t v H sep r R I. pose proof (behind_digit _ _ R) as S0.
    destruct H as [| |k ds K D L B|sg ds Hs D L z B|k sg i f v Hs D1 D2 L1 L2 d K|t s N B|a W V].
    - reflexivity.
    - reflexivity.
    - assert (E : act DCount (udec 20 1 64) (ds ++ r) = Ok (DCount (value ds)) r).
      { erewrite act_ok; [reflexivity|]. rewrite <- value_num in *. now apply udec_ok. }
      destruct K as [-> | ->]; exact E.
    - cbn [ZeekModel.value_p]. rewrite <- app_assoc. erewrite act_ok; [reflexivity|]. unfold sdec. rewrite (sign_digits _ _ _ Hs D) by lia. rewrite take_fit by (assumption || lia).
      destruct (Nat.ltb_spec (length ds) 1); [lia|]. rewrite value_num. fold z. change (64 - 1)%Z with 63%Z.
      destruct (Z.leb_spec (- 2 ^ 63) z); [|lia]. destruct (Z.ltb_spec z (2 ^ 63)); [reflexivity|lia].
    - assert (E : real_ true ((sg ++ i ++ 46 :: f) ++ r) = Ok d r).
      { rewrite <- !app_assoc. unfold real_. rewrite (sign_digits _ _ _ Hs D1) by lia. cbn [app]. rewrite take_fit; [|exact D1|reflexivity|lia].
        change (46 =? 46) with true. cbn iota. cbn [negb andb]. rewrite take_fit by (assumption || lia). destruct f as [|c f]; [cbn in L2; lia|]. reflexivity. }
      destruct K as [(-> & ->)|[(-> & ->)|(-> & ->)] ]; cbn [ZeekModel.value_p]; now rewrite (act_ok _ _ _ _ _ E).
    - cbn [ZeekModel.value_p]. erewrite act_ok; [reflexivity|]. now apply bytes_reads.
    - cbn [ZeekModel.value_p]. erewrite act_ok; [reflexivity|]. now apply addr_ok.
  Qed.
  Lemma lit_one : forall c s, lit [c] (c :: s) = Ok tt s.
  Proof. intros c s. exact (lit_ok [c] s). Qed.
  Lemma list_steps : forall c e ts vs, isdigit c = false -> Forall2 (plain e) ts vs -> Forall (fun t => ~ In c t) ts ->
    steps (then_ (lit [c]) (value_p [c] e)) (flat_map (fun y => [c] ++ y) ts) vs [].
  Proof.
    intros c e ts vs D F. induction F as [|t v ts vs P F IH]; intros N; cbn [flat_map].
    - apply steps_nil. reflexivity.
    - specialize (IH (Forall_inv_tail N)). eapply steps_cons; [| |exact IH].
      + cbn [app]. rewrite (then_ok _ _ _ _ _ (lit_one c _)). apply plain_reads; [exact P| |right; exists c; split; [reflexivity|exact (Forall_inv N)] ].
        destruct ts as [|u ts]; [now left|right]. cbn [flat_map app]. eauto.
      + rewrite app_length. cbn. lia.
  Qed.
  Lemma list_reads : forall c e ts vs, isdigit c = false -> ts <> [] -> Forall2 (plain e) ts vs -> Forall (fun t => ~ In c t) ts ->
    value_p [c] (ZList e) (join_text [c] ts) = Ok (DList vs) [].
  Proof.
    intros c e ts vs D N F G. destruct F as [|t v ts vs P F]; [contradiction|]. cbn [ZeekModel.value_p]. erewrite act_ok; [reflexivity|]. unfold list_. cbn [join_text].
    erewrite bind_ok.
    2:{ apply plain_reads; [exact P| |right; exists c; split; [reflexivity|exact (Forall_inv G)] ]. destruct ts as [|u ts]; [now left|right]. cbn [flat_map app]. eauto. }
    erewrite act_ok; [reflexivity|]. apply steps_kleene. apply list_steps; [exact D|exact F|exact (Forall_inv_tail G)].
  Qed.
  Lemma eqb_text : forall a b, bytes_eqb a b = true <-> a = b.
  Proof. intros. apply bytes_eqb_spec. Qed.
  Lemma neqb_text : forall a b, a <> b -> bytes_eqb a b = false.
  Proof. intros a b H. destruct (bytes_eqb a b) eqn:E; [apply eqb_text in E; contradiction|reflexivity]. Qed.
  Lemma cell_reads : forall h k t v, isdigit (h_set h) = false -> cell_says A seconds h k t v -> cell A seconds (log_of h) k t = Got v /\ takes k v = true.
  Proof.
    intros h k t v D H. unfold cell. cbn [g_unset g_empty log_of]. destruct H as [k|k E K1 K2|k t v N1 N2 P|e ts vs N1 N2 N3 F G].
    - rewrite (proj2 (eqb_text _ _) eq_refl). destruct k; split; reflexivity.
    - rewrite (neqb_text _ _ E), (proj2 (eqb_text _ _) eq_refl). split; [destruct k; reflexivity|destruct k; try reflexivity; contradiction].
    - rewrite (neqb_text _ _ N1), (neqb_text _ _ N2). unfold cell_p.
      assert (E : value_p [] k t = Ok v []) by (rewrite <- (app_nil_r t) at 1; apply plain_reads; [exact P|now left|now left]).
      assert (Q : takes k v = true).
      { destruct P; try reflexivity; [destruct H as [-> | ->]; reflexivity|destruct H4 as [(-> & ->)|[(-> & ->)|(-> & ->)] ]; reflexivity]. }
      split; [|exact Q]. destruct k; try (now rewrite E). exfalso. clear -P. inversion P; subst;
        match goal with H : _ \/ _ |- _ => repeat (destruct H as [H|H]; try discriminate; try (destruct H; discriminate)) end; destruct H; discriminate.
    - rewrite (neqb_text _ _ N1), (neqb_text _ _ N2). unfold cell_p. cbn [g_set log_of]. rewrite (list_reads _ _ _ _ D N3 F G). split; [reflexivity|].
      cbn [takes]. clear -F. induction F as [|t v ts vs P F IH]; [reflexivity|]. cbn [forallb]. rewrite IH, andb_true_r.
      destruct P; try reflexivity; [destruct H as [-> | ->]; reflexivity|destruct H4 as [(-> & ->)|[(-> & ->)|(-> & ->)] ]; reflexivity].
  Qed.
  Lemma row_reads : forall h ks ts vs, isdigit (h_set h) = false -> row_says A seconds h ks ts vs ->
    cells A seconds (log_of h) ks ts = Got vs /\ taken ks vs = length ks /\ length ts = length ks.
  Proof.
    intros h ks ts vs D H. induction H as [|k ks t ts v vs C R (IH1 & IH2 & IH3)]; [now repeat split|].
    destruct (cell_reads _ _ _ _ D C) as (E1 & E2). cbn [cells taken List.length]. rewrite E1, IH1, E2, IH2, IH3. now repeat split.
  Qed.
End Cells.

(** ** Reading *)

Section Reading.
  Variable A : arith.
  Variable seconds : decimal -> Z.
  Notation ahead := (ahead A seconds).
  Notation event := (text * list (text * kind) * list data)%type.
  Definition tagged (g : log) (rows : list (list data)) : list event := map (fun vs => (g_name g, g_columns g, vs)) rows.
  (** What the consumer got, and what the reader holds back. *)
  Definition delivered (r : reader) : list event := concat (map (fun s => tagged (fst s) (snd s)) (r_slices r)).
  Definition pending (r : reader) : list event := match r_log r with Some g => tagged g (r_rows r) | None => [] end.
  Definition sized (size : nat) (r : reader) : Prop := Forall (fun s => (1 <= length (snd s) <= size)%nat) (r_slices r) /\ (length (r_rows r) < size)%nat.

  Lemma finish_ok : forall size r g, r_log r = Some g -> sized size r ->
    delivered (finish r) = delivered r ++ pending r /\ r_rows (finish r) = [] /\ r_log (finish r) = Some g /\ r_lines (finish r) = r_lines r /\
    r_done (finish r) = r_done r /\ sized size (finish r).
  Proof.
    intros size r g G (S1 & S2). unfold finish. destruct (r_rows r) as [|v rows] eqn:E.
    - repeat split; auto. { unfold pending. rewrite G, E. cbn. now rewrite app_nil_r. } now rewrite E.
    - rewrite G. cbn [r_rows r_log r_lines r_done r_slices]. repeat split; auto.
      + unfold delivered, pending. cbn [r_slices]. rewrite map_app, concat_app, G, E. cbn [map concat fst snd]. now rewrite app_nil_r.
      + cbn [r_slices]. apply Forall_app. split; [exact S1|]. constructor; [|constructor]. cbn [snd]. cbn [List.length] in *. lia.
      + cbn. lia.
  Qed.
  Lemma finish_full : forall size r g, r_log r = Some g -> Forall (fun s => (1 <= length (snd s) <= size)%nat) (r_slices r) -> (1 <= length (r_rows r) <= size)%nat ->
    delivered (finish r) = delivered r ++ pending r /\ r_rows (finish r) = [] /\ r_log (finish r) = Some g /\ r_lines (finish r) = r_lines r /\
    r_done (finish r) = r_done r /\ Forall (fun s => (1 <= length (snd s) <= size)%nat) (r_slices (finish r)).
  Proof.
    intros size r g G S1 S2. unfold finish. destruct (r_rows r) as [|v rows] eqn:E; [cbn in S2; lia|].
    rewrite G. cbn [r_rows r_log r_lines r_done r_slices]. repeat split; auto.
    - unfold delivered, pending. cbn [r_slices]. rewrite map_app, concat_app, G, E. cbn [map concat fst snd]. now rewrite app_nil_r.
    - apply Forall_app. split; [exact S1|]. constructor; [|constructor]. exact S2.
  Qed.
  Definition ok_end (e : ending) : Prop := e = Enough \/ e = Timeout \/ e = Stall \/ e = End.
  (** The result of a call: what was there is still there, in order; at the end, all of it is delivered. *)
  Definition result (size : nat) (all : list event) (x : ending * reader) : Prop :=
    let '(e, r) := x in
    ok_end e /\ sized size r /\ (exists h evs, r_log r = Some (log_of h) /\ heading_ok h /\ ahead (Some h) (r_lines r) evs /\ delivered r ++ pending r ++ evs = all /\
      (e = End -> evs = [] /\ r_rows r = []) /\ (r_done r = true -> e = End)).
  Lemma hash_line : forall l, hd 0 l <> 35 -> starts (chars "#separator") l = false /\ starts (chars "#") l = false.
  Proof.
    intros [|c l] H; [split; reflexivity|]. cbn [hd] in H. change (chars "#separator") with (35 :: chars "separator"). change (chars "#") with [35]. cbn [starts].
    destruct (N.eqb_spec 35 c); [congruence|]. now split.
  Qed.
  Lemma heading_start : forall h ls, exists l ls', heading_lines h ++ ls = l :: ls' /\ starts (chars "#separator") l = true /\ (length ls < length ls')%nat.
  Proof. intros h ls. unfold heading_lines. cbn [app]. eexists. eexists. split; [reflexivity|]. split; [reflexivity|]. cbn. lia. Qed.
  Local Arguments parse_header : simpl never.
  Local Arguments heading_lines : simpl never.
  Lemma loop_ok : forall size, (0 < size)%nat -> forall n events waits r h evs all, r_log r = Some (log_of h) -> heading_ok h -> r_done r = false -> sized size r ->
    ahead (Some h) (r_lines r) evs -> (length (r_lines r) < n)%nat -> delivered r ++ pending r ++ evs = all -> result size all (loop A seconds n size events waits r).
  Proof.
    intros size P. induction n as [|n IH]; intros events waits r h evs all G HO DN Z AH L E; [lia|]. cbn [loop].
    assert (Fin : forall e, (e = Enough \/ e = Timeout) -> result size all (e, finish r)).
    { intros e He. destruct (finish_ok size r _ G Z) as (F1 & F2 & F3 & F4 & F5 & F6). unfold result. split; [unfold ok_end; tauto|]. split; [exact F6|].
      exists h, evs. rewrite F3, F4, F1, F5. unfold pending at 2. rewrite F3, F2. cbn [tagged map app]. rewrite <- app_assoc. split; [reflexivity|]. split; [exact HO|]. split; [exact AH|]. split; [exact E|]. split; [intros ->; destruct He; discriminate|congruence]. }
    destruct events as [|events]; [apply Fin; now left|]. destruct (hd Now waits) eqn:W.
    2:{ apply Fin. now right. }
    2:{ unfold result. split; [unfold ok_end; tauto|]. split; [exact Z|]. exists h, evs. split; [exact G|]. split; [exact HO|]. split; [exact AH|]. split; [exact E|]. split; [discriminate|congruence]. }
    inversion AH as [h0 E0 E1 E2|o h' ls evs' HO' AH' E0 E1 E2|h0 l ls evs' Hh Hn AH' E0 E1 E2|h0 l ts ls evs' C N AH' E0 E1 E2|h0 l ts vs ls evs' C R AH' E0 E1 E2]; subst; rewrite ?G.
    - assert (Z' : sized size (with_done r)) by exact Z. destruct (finish_ok size (with_done r) _ G Z') as (F1 & F2 & F3 & F4 & F5 & F6).
      change (delivered (with_done r)) with (delivered r) in F1. change (pending (with_done r)) with (pending r) in F1.
      unfold result. split; [unfold ok_end; tauto|]. split; [exact F6|]. exists h, []. rewrite F3, F4, F1. unfold pending at 2. rewrite F3, F2. cbn [tagged map app]. rewrite <- app_assoc.
      split; [reflexivity|]. split; [exact HO|]. split; [first [exact AH|assumption]|]. split; [first [assumption|reflexivity]|]. split; [auto|reflexivity].
    - change (heading_lines h' ++ ls = r_lines r) in E1. destruct (heading_start h' ls) as (l & ls' & Hl & Hs & Lt). rewrite <- E1, Hl in L. cbn [List.length] in L. match goal with |- context [starts (chars "#separator") ?l] => change (starts (chars "#separator") l) with true end. cbn iota. match goal with |- context [parse_header ?x] => change (parse_header x) with (parse_header (heading_lines h' ++ ls)) end. rewrite header_ok by exact HO'.
      destruct (finish_ok size r _ G Z) as (F1 & F2 & F3 & F4 & F5 & F6).
      apply (IH _ _ _ h' evs); auto.
      + cbn [with_log r_done]. now rewrite F5.
      + split; [exact (proj1 F6)|exact P].
      + cbn [with_log r_lines]. cbn [List.length] in L. lia.
      + change (delivered (with_log (log_of h') ls (finish r))) with (delivered (finish r)). rewrite F1. unfold pending at 2. cbn [with_log r_log r_rows tagged map app]. now rewrite <- app_assoc.
    - destruct l as [|c l]; [discriminate|]. cbn [hd] in Hh. subst c.
      assert (S1 : starts (chars "#separator") (35 :: l) = false).
      { destruct (starts (chars "#separator") (35 :: l)) eqn:S1; [|reflexivity]. apply starts_spec in S1. destruct S1 as (t & Ht). now apply Hn in Ht. }
      rewrite S1. change (starts (chars "#") (35 :: l)) with true. cbn iota. apply (IH _ _ _ h evs); auto.
      cbn [with_lines r_lines]. rewrite <- E1 in L. cbn [List.length] in L. lia.
    - destruct C as (C1 & C2 & C3 & C4). destruct (hash_line _ C4) as (H1 & H2). rewrite H1, H2. cbn [g_sep log_of].
      rewrite C1, split_join by assumption. cbn [g_columns log_of]. rewrite !map_length. destruct (Nat.eqb_spec (length ts) (length (h_columns h))); [contradiction|]. cbn [negb].
      apply (IH _ _ _ h evs); auto. cbn [with_lines r_lines]. rewrite <- E1 in L. cbn [List.length] in L. lia.
    - destruct C as (C1 & C2 & C3 & C4). destruct (hash_line _ C4) as (H1 & H2). rewrite H1, H2. cbn [g_sep log_of].
      rewrite C1, split_join by assumption.
      assert (K : map snd (g_columns (log_of h)) = kinds h) by (unfold kinds; cbn [g_columns log_of]; now rewrite map_map). rewrite K.
      destruct (row_reads A seconds h _ _ _ (proj1 (proj2 (proj2 HO))) R) as (R1 & R2 & R3). rewrite R3, Nat.eqb_refl. cbn [negb]. rewrite R1, R2, Nat.eqb_refl.
      set (r2 := with_rows _ _). assert (G2 : r_log r2 = Some (log_of h)) by exact G.
      assert (D2 : delivered r2 ++ pending r2 ++ evs' = delivered r ++ pending r ++ (layout h, vs) :: evs').
      { subst r2. unfold delivered, pending. cbn [with_rows with_lines r_slices r_log r_rows]. rewrite G. unfold tagged. rewrite map_app. cbn [map]. rewrite <- app_assoc. reflexivity. }
      assert (Len : length (r_rows r2) = S (length (r_rows r))) by (subst r2; cbn [with_rows with_lines r_rows]; rewrite app_length; cbn; lia).
      destruct Z as (Z1 & Z2). rewrite <- E1 in L. cbn [List.length] in L. destruct (Nat.eqb_spec (length (r_rows r2)) size) as [Q|Q].
      + destruct (finish_full size r2 _ G2 Z1 ltac:(lia)) as (F1 & F2 & F3 & F4 & F5 & F6). apply (IH _ _ _ h evs'); auto.
        * rewrite F5. exact DN.
        * split; [exact F6|]. rewrite F2. exact P.
        * rewrite F4. exact AH'.
        * rewrite F4. cbn [r2 with_rows with_lines r_lines]. subst r2. cbn. lia.
        * rewrite F1. unfold pending at 2. rewrite F3, F2. cbn [tagged map app]. now rewrite <- app_assoc.
      + apply (IH _ _ _ h evs'); auto; [split; [exact Z1|lia]|subst r2; cbn; lia].
  Qed.

  Lemma result_log : forall size all e r, result size all (e, r) -> exists g, r_log r = Some g.
  Proof. intros size all e r (_ & _ & h & evs & G & _). eauto. Qed.
  Lemma read_ok : forall size events waits r all, (0 < size)%nat ->
    (r_log r = None /\ r_done r = false /\ r_rows r = [] /\ r_slices r = [] /\ ahead None (r_lines r) all) \/ (exists e, e <> End /\ result size all (e, r)) ->
    (read A seconds size events waits r = (Stall, r) /\ r_log r = None) \/ result size all (read A seconds size events waits r).
  Proof.
    intros size events waits r all P [(G & D & R & S0 & H)|(e & Ne & H)]; unfold read.
    - rewrite D, G. destruct (hd Now waits); [| |now left].
      all: right; inversion H as [|o h ls evs HO AH E0 E1 E2| | |]; subst; match goal with |- context [parse_header ?x] => change (parse_header x) with (parse_header (heading_lines h ++ ls)) end;
        rewrite header_ok by exact HO; apply (loop_ok size P _ _ _ _ h all); auto; unfold with_log, sized, delivered, pending; cbn; rewrite ?S0; auto.
    - right. destruct H as (Ok0 & Z & h & evs & G & HO & AH & E & HE & HD). destruct (r_done r) eqn:D; [exfalso; apply Ne, HD; reflexivity|]. rewrite G.
      apply (loop_ok size P _ _ _ _ h evs); auto.
  Qed.
  Lemma run_ok : forall size calls r all, (0 < size)%nat ->
    (r_log r = None /\ r_done r = false /\ r_rows r = [] /\ r_slices r = [] /\ ahead None (r_lines r) all) \/ (exists e, e <> End /\ result size all (e, r)) ->
    let '(e, r') := run A seconds size calls r in
    (e = Stall \/ e = End) /\ Forall (fun s => (1 <= length (snd s) <= size)%nat) (r_slices r') /\ (exists later, delivered r' ++ later = all /\ (e = End -> later = [])).
  Proof.
    intros size calls. induction calls as [|[events waits] calls IH]; intros r all P H; cbn [run].
    - split; [now left|]. destruct H as [(G & D & R & S0 & H)|(e & Ne & H)].
      + unfold delivered. rewrite S0. split; [constructor|]. exists all. split; [reflexivity|discriminate].
      + destruct H as (_ & (Z & _) & h & evs & _ & _ & _ & E & _). split; [exact Z|]. exists (pending r ++ evs). split; [exact E|discriminate].
    - destruct (read_ok size events waits r all P H) as [(E & G)|E].
      + rewrite E. now apply IH.
      + destruct (read A seconds size events waits r) as [e r'] eqn:Er. assert (K : e <> End -> let '(e0, r0) := run A seconds size calls r' in
          (e0 = Stall \/ e0 = End) /\ Forall (fun s => (1 <= length (snd s) <= size)%nat) (r_slices r0) /\ (exists later, delivered r0 ++ later = all /\ (e0 = End -> later = []))).
        { intros Ne. apply IH; [exact P|]. right. exists e. now split. }
        destruct E as (Ok0 & (Z & _) & h & evs & G & HO & AH & E & HE & HD). destruct Ok0 as [->|[->|[->| ->] ] ]; try (apply K; discriminate).
        split; [now right|]. split; [exact Z|]. destruct (HE eq_refl) as (-> & R0). exists []. split; [|reflexivity]. rewrite <- E. unfold pending. rewrite G, R0. reflexivity.
  Qed.

  (** *** Progress *)

  Lemma values_length : forall sep ps ls vs rest, values sep ps ls = Some (vs, rest) -> (length rest + length ps = length ls)%nat.
  Proof.
    intros sep. induction ps as [|p ps IH]; intros ls vs rest H; [injection H as <- <-; cbn; lia|]. destruct ls as [|l ls]; [discriminate|]. cbn [values] in H.
    destruct (starts p l); [|discriminate]. destruct (after sep l) as [ [|c v]|]; try discriminate. destruct (values sep ps ls) as [ [vs' rest']|] eqn:E; [|discriminate].
    injection H as <- <-. cbn [snd List.length]. rewrite <- (IH _ _ _ E). lia.
  Qed.
  Lemma header_length : forall ls g rest, parse_header ls = HLog g rest -> (length rest < length ls)%nat.
  Proof.
    intros [|l ls] g rest H; [discriminate|]. unfold parse_header in H. destruct (starts _ l); [|discriminate]. destruct (separators _) as [sep|]; [|discriminate].
    destruct (values sep prefixes ls) as [ [vs r]|] eqn:E; [|discriminate]. apply values_length in E.
    destruct vs as [|v0 [|v1 [|v2 [|v3 [|v4 [|v5 [|v6 [|v7 vs] ] ] ] ] ] ] ]; try discriminate. destruct sep; [discriminate|]. destruct (negb _); [discriminate|]. destruct (all_some _); [|discriminate].
    injection H as _ <-. cbn [List.length] in *. lia.
  Qed.
  Lemma finish_lines : forall r, r_lines (finish r) = r_lines r.
  Proof. intros r. unfold finish. destruct (r_rows r); [reflexivity|]. destruct (r_log r); reflexivity. Qed.
  Lemma loop_progress : forall size n events r e r', loop A seconds n size events [] r = (e, r') ->
    (length (r_lines r') <= length (r_lines r))%nat /\ e <> Timeout /\ e <> Stall /\ ((0 < events)%nat -> e = Enough -> (length (r_lines r') < length (r_lines r))%nat).
  Proof.
    intros size. induction n as [|n IH]; intros events r e r' H; [injection H as <- <-; repeat split; try discriminate; lia|]. cbn [loop hd tl] in H.
    destruct events as [|events]; [injection H as <- <-; rewrite finish_lines; repeat split; try discriminate; lia|].
    assert (Q : forall ev r1, (length (r_lines r1) < length (r_lines r))%nat -> loop A seconds n size ev [] r1 = (e, r') ->
       (length (r_lines r') <= length (r_lines r))%nat /\ e <> Timeout /\ e <> Stall /\ ((0 < S events)%nat -> e = Enough -> (length (r_lines r') < length (r_lines r))%nat)).
    { intros ev r1 L H1. destruct (IH _ _ _ _ H1) as (A1 & A2 & A3 & _). repeat split; auto; lia. }
    assert (S1 : forall e1 r1, e1 <> Enough -> e1 <> Timeout -> e1 <> Stall -> (length (r_lines r1) <= length (r_lines r))%nat -> (e1, r1) = (e, r') ->
       (length (r_lines r') <= length (r_lines r))%nat /\ e <> Timeout /\ e <> Stall /\ ((0 < S events)%nat -> e = Enough -> (length (r_lines r') < length (r_lines r))%nat)).
    { intros e1 r1 N1 N2 N3 L H1. injection H1 as <- <-. repeat split; auto. contradiction. }
    destruct (r_lines r) as [|l ls] eqn:E.
    - eapply S1; [| | | |exact H]; try discriminate. rewrite finish_lines. cbn. now rewrite E.
    - destruct (r_log r) as [g|] eqn:G; [|eapply S1; [| | | |exact H]; try discriminate; now rewrite E].
      destruct (starts (chars "#separator") l).
      + destruct (parse_header (l :: ls)) as [g' rest| |] eqn:Hh.
        * apply (Q _ _ (header_length _ _ _ Hh : (length (r_lines (with_log g' rest (finish r))) < _)%nat) H).
        * eapply S1; [| | | |exact H]; try discriminate. cbn. lia.
        * eapply S1; [| | | |exact H]; try discriminate. rewrite finish_lines, E. lia.
      + assert (L1 : (length (r_lines (with_lines ls r)) < length (l :: ls))%nat) by (cbn; lia).
        destruct (starts (chars "#") l); [exact (Q _ _ L1 H)|]. destruct (negb _); [exact (Q _ _ L1 H)|]. destruct (cells _ _ _ _ _) as [vs| |].
        * destruct (_ =? _)%nat.
          -- eapply Q; [|exact H]. destruct (_ =? _)%nat; rewrite ?finish_lines; cbn; lia.
          -- destruct (taken _ _); [eapply S1; [| | | |exact H]; try discriminate; rewrite finish_lines; cbn; lia|].
             destruct (r_rows _); (eapply S1; [| | | |exact H]; try discriminate; cbn; lia).
        * eapply S1; [| | | |exact H]; try discriminate. rewrite finish_lines. cbn. lia.
        * eapply S1; [| | | |exact H]; try discriminate. cbn. lia.
  Qed.
  Lemma read_progress : forall size events r e r', (0 < events)%nat -> read A seconds size events [] r = (e, r') ->
    e <> Timeout /\ e <> Stall /\ (e = Enough -> (length (r_lines r') < length (r_lines r))%nat).
  Proof.
    intros size events r e r' P H. unfold read in H. destruct (r_done r); [injection H as <- <-; repeat split; discriminate|]. destruct (r_log r).
    - destruct (loop_progress _ _ _ _ _ _ H) as (_ & A1 & A2 & A3). auto.
    - cbn [hd tl] in H. destruct (parse_header (r_lines r)) as [g rest| |] eqn:Hh; try (injection H as <- <-; repeat split; discriminate).
      destruct (loop_progress _ _ _ _ _ _ H) as (A0 & A1 & A2 & A3). apply header_length in Hh. cbn [with_log r_lines] in A0. repeat split; auto. intros _. lia.
  Qed.
  Lemma run_complete : forall size calls r, Forall (fun c => (0 < fst c)%nat /\ snd c = []) calls -> (length (r_lines r) < length calls)%nat ->
    fst (run A seconds size calls r) <> Stall.
  Proof.
    intros size calls. induction calls as [|[events waits] calls IH]; intros r F L; [cbn in L; lia|]. destruct (Forall_inv F) as (P & W). cbn [fst snd] in P, W. subst waits.
    cbn [run]. destruct (read A seconds size events [] r) as [e r'] eqn:E. destruct (read_progress _ _ _ _ _ P E) as (A1 & A2 & A3). cbn [List.length] in L.
    destruct e; try discriminate; try congruence. apply IH; [exact (Forall_inv_tail F)|]. specialize (A3 eq_refl). lia.
  Qed.
End Reading.
