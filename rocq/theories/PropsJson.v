(** C69: events exported as JSON are JSON, say what the events are, and can be imported again.

    Specifications, in [JsonProofs]:
    - [document]: a decoder for JSON (RFC 8259), independent of the code.
    - [mirrors v j], [cell_says], [fields_say fs row o]: the JSON object [o] has the fields of the
      layout [fs] in order, with the values of the row.
    - [columns], [dotted]: the columns of a layout and their names.
    - [orderly_layout]: names have no dots and are distinct within each record. *)
From Coq Require Import List ZArith NArith Bool Arith Lia String Ascii.
From Coq Require Import ZifyBool ZifyNat ZifyN.
From Coq Require Import Init.Datatypes Floats.SpecFloat Permutation.
From Verif Require Import AddressModel AddressProofs DataModel DataProofs MsgpackProofs EscapeModel LiteralModel LiteralProofs CalendarModel CalendarTextProofs FloatIntProofs CsvModel CsvProofs ImporterModel.
From Verif Require Import CsvWriterModel CsvWriterProofs PropsCsvWriter.
From Verif Require LineModel PropsLine.
From Verif Require Import JsonModel JsonProofs.
Import ListNotations.
Local Notation length := List.length.
Open Scope N_scope.

(** * Export *)

(** The values that can be exported, with the arithmetic of the machine: all but reals (and, if
    durations are numbers, durations) that are no integers but look like one with six digits behind
    the point, and maps with keys that are no strings. *)
Fixpoint exportable (numeric : bool) (v : data) : Prop :=
  match v with
  | DReal p => fair_real (of_bits p)
  | DDuration z => if numeric then fair_real (ddiv (of_Z z) (of_Z 1000000000)) else True
  | DList l => (fix all l := match l with [] => True | x :: r => exportable numeric x /\ all r end) l
  | DMap l => (fix all l := match l with [] => True | (k, x) :: r => (string_like numeric k /\ exportable numeric k /\ exportable numeric x) /\ all r end) l
  | DRecord l => (fix all l := match l with [] => True | (_, x) :: r => exportable numeric x /\ all r end) l
  | _ => True
  end.

Lemma plain_app : forall a b, plain_text a -> plain_text b -> plain_text (a ++ b).
Proof. intros. apply Forall_app. now split. Qed.
Lemma plain_cons : forall c t, 32 <= c -> c <> 34 -> c <> 92 -> plain_text t -> plain_text (c :: t).
Proof. intros. constructor; auto. Qed.
Lemma plain_lit : forall s, forallb (fun c => (32 <=? c) && negb (c =? 34) && negb (c =? 92)) s = true -> plain_text s.
Proof. intros s H. apply Forall_forall. intros c I. rewrite forallb_forall in H. specialize (H c I). lia. Qed.
Lemma digits_plain : forall x, plain_text (digits x).
Proof.
  intros x. unfold digits. destruct (x =? 0); [now apply plain_lit|]. apply Forall_rev. generalize 20%nat as k. intros k. revert x. induction k as [|k IH]; intros x; cbn [digits_rev]; [constructor|].
  destruct (x =? 0); [constructor|]. constructor; [|apply IH]. lia.
Qed.
Lemma pad_plain : forall n x, plain_text (pad n x).
Proof. intros n x. unfold pad. apply plain_app; [|apply digits_plain]. generalize (n - length (digits (Z.to_N x)))%nat as k. induction k as [|k IH]; [constructor|]. cbn [repeat]. apply plain_cons; try discriminate. exact IH. Qed.
Lemma time_plain : forall z t, show_time z = Some t -> plain_text t.
Proof.
  intros z t H. unfold show_time in H. destruct (negb _); [discriminate|]. destruct (from_days _) as [ [y m] d]. injection H as <-.
  assert (P : forall n x, plain_text (pad n x)) by exact pad_plain. assert (D : forall x, plain_text (digits x)) by exact digits_plain.
  apply plain_app; [repeat first [apply plain_cons; [discriminate|discriminate|discriminate|] | apply plain_app; [first [apply P | apply D]|] ]; apply P|].
  match goal with |- plain_text (if ?b then _ else _) => destruct b end; [constructor|]. apply plain_cons; [discriminate|discriminate|discriminate|].
  repeat match goal with |- plain_text (if ?b then _ else _) => destruct b end; apply P.
Qed.
Lemma lead_plain : forall max r, plain_text (lead max r).
Proof.
  intros max r. unfold lead. destruct (r =? 0)%Z; [constructor|]. generalize (seq 1 max) as l. induction l as [|i l IH]; [constructor|]. cbn [flat_map]. apply plain_app; [|exact IH]. destruct (_ <? _)%Z; apply plain_lit; reflexivity.
Qed.
Lemma real_plain : forall max x, plain_text (show_real max x).
Proof.
  intros max x. unfold show_real. destruct (modf _) as [f w]. repeat apply plain_app; try apply digits_plain; try apply lead_plain; try (apply plain_lit; reflexivity). destruct (dlt _ _); apply plain_lit; reflexivity.
Qed.
Lemma dur_plain : forall z, plain_text (show_dur z).
Proof. intros z. unfold show_dur. repeat match goal with |- plain_text (if ?b then _ else _) => destruct b end; (apply plain_app; [apply real_plain|apply plain_lit; reflexivity]). Qed.
Lemma exportable_fair : forall now pton ntop numeric v, exportable numeric v -> fair (ieee now pton ntop) numeric v.
Proof.
  intros now pton ntop numeric. induction v as [v Hv|xs IH|xs IH|xs IH] using data_rect'; intros E.
  - destruct v; try contradiction; cbn [exportable fair] in *; try exact E.
    + destruct numeric; [exact E|apply dur_plain].
    + cbn [ieee a_show_time]. destruct (show_time z) eqn:X; [exact (time_plain _ _ X)|constructor].
  - cbn [exportable fair] in *. induction xs as [|x xs IH2]; [exact I|]. destruct E as [E1 E2]. split; [exact (Forall_inv IH E1)|exact (IH2 (Forall_inv_tail IH) E2)].
  - cbn [exportable fair] in *. induction xs as [|[k x] xs IH2]; [exact I|]. destruct E as [ (E0 & E1 & E2) E3]. pose proof (Forall_inv IH) as [I1 I2]. split; [|exact (IH2 (Forall_inv_tail IH) E3)]. split; [exact E0|]. split; [exact (I1 E1)|exact (I2 E2)].
  - cbn [exportable fair] in *. induction xs as [|[k x] xs IH2]; [exact I|]. destruct E as [E1 E2]. split; [exact (Forall_inv IH E1)|exact (IH2 (Forall_inv_tail IH) E2)].
Qed.

(** ** C69: every exported event is one line of JSON that says what the event is *)

(** For every layout, every row and both ways to write it: the line is JSON, an object with the
    fields of the layout (or its columns under their full names) in order, with the values of the
    row, and it has no control characters in it. *)
Theorem C69_line : forall now pton ntop numeric flat fs row, length row = length (columns fs) -> Forall (exportable numeric) row ->
  exists t o, line (ieee now pton ntop) numeric flat fs row = Some t /\ document t = Some (JObj o) /\
    fields_say (ieee now pton ntop) numeric (if flat then flat_layout fs else fs) row o /\ Forall (fun c => 32 <= c) t.
Proof.
  intros now pton ntop numeric flat fs row L E. assert (F : Forall (fair (ieee now pton ntop) numeric) row) by (eapply Forall_impl; [|exact E]; intros; now apply exportable_fair).
  destruct (line_reads (ieee now pton ntop) numeric flat fs row L F) as (t & o & T1 & T2 & T3). exists t, o. split; [exact T1|]. split; [exact T2|]. split; [exact T3|]. exact (above_line _ _ _ _ _ _ F T1).
Qed.

(** What [document] accepts and how: text is decoded in one way, as it is a function; here is what
    it makes of some texts. *)
Example C69_document_example :
  document (chars "{""a"": [1, -2.50e1 ,true],""b\n"":{ }} ") = Some (JObj [(chars "a", JArr [JNum false (chars "1") [] None; JNum true (chars "2") (chars "50") (Some 1%Z); JBool true]); (chars "b" ++ [10], JObj [])]) /\
  document (chars "[1,]") = None /\ document (chars "01") = None /\ document (chars "1.") = None /\ document (chars "{1: 2}") = None /\ document (34 :: 10 :: [34]) = None /\ document (chars """é""") = Some (JStr [195; 169]).
Proof. vm_compute. repeat split. Qed.

(** * Import *)

(** The values that are read back, by type of column; [inner] tells that it is in a list. *)
Fixpoint reread (inner : bool) (t : column) (v : data) {struct t} : Prop :=
  match v with
  | DNone => True
  | _ =>
      match t, v with
      | KBool, DBool _ => True
      | KInt, DInt z => (- 2 ^ 63 <= z < 2 ^ 63)%Z
      | KCount, DCount n => n < 2 ^ 64
      | KString, DString _ => True
      | KTime, DTime z => printable z /\ (-2208988800 * 1000000000 <= z)%Z /\ (z mod 1000000000 = 0)%Z
      | KAddress, DAddress a => wf a /\ is_v4 a = true
      | KSubnet, DSubnet s => sn_wf s /\ is_v4 (sn_net s) = true
      | KEnum names, DEnum n => inner = false /\ n < 256 /\ exists x, nth_error names (N.to_nat n) = Some x /\ ~ In x (firstn (N.to_nat n) names)
      | KList e, DList l => Forall (reread true e) l
      | _, _ => False
      end
  end.

Section Import.
  Variable now : Z.
  Variable pton : text -> option address.
  Variable ntop : address -> text.
  Variable numeric : bool.
  Variable double_of : bool -> text -> text -> option Z -> double.
  Variable nis : column -> text -> option data.
  Let A := ieee now pton ntop.
  Let conv := convert A double_of nis.

  Lemma reread_exportable : forall t i v, reread i t v -> exportable numeric v.
  Proof.
    induction t; intros i v H; destruct v; cbn [reread exportable] in *; try contradiction; try exact I.
    induction H as [|x l H1 H IH]; [exact I|]. split; [exact (IHt _ _ H1)|exact IH].
  Qed.
  Lemma kind_int : forall w z, Z.of_N (weigh w) = Z.abs z -> (- 2 ^ 63 <= z < 2 ^ 63)%Z -> kind double_of (z <? 0)%Z w [] None = Int64 z.
  Proof.
    intros w z W B. unfold kind. rewrite <- weigh_num, W. replace (if (z <? 0)%Z then (- Z.abs z)%Z else Z.abs z) with z by (destruct (Z.ltb_spec z 0); lia). cbv zeta.
    replace ((- 2 ^ 63 <=? z) && (z <? 2 ^ 63))%Z with true by lia. reflexivity.
  Qed.
  Lemma convert_count : forall w, weigh w < 2 ^ 64 -> conv KCount (JNum false w [] None) = Some (DCount (weigh w)).
  Proof.
    intros w B. unfold conv. cbn [convert]. unfold kind. rewrite <- weigh_num. cbv zeta. change (2 ^ 64) with 18446744073709551616 in B.
    destruct ((- 2 ^ 63 <=? Z.of_N (weigh w)) && (Z.of_N (weigh w) <? 2 ^ 63))%Z eqn:E.
    - do 2 f_equal. rewrite Z.mod_small by lia. lia.
    - replace ((0 <=? Z.of_N (weigh w)) && (Z.of_N (weigh w) <? 2 ^ 64))%Z with true by lia. do 2 f_equal. lia.
  Qed.
  Lemma parsed : forall t s v, number t s v -> (t = KAddress \/ t = KSubnet) -> conv t (JStr s) = Some v.
  Proof.
    intros t s v H T. destruct (number_ok A t s v H) as (p & P1 & _ & _ & P2). specialize (P2 [] eq_refl). rewrite app_nil_r in P2. unfold conv. destruct T as [-> | ->]; cbn [make_parser] in P1; injection P1 as <-; cbn [convert]; unfold full; unfold act, bind, ret in P2.
    - destruct (addr_p A s) as [x r| |]; try discriminate. injection P2 as P2 P3. subst r. now rewrite P2.
    - destruct (net_p A s) as [x r| |]; try discriminate. injection P2 as P2 P3. subst r. now rewrite P2.
  Qed.
  Lemma convert_null : forall t, conv t JNull = Some DNone.
  Proof. intros []; reflexivity. Qed.
  Lemma convert_says : forall t i v j, reread i t v -> mirrors A numeric v j -> (forall n, v <> DEnum n) -> conv t j = Some v /\ (forall o, j <> JObj o).
  Proof.
    induction t; intros i v j R M NE; (destruct v; cbn [reread] in R; try contradiction); inversion M; subst; try (split; [apply convert_null|discriminate]); try (split; [reflexivity|discriminate]).
    - split; [|discriminate]. unfold conv. cbn [convert]. now rewrite kind_int.
    - split; [|discriminate]. now apply convert_count.
    - split; [|discriminate]. destruct R as (R1 & R2 & R3). unfold conv. cbn [convert]. unfold full. unfold A at 2. cbn [ieee a_show_time]. destruct (whole_reads now pton ntop z [] R1 R2 R3 eq_refl) as (x & X1 & X2). rewrite X1. rewrite app_nil_r in X2. fold A in X2. now rewrite X2.
    - split; [|discriminate]. destruct R as [R1 R2]. apply parsed; [|now left]. constructor. now apply address_says.
    - split; [|discriminate]. destruct R as [R1 R2]. apply parsed; [|now right]. pose proof (sn_make_length s R1) as X. set (n := sn_length s) in *.
      assert (L : n <= 32). { destruct R1 as (_ & B & _ & _). subst n. unfold sn_length. rewrite R2. lia. }
      destruct (digits_decimal n 3 ltac:(change (10 ^ N.of_nat 3) with 1000; lia) ltac:(lia)) as (D1 & D2 & D3).
      replace (DSubnet s) with (DSubnet (sn_make (sn_net s) (weigh (digits n)))) by (now rewrite D3, X). apply says_subnet; try assumption; [apply address_says; [apply R1|exact R2]|]. now rewrite D3.
    - exfalso. eapply NE. reflexivity.
    - split; [|discriminate]. unfold conv. cbn [convert]. match goal with H : Forall2 _ _ _ |- _ => rename H into Q end. clear M NE.
      match type of Q with Forall2 _ ?xs ?ys => revert R Q; generalize ys, xs end. intros js0 l0 R Q.
      assert (X : convert_all (convert A double_of nis t) js0 = Some l0); [|now rewrite X].
      induction Q as [|x y l1 js1 Q1 Q IH]; [reflexivity|]. cbn [convert_all]. pose proof (Forall_inv R) as R1. pose proof (Forall_inv_tail R) as R2. cbv beta in R1.
      assert (NE : forall n, x <> DEnum n). { intros n ->. clear - R1. destruct t; cbn in R1; try contradiction. destruct R1 as [R1 _]. discriminate. }
      destruct (IHt true x y R1 Q1 NE) as [C _]. unfold conv in C. rewrite C. fold (convert_all (convert A double_of nis t)). now rewrite (IH R2).
  Qed.
  Lemma convert_cell : forall t v j, reread false t v -> cell_says A numeric t v j -> conv t j = Some v /\ (forall o, j <> JObj o).
  Proof.
    intros t v j R C. assert (G : (forall n, v <> DEnum n) -> conv t j = Some v /\ (forall o, j <> JObj o)).
    { intros NE. apply (convert_says t false); [exact R| |exact NE]. destruct t; try exact C. destruct v; try exact C. exfalso. eapply NE. reflexivity. }
    destruct v; try (apply G; discriminate). destruct t; cbn [reread] in R; try contradiction. destruct R as (_ & R1 & x & R2 & R3). cbn [cell_says] in C. rewrite R2 in C. subst j. split; [|discriminate].
    unfold conv. cbn [convert]. rewrite (find_name_at fields x (N.to_nat n) 0 R2 R3). cbn [option_map Nat.add]. rewrite N2Nat.id, N.mod_small by exact R1. reflexivity.
  Qed.
  Lemma row_found : forall o cs row, Forall2 (found A numeric o) cs row -> Forall2 (reread false) (map snd cs) row -> Forall (fun c => fst c <> []) cs ->
    add_row A double_of nis (map (fun c => (dotted (fst c), snd c)) cs) o = (row, false).
  Proof.
    intros o cs row H. induction H as [|c v cs vs (j & J1 & J2) H IH]; intros R P; [reflexivity|]. cbn [map add_row]. cbn [map] in R. inversion R as [|? ? ? ? R1 R2]; subst. rewrite (IH R2 (Forall_inv_tail P)).
    rewrite J1. 2: { clear. cbn [length]. destruct (fst c) as [|a p]; [cbn; lia|]. revert a. induction p as [|b p IH]; intros a; [cbn; lia|]. rewrite dotted_cons by discriminate. rewrite app_length. cbn [length]. specialize (IH b). cbn [length] in IH. lia. }
    destruct (convert_cell _ _ _ R1 J2) as [C _]. unfold conv in C. now rewrite C.
  Qed.
End Import.

(** ** C69: exported events are imported as they were *)

(** For every layout with orderly names, nested or not, whether the export flattens records or not,
    and whatever the library makes of other numbers: if the values are such that they can be read
    back, the row that is imported from the exported line is the row that was exported. *)
Theorem C69_import : forall now pton ntop numeric flat fs row double_of nis, orderly_layout fs -> Forall2 (reread false) (map snd (columns fs)) row ->
  exists t o, line (ieee now pton ntop) numeric flat fs row = Some t /\ document t = Some (JObj o) /\ add_row (ieee now pton ntop) double_of nis (flatten fs) o = (row, false).
Proof.
  intros now pton ntop numeric flat fs row double_of nis W R.
  assert (L : length row = length (columns fs)). { rewrite <- (map_length snd (columns fs)). clear - R. induction R; [reflexivity|]. cbn [length]. now f_equal. }
  assert (E : Forall (exportable numeric) row). { clear - R. induction R as [|t v ts vs H R IH]; constructor; [exact (reread_exportable numeric _ _ _ H)|exact IH]. }
  destruct (C69_line now pton ntop numeric flat fs row L E) as (t & o & T1 & T2 & T3 & _). exists t, o. split; [exact T1|]. split; [exact T2|]. rewrite flatten_columns. apply (row_found now pton ntop numeric); [|exact R|apply columns_paths].
  destruct flat; [now apply flat_found|now apply nested_found].
Qed.

(** ** C69: files *)

(** The lines of an exported file, as they are read, are the exported lines (see C65). *)
Theorem C69_file : forall now pton ntop numeric flat fs rows, Forall (fun row => length row = length (columns fs) /\ Forall (exportable numeric) row) rows ->
  exists ts n, Forall2 (fun row t => line (ieee now pton ntop) numeric flat fs row = Some t) rows ts /\
    forall m, (n <= m)%nat -> LineModel.collect m (LineModel.open (map Some (flat_map (fun t => t ++ [10]) ts))) = Some ts.
Proof.
  intros now pton ntop numeric flat fs rows H.
  assert (E : exists ts, Forall2 (fun row t => line (ieee now pton ntop) numeric flat fs row = Some t) rows ts /\ Forall (fun t => t <> [] /\ Forall (fun c => 32 <= c) t) ts).
  { induction H as [|row rows [H1 H2] H (ts & T1 & T2)]; [exists []; split; constructor|]. destruct (C69_line now pton ntop numeric flat fs row H1 H2) as (t & o & L1 & L2 & _ & L4). exists (t :: ts). split; [now constructor|]. constructor; [|exact T2]. split; [|exact L4]. intros ->. discriminate. }
  destruct E as (ts & T1 & T2). exists ts.
  destruct (PropsLine.C65_lines (map (fun t => (t, [10])) ts) [] (map Some (flat_map (fun t => t ++ [10]) ts))) as [n N].
  - intros l e I. apply in_map_iff in I. destruct I as (t & E & I). injection E as <- <-. rewrite Forall_forall in T2. destruct (T2 t I) as [N B]. rewrite Forall_forall in B. split; [exact N|]. split; [intros X; specialize (B _ X); lia|]. split; [intros X; specialize (B _ X); lia|]. split; [discriminate|]. intros x [<-|[] ]. now left.
  - intros [].
  - intros [].
  - rewrite (proj2 (PropsLine.C65_file _)), app_nil_r. rewrite map_map. cbn [fst snd]. now rewrite flat_map_concat_map.
  - apply PropsLine.C65_file.
  - exists n. split; [exact T1|]. intros m M. rewrite (N m M). rewrite map_map, app_nil_r. cbn [fst]. now rewrite map_id.
Qed.

(** ** C69: the order of members and other members *)

Lemma at_key_perm : forall k o o', NoDup (map fst o) -> Permutation o o' -> at_key k o = at_key k o'.
Proof.
  intros k o o' D P. assert (D' : NoDup (map fst o')) by (eapply Permutation_NoDup; [apply Permutation_map; exact P|exact D]).
  assert (G : forall o1 o2, NoDup (map fst o2) -> Permutation o1 o2 -> forall j, at_key k o1 = Some j -> at_key k o2 = Some j).
  { intros o1 o2 D2 P2 j H. unfold at_key in H. destruct (find _ o1) as [m|] eqn:E; [|discriminate]. injection H as <-. apply find_some in E. destruct E as [I E]. apply AddressProofs.bytes_eqb_spec in E. subst k. apply at_key_unique; [exact D2|]. eapply Permutation_in; eauto. }
  destruct (at_key k o) as [j|] eqn:E1; [symmetry; exact (G o o' D' P j E1)|]. destruct (at_key k o') as [j|] eqn:E2; [|reflexivity]. rewrite (G o' o D (Permutation_sym P) j E2) in E1. discriminate.
Qed.
Lemma lookup_same : forall n k o o', (forall x, (k = x \/ exists r, at_dot k = Some (x, r)) -> at_key x o = at_key x o') -> lookup n k o = lookup n k o'.
Proof.
  intros [|n] k o o' H; [reflexivity|]. cbn [lookup]. rewrite <- (H k (or_introl eq_refl)). destruct (at_dot k) as [ [f r]|] eqn:E; [|reflexivity]. now rewrite <- (H f (or_intror (ex_intro _ r eq_refl))).
Qed.
Lemma add_row_same : forall A double_of nis cols o o', (forall c x, In c cols -> (fst c = x \/ exists r, at_dot (fst c) = Some (x, r)) -> at_key x o = at_key x o') ->
  add_row A double_of nis cols o = add_row A double_of nis cols o'.
Proof.
  intros A double_of nis. induction cols as [|[k t] cols IH]; intros o o' H; [reflexivity|]. cbn [add_row]. rewrite (IH o o') by (intros c x I; apply H; now right). rewrite (lookup_same _ k o o'); [reflexivity|]. intros x Hx. exact (H (k, t) x (or_introl eq_refl) Hx).
Qed.
(** The row does not depend on the order of the members of an object with distinct names. *)
Theorem C69_order : forall now pton ntop double_of nis cols o o', NoDup (map fst o) -> Permutation o o' ->
  add_row (ieee now pton ntop) double_of nis cols o = add_row (ieee now pton ntop) double_of nis cols o'.
Proof. intros now pton ntop double_of nis cols o o' D P. apply add_row_same. intros c x _ _. now apply at_key_perm. Qed.
Example C69_order_example : NoDup (map fst [(chars "a", JNull); (chars "b", JBool true)]) /\ Permutation [(chars "a", JNull); (chars "b", JBool true)] [(chars "b", JBool true); (chars "a", JNull)].
Proof. split; [repeat constructor; cbn; intuition discriminate|apply perm_swap]. Qed.

(** Members that have another name than the columns, and another name than the records that the
    columns are in, do not matter. *)
Theorem C69_others : forall now pton ntop double_of nis cols o1 o2 k j, (forall c, In c cols -> fst c <> k /\ forall r, fst c <> k ++ 46 :: r) ->
  add_row (ieee now pton ntop) double_of nis cols (o1 ++ (k, j) :: o2) = add_row (ieee now pton ntop) double_of nis cols (o1 ++ o2).
Proof.
  intros now pton ntop double_of nis cols o1 o2 k j H. apply add_row_same. intros c x I X. unfold at_key.
  assert (N : bytes_eqb k x = false).
  { destruct (bytes_eqb k x) eqn:E; [|reflexivity]. apply AddressProofs.bytes_eqb_spec in E. subst x. exfalso. destruct (H c I) as [H1 H2]. destruct X as [X|[r X] ]; [now apply H1|]. apply (H2 r). clear - X. revert k r X. generalize (fst c) as s. induction s as [|b s IH]; intros k r X; [discriminate|].
    cbn [at_dot] in X. destruct (N.eqb_spec b 46) as [->|_]; [injection X as <- <-; reflexivity|]. destruct (at_dot s) as [ [f r']|] eqn:E; [|discriminate]. cbn in X. injection X as <- <-. cbn [app]. f_equal. now apply IH. }
  f_equal. induction o1 as [|m o1 IH]; cbn [app find fst]; [now rewrite N|]. destruct (bytes_eqb (fst m) x); [reflexivity|exact IH].
Qed.
Example C69_others_example : forall c, In c [(chars "a.b", KCount); (chars "c", KCount)] -> fst c <> chars "a.c" /\ forall r, fst c <> chars "a.c" ++ 46 :: r.
Proof. intros c [<-|[<-|[] ] ]; split; try intros r; discriminate. Qed.

(** ** C69: integers *)

(** An integer of any length in a column of integers is read exactly, or refused if it does not fit;
    so is an integer that is not negative in a column of counts. *)
Theorem C69_integers : forall now pton ntop double_of nis (neg : bool) (w : text), let z := if neg then (- Z.of_N (weigh w))%Z else Z.of_N (weigh w) in
  convert (ieee now pton ntop) double_of nis KInt (JNum neg w [] None) = (if ((- 2 ^ 63 <=? z) && (z <? 2 ^ 63))%Z then Some (DInt z) else None) /\
  ((0 <= z)%Z -> convert (ieee now pton ntop) double_of nis KCount (JNum neg w [] None) = if (z <? 2 ^ 64)%Z then Some (DCount (Z.to_N z)) else None).
Proof.
  intros now pton ntop double_of nis neg w z. cbn [convert]. unfold kind. rewrite <- weigh_num. fold z. cbv zeta.
  destruct ((- 2 ^ 63 <=? z) && (z <? 2 ^ 63))%Z eqn:E1; [split; [reflexivity|]|destruct ((0 <=? z) && (z <? 2 ^ 64))%Z eqn:E2; split; try reflexivity].
  - intros P. replace (z <? 2 ^ 64)%Z with true by lia. rewrite Z.mod_small by lia. reflexivity.
  - intros P. replace (z <? 2 ^ 64)%Z with true by lia. reflexivity.
  - intros P. replace (z <? 2 ^ 64)%Z with false by lia. reflexivity.
Qed.

(** A whole number of seconds in a column of times or durations is read exactly up to the year 2116,
    and an integer in a column of reals is the nearest real. *)
Theorem C69_seconds : forall now pton ntop double_of nis (w : text), let n := Z.of_N (weigh w) in
  ((n <= 4611686018)%Z -> convert (ieee now pton ntop) double_of nis KTime (JNum false w [] None) = Some (DTime (n * 1000000000)) /\
                          convert (ieee now pton ntop) double_of nis KDuration (JNum false w [] None) = Some (DDuration (n * 1000000000))) /\
  ((n < 2 ^ 64)%Z -> convert (ieee now pton ntop) double_of nis KReal (JNum false w [] None) = Some (DReal (bits_of (of_Z n)))) /\
  ((n <= 2 ^ 63)%Z -> convert (ieee now pton ntop) double_of nis KReal (JNum true w [] None) = Some (DReal (bits_of (of_Z (- n))))).
Proof.
  intros now pton ntop double_of nis w n. split; [|split]; intros B; cbn [convert]; unfold kind; rewrite <- weigh_num; fold n; cbv zeta.
  - replace ((- 2 ^ 63 <=? n) && (n <? 2 ^ 63))%Z with true by lia. cbn [num_double]. unfold seconds. rewrite whole_seconds by lia. split; reflexivity.
  - destruct ((- 2 ^ 63 <=? n) && (n <? 2 ^ 63))%Z eqn:E; [reflexivity|]. replace ((0 <=? n) && (n <? 2 ^ 64))%Z with true by lia. cbn [num_double]. rewrite Z2N.id by lia. reflexivity.
  - replace ((- 2 ^ 63 <=? - n) && (- n <? 2 ^ 63))%Z with true by lia. reflexivity.
Qed.
Example C69_seconds_example : Z.of_N (weigh (chars "1600000000")) = 1600000000%Z.
Proof. reflexivity. Qed.

(** ** C69: the choice of a layout *)

Lemma count_filter : forall l x, length (filter (bytes_eqb x) l) = count_occ (list_eq_dec N.eq_dec) l x.
Proof.
  induction l as [|a l IH]; intros x; [reflexivity|]. cbn [filter count_occ]. destruct (list_eq_dec N.eq_dec a x) as [->|NE].
  - rewrite AddressProofs.bytes_eqb_refl. cbn [length]. now rewrite IH.
  - destruct (bytes_eqb x a) eqn:E; [apply AddressProofs.bytes_eqb_spec in E; congruence|]. apply IH.
Qed.
Lemma same_names_perm : forall a b, same_names a b = true <-> Permutation a b.
Proof.
  intros a b. unfold same_names. rewrite andb_true_iff, Nat.eqb_eq, forallb_forall. split.
  - intros [_ H]. apply (Permutation_count_occ (list_eq_dec N.eq_dec)). intros x. rewrite <- !count_filter. destruct (in_dec (list_eq_dec N.eq_dec) x (a ++ b)) as [I|N]; [specialize (H x I); now apply Nat.eqb_eq in H|].
    rewrite !count_filter, !(proj1 (count_occ_not_In _ _ _)); [reflexivity| |]; intros I; apply N, in_or_app; tauto.
  - intros P. split; [now apply Permutation_length|]. intros x _. rewrite !count_filter. apply Nat.eqb_eq. now apply (Permutation_count_occ (list_eq_dec N.eq_dec)).
Qed.
Lemma cache_spec : forall layouts c, let c' := fold_left (fun c l => if existsb (fun x => same_names (map lname x) (map lname l)) c then c else c ++ [l]) layouts c in
  (forall l, In l c' -> In l c \/ In l layouts) /\ (forall l, In l c \/ In l layouts -> exists l', In l' c' /\ Permutation (map lname l') (map lname l)).
Proof.
  induction layouts as [|l layouts IH]; intros c; cbn [fold_left]; cbv zeta.
  - split; [intros l H; now left|]. intros l [H|[] ]. exists l. split; [exact H|apply Permutation_refl].
  - destruct (IH (if existsb (fun x => same_names (map lname x) (map lname l)) c then c else c ++ [l])) as [I1 I2]. destruct (existsb _ c) eqn:E; split.
    + intros x H. destruct (I1 x H) as [H1|H1]; [now left|now right; right].
    + intros x [H|[<-|H] ]; [apply I2; now left| |apply I2; now right]. apply existsb_exists in E. destruct E as (y & Y1 & Y2). apply same_names_perm in Y2. destruct (I2 y (or_introl Y1)) as (z & Z1 & Z2). exists z. split; [exact Z1|]. now rewrite Z2.
    + intros x H. destruct (I1 x H) as [H1|H1]; [|now right; right]. apply in_app_or in H1. destruct H1 as [H1|[<-|[] ] ]; [now left|right; now left].
    + intros x [H|[<-|H] ]; apply I2; [left; apply in_or_app; now left|left; apply in_or_app; right; now left|now right].
Qed.
Lemma object_names_flat : forall o, Forall (fun m => forall o', snd m <> JObj o') o -> object_names [] (JObj o) = map fst o.
Proof.
  intros o H. cbn [object_names]. induction H as [|[k j] o H1 H IH]; [reflexivity|]. cbn [flat_map map fst snd]. rewrite IH. cbn [snd] in H1. destruct j; try reflexivity. exfalso. now apply (H1 l).
Qed.
(** If no two of the known layouts have the same names of fields, an object with the names of one
    of them, in any order, that has no objects in it, is read with that one. *)
Theorem C69_select : forall layouts l o, In l layouts ->
  (forall a b, In a layouts -> In b layouts -> Permutation (map lname a) (map lname b) -> a = b) ->
  Permutation (map fst o) (map lname l) -> Forall (fun m => forall o', snd m <> JObj o') o -> select layouts o = Some l.
Proof.
  intros layouts l o I U P F. unfold select. pose proof (object_names_flat o F) as N. destruct (cache_spec layouts []) as [C1 C2]. fold (cache layouts) in C1, C2.
  destruct (C2 l (or_intror I)) as (l' & L1 & L2). assert (L : l' = l) by (apply U; [destruct (C1 l' L1) as [[]|X]; exact X|exact I|exact L2]). subst l'.
  destruct (cache layouts) as [|x c] eqn:E; [contradiction|]. destruct c as [|y c]; [destruct L1 as [->|[] ]; reflexivity|]. rewrite N.
  destruct (find _ (x :: y :: c)) as [z|] eqn:G.
  - apply find_some in G. destruct G as [G1 G2]. apply same_names_perm in G2. f_equal. apply U; [destruct (C1 z G1) as [[]|X]; exact X|exact I|]. now rewrite G2.
  - exfalso. apply (find_none _ _ G) in L1. cbv beta in L1. rewrite (proj2 (same_names_perm _ _)) in L1; [discriminate|]. now apply Permutation_sym.
Qed.

(** Together: lines of layouts without records are read with their layout and give their rows. *)
Theorem C69_choice : forall now pton ntop numeric layouts cs row double_of nis, let l := map (fun c => Leaf (fst c) (snd c)) cs in In l layouts ->
  (forall a b, In a layouts -> In b layouts -> Permutation (map lname a) (map lname b) -> a = b) ->
  orderly_layout l -> Forall2 (reread false) (map snd cs) row ->
  exists t o, line (ieee now pton ntop) numeric false l row = Some t /\ document t = Some (JObj o) /\ select layouts o = Some l /\ add_row (ieee now pton ntop) double_of nis (flatten l) o = (row, false).
Proof.
  intros now pton ntop numeric layouts cs row double_of nis l I U W R.
  assert (C : map snd (columns l) = map snd cs). { subst l. clear. induction cs as [|c cs IH]; [reflexivity|]. cbn. f_equal. exact IH. }
  destruct (C69_import now pton ntop numeric false l row double_of nis W) as (t & o & T1 & T2 & T3); [now rewrite C|]. exists t, o. split; [exact T1|]. split; [exact T2|]. split; [|exact T3].
  assert (LR : length row = length (columns l)). { rewrite <- (map_length snd (columns l)), C. clear - R. induction R; [reflexivity|]. cbn [length]. now f_equal. }
  assert (E : Forall (exportable numeric) row). { clear - R. induction R as [|x v ts vs H R IH]; constructor; [exact (reread_exportable numeric _ _ _ H)|exact IH]. }
  destruct (C69_line now pton ntop numeric false l row LR E) as (t' & o' & T1' & T2' & T3' & _). rewrite T1 in T1'. injection T1' as <-. rewrite T2 in T2'. injection T2' as <-. cbn [line] in T3'.
  apply C69_select; [exact I|exact U| |].
  - erewrite (said_names (ieee now pton ntop) numeric); [apply Permutation_refl|exact T3'].
  - clear - T3' R. subst l. revert row o R T3'. induction cs as [|c cs IH]; intros row o R S; [inversion S; subst; constructor|]. cbn [map] in R, S. inversion S as [|f fs' r1 r2 m ms S1 S2]; subst. inversion S1; subst. inversion R as [|? ? ? ? R1 R2]; subst. constructor; [|exact (IH _ _ R2 S2)]. cbn [snd].
    eapply (convert_cell now pton ntop numeric (fun _ _ _ _ => S754_nan) (fun _ _ => None)); [exact R1|]. eassumption.
Qed.

(** ** A case *)

Definition sample_layout : list lfield :=
  [Leaf (chars "ts") KTime; Node (chars "id") [Leaf (chars "host") KAddress; Node (chars "net") [Leaf (chars "in") KSubnet; Leaf (chars "n") KInt]]; Leaf (chars "tags") (KList KString); Leaf (chars "host") (KEnum [chars "up"; chars "down"]); Leaf (chars "c") KCount].
Definition sample_row : list data :=
  [DTime 1600000000000000000; DAddress (v4_prefix ++ [192; 168; 0; 1]); DSubnet (sn_make (v4_prefix ++ [10; 0; 0; 0]) 8); DInt (-5); DList [DString (chars "a""b"); DNone; DString [10; 195; 169]]; DEnum 1; DNone].
(** The hypotheses can be met, and the lines are what is expected. *)
Example C69_example : forall now pton ntop, orderly_layout sample_layout /\ Forall2 (reread false) (map snd (columns sample_layout)) sample_row /\
  line (ieee now pton ntop) false false sample_layout sample_row =
    Some (chars "{""ts"": ""2020-09-13T12:26:40"", ""id"": {""host"": ""192.168.0.1"", ""net"": {""in"": ""10.0.0.0/8"", ""n"": -5}}, ""tags"": [""a\""b"", null, ""\n" ++ [195; 169] ++ chars """], ""host"": ""down"", ""c"": null}") /\
  line (ieee now pton ntop) false true sample_layout sample_row =
    Some (chars "{""ts"": ""2020-09-13T12:26:40"", ""id.host"": ""192.168.0.1"", ""id.net.in"": ""10.0.0.0/8"", ""id.net.n"": -5, ""tags"": [""a\""b"", null, ""\n" ++ [195; 169] ++ chars """], ""host"": ""down"", ""c"": null}").
Proof.
  intros now pton ntop. split; [|split].
  - unfold orderly_layout, sample_layout. repeat match goal with |- _ /\ _ => split | |- True => exact I | |- NoDup _ => constructor | |- Forall _ _ => constructor | |- orderly _ => cbn; unfold no_dot | |- _ => cbn; intuition discriminate end.
  - unfold sample_row, sample_layout. cbn [columns flat_map cols map snd app].
    repeat match goal with |- Forall2 _ _ _ => constructor end; cbn [reread].
    + split; [vm_compute; intuition discriminate|]. split; [lia|reflexivity].
    + split; [split; [reflexivity|repeat constructor]|reflexivity].
    + split; [|reflexivity]. split; [split; [reflexivity|repeat constructor]|]. split; [discriminate|]. split; [reflexivity|intros _; vm_compute; discriminate].
    + lia.
    + repeat constructor.
    + split; [reflexivity|]. split; [reflexivity|]. exists (chars "down"). split; [reflexivity|]. intros [H|[] ]. discriminate.
    + exact I.
  - split; vm_compute; reflexivity.
Qed.
Example C69_select_example : forall now pton ntop, exists t o,
  let l := [Leaf (chars "a") KCount; Leaf (chars "b") KString] in let m := [Leaf (chars "a") KCount] in
  line (ieee now pton ntop) false false l [DCount 7; DNone] = Some t /\ document t = Some (JObj o) /\ select [m; l] o = Some l /\ Permutation (map fst o) (map lname l).
Proof. intros now pton ntop. do 2 eexists. cbv zeta. split; [vm_compute; reflexivity|]. split; [vm_compute; reflexivity|]. split; [vm_compute; reflexivity|]. apply Permutation_refl. Qed.

(** ** Not all events *)

(** A real that is not zero but has no digit among the first six behind the point is printed with a
    point and nothing behind it, which is no JSON; and so are durations as numbers. *)
Theorem C69_tiny_refuted : exists p z, forall now pton ntop, exists t1 t2,
  line (ieee now pton ntop) false false [Leaf (chars "x") KReal] [DReal p] = Some t1 /\ document t1 = None /\
  line (ieee now pton ntop) true false [Leaf (chars "x") KDuration] [DDuration z] = Some t2 /\ document t2 = None.
Proof. exists 0x3E7AD7F29ABCAF48, 100%Z. intros now pton ntop. do 2 eexists. repeat split; vm_compute; reflexivity. Qed.
(** A map with keys that are numbers is printed as an object with names that are no strings. *)
Theorem C69_map_refuted : exists v, forall now pton ntop numeric, document (jprint (ieee now pton ntop) numeric v) = None /\ v = DMap [(DCount 1, DCount 2)].
Proof. exists (DMap [(DCount 1, DCount 2)]). intros now pton ntop numeric. split; [destruct numeric; vm_compute; reflexivity|reflexivity]. Qed.

(** Exported and imported, a row is another row: a pattern becomes null, with an error; so does an
    enumeration in a list; negative zero becomes zero. *)
Definition imported (now : Z) (pton : text -> option address) (ntop : address -> text) (t : column) (v : data) (double_of : bool -> text -> text -> option Z -> double) (nis : column -> text -> option data) (r : list data * bool) : Prop :=
  exists s o, line (ieee now pton ntop) false false [Leaf (chars "x") t] [v] = Some s /\ document s = Some (JObj o) /\ add_row (ieee now pton ntop) double_of nis [(chars "x", t)] o = r.
Theorem C69_pattern_refuted : exists s, forall now pton ntop double_of nis, imported now pton ntop KPattern (DPattern s) double_of nis ([DNone], true).
Proof. exists (chars "a"). intros. do 2 eexists. split; [vm_compute; reflexivity|]. split; vm_compute; reflexivity. Qed.
Theorem C69_enums_refuted : exists names n, forall now pton ntop double_of nis, imported now pton ntop (KList (KEnum names)) (DList [DEnum n]) double_of nis ([DNone], true) /\ exists x, nth_error names (N.to_nat n) = Some x.
Proof. exists [chars "a"], 0. intros. split; [|exists (chars "a"); reflexivity]. do 2 eexists. split; [vm_compute; reflexivity|]. split; vm_compute; reflexivity. Qed.
Theorem C69_zero_refuted : exists p q, p <> q /\ forall now pton ntop double_of nis, imported now pton ntop KReal (DReal p) double_of nis ([DReal q], false).
Proof.
  exists 0x8000000000000000, 0. split; [discriminate|]. intros. exists (chars "{""x"": -0}"), [(chars "x", JNum true [48] [] None)]. split; [vm_compute; reflexivity|]. split; [vm_compute; reflexivity|].
  unfold add_row. change (lookup (S (List.length (chars "x"))) (chars "x") [(chars "x", JNum true [48] [] None)]) with (Some (JNum true [48] [] None)). cbv iota. cbn [convert]. change (kind double_of true [48] [] None) with (Int64 0). cbn [num_double]. reflexivity.
Qed.

(** A negative number in a column of counts is a large count, without an error. *)
Theorem C69_negative_refuted : exists t o n, document t = Some (JObj o) /\ t = chars "{""x"": -1}" /\ n = 18446744073709551615 /\
  forall now pton ntop double_of nis, add_row (ieee now pton ntop) double_of nis [(chars "x", KCount)] o = ([DCount n], false).
Proof. exists (chars "{""x"": -1}"). eexists. exists 18446744073709551615. split; [vm_compute; reflexivity|]. split; [reflexivity|]. split; [reflexivity|]. intros. vm_compute. reflexivity. Qed.

(** If more than one layout is known, a line of a layout with records is not recognized. *)
Theorem C69_nested_refuted : exists l m row, l <> m /\ forall now pton ntop, exists t o,
  line (ieee now pton ntop) false false l row = Some t /\ document t = Some (JObj o) /\ select [m; l] o = None /\ select [l] o = Some l.
Proof.
  exists [Node (chars "a") [Leaf (chars "b") KCount] ], [Leaf (chars "c") KCount], [DCount 1]. split; [discriminate|]. intros. do 2 eexists. split; [vm_compute; reflexivity|]. split; [vm_compute; reflexivity|]. split; vm_compute; reflexivity.
Qed.
(** Of two layouts with the same names, the first is taken, and the values become null. *)
Theorem C69_same_names_refuted : exists l m row, l <> m /\ forall now pton ntop double_of nis, exists t o,
  line (ieee now pton ntop) false false l row = Some t /\ document t = Some (JObj o) /\ select [m; l] o = Some m /\ add_row (ieee now pton ntop) double_of nis (flatten m) o = ([DNone], true).
Proof.
  exists [Leaf (chars "a") KAddress], [Leaf (chars "a") KSubnet], [DAddress (v4_prefix ++ [10; 0; 0; 1])]. split; [discriminate|]. intros. do 2 eexists. split; [vm_compute; reflexivity|]. split; [vm_compute; reflexivity|]. split; vm_compute; reflexivity.
Qed.
(** A column with a dot in its name, next to a column with the name before the dot, is lost. *)
Theorem C69_dot_refuted : exists fs row, forall now pton ntop double_of nis, exists t o,
  line (ieee now pton ntop) false false fs row = Some t /\ document t = Some (JObj o) /\ row = [DCount 1; DCount 2] /\ add_row (ieee now pton ntop) double_of nis (flatten fs) o = ([DCount 1; DNone], false).
Proof. exists [Leaf (chars "a") KCount; Leaf (chars "a.b") KCount], [DCount 1; DCount 2]. intros. do 2 eexists. split; [vm_compute; reflexivity|]. split; [vm_compute; reflexivity|]. split; vm_compute; reflexivity. Qed.

(** A string is an address only as a whole: with anything behind the address, it is refused. *)
Theorem C69_whole : forall now pton ntop double_of nis a c r, wf a -> is_v4 a = true -> isdigit c = false ->
  convert (ieee now pton ntop) double_of nis KAddress (JStr (show_addr (ieee now pton ntop) a)) = Some (DAddress a) /\
  convert (ieee now pton ntop) double_of nis KAddress (JStr (show_addr (ieee now pton ntop) a ++ c :: r)) = None.
Proof.
  intros now pton ntop double_of nis a c r W V D. cbn [convert]. unfold full. split.
  - rewrite <- (app_nil_r (show_addr _ a)). now rewrite addr_ok by (try assumption; exact Logic.I).
  - now rewrite addr_ok by assumption.
Qed.
Example C69_whole_example : wf (v4_prefix ++ [10; 0; 0; 1]) /\ is_v4 (v4_prefix ++ [10; 0; 0; 1]) = true /\ isdigit 32 = false.
Proof. split; [|split; reflexivity]. split; [reflexivity|]. repeat constructor. Qed.

Definition assumptions_Json := (C69_line, C69_file, C69_import, C69_order, C69_others, C69_integers, C69_seconds, C69_select, C69_choice, C69_whole, C69_tiny_refuted, C69_map_refuted, C69_pattern_refuted, C69_enums_refuted, C69_zero_refuted,
  C69_negative_refuted, C69_nested_refuted, C69_same_names_refuted, C69_dot_refuted).
Print Assumptions assumptions_Json.
