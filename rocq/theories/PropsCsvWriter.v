(** C68: exported comma-separated values say what the events are. *)
From Coq Require Import List ZArith NArith Bool Arith Lia ZifyBool ZifyNat ZifyN String Ascii.
From Coq Require Import Init.Datatypes.
From Verif Require Import AddressModel AddressProofs DataModel DataProofs EscapeModel LiteralModel LiteralProofs MsgpackProofs CalendarModel CalendarTextProofs CsvModel CsvProofs PropsCsv CsvWriterModel CsvWriterProofs.
Import ListNotations.
Open Scope N_scope.
Local Notation length := List.length.
Local Notation concat := List.concat.
Local Notation run := CsvWriterModel.run.

(** Specification ([CsvWriterProofs]).
    - [lines_of file]: the lines and fields that a standard reader finds in a file (RFC 4180).
    - [shown A real6 v f]: the field [f] stands for the value [v].
    - [expected]: a line of keys wherever the type of events changes, and one line for each event
      with the name of its type and its values.
    - [cut n xs]: the slices [xs], up to their first [n] events. *)

(** The values that have such a field, with the arithmetic of the machine. *)
Definition ieee6 (p : N) : text := show_real 6 (of_bits p).
Definition tame_scalar (ntop : address -> text) (v : data) : Prop :=
  match v with
  | DBool _ | DCount _ | DReal _ | DDuration _ | DEnum _ => True
  | DInt z => z <> (- 2 ^ 63)%Z
  | DTime z => printable z
  | DPattern s => clean s
  | DAddress a => is_v4 a = true \/ clean (ntop a)
  | DSubnet s => is_v4 (sn_net s) = true \/ clean (ntop (sn_net s))
  | _ => False
  end.
Definition tame (ntop : address -> text) (v : data) : Prop :=
  match v with
  | DNone => True
  | DString s => ~ In 124 s
  | DList l => Forall (tame_scalar ntop) l
  | _ => tame_scalar ntop v
  end.

Lemma pad_clean : forall n x, clean (pad n x).
Proof. intros n x. unfold pad. apply clean_app; [apply zeros_clean|apply digits_clean]. Qed.
Lemma lit_clean : forall s, forallb (fun c => negb (c =? 34) && negb (c =? 44) && negb (c =? 10)) s = true -> clean s.
Proof. intros s H. apply Forall_forall. intros c I. rewrite forallb_forall in H. specialize (H c I). lia. Qed.
Lemma time_clean : forall z t, show_time z = Some t -> clean t.
Proof.
  intros z t H. unfold show_time in H. destruct (negb _); [discriminate|]. destruct (from_days _) as [ [y m] d]. injection H as <-.
  assert (P : forall n x, clean (pad n x)) by exact pad_clean. assert (D : forall x, clean (digits x)) by exact digits_clean.
  apply clean_app; [repeat first [apply clean_cons; [discriminate|discriminate|discriminate|] | apply clean_app; [first [apply P | apply D]|] ]; apply P|].
  match goal with |- clean (if ?b then _ else _) => destruct b end; [constructor|]. apply clean_cons; [discriminate|discriminate|discriminate|].
  repeat match goal with |- clean (if ?b then _ else _) => destruct b end; apply P.
Qed.
Lemma lead_clean : forall max r, clean (lead max r).
Proof.
  intros max r. unfold lead. destruct (r =? 0)%Z; [constructor|]. generalize (seq 1 max) as l. induction l as [|i l IH]; [constructor|]. cbn [flat_map]. apply clean_app; [|exact IH]. destruct (_ <? _)%Z; apply lit_clean; reflexivity.
Qed.
Lemma real_clean : forall max x, clean (show_real max x).
Proof.
  intros max x. unfold show_real. destruct (modf _) as [f w]. repeat apply clean_app; try apply digits_clean; try apply lead_clean; try (apply lit_clean; reflexivity). destruct (dlt _ _); apply lit_clean; reflexivity.
Qed.
Lemma dur_clean : forall z, clean (show_dur z).
Proof. intros z. unfold show_dur. repeat match goal with |- clean (if ?b then _ else _) => destruct b end; (apply clean_app; [apply real_clean|apply lit_clean; reflexivity]). Qed.
Lemma addr_clean : forall now pton ntop a, is_v4 a = true \/ clean (ntop a) -> clean (show_addr (ieee now pton ntop) a).
Proof.
  intros now pton ntop a H. unfold show_addr. destruct (is_v4 a) eqn:V; [|destruct H as [H|H]; [discriminate|exact H] ].
  destruct (skipn 12 a) as [|x [|y [|z [|w [|] ] ] ] ]; try constructor.
  repeat (apply clean_app; [apply digits_clean|]; apply clean_cons; try discriminate). apply digits_clean.
Qed.
Lemma scalar_shown : forall now pton ntop v, tame_scalar ntop v -> exists t, bare_text (ieee now pton ntop) ieee6 v t /\ clean t.
Proof.
  intros now pton ntop v H. destruct v; cbn [tame_scalar bare_text] in *; try contradiction; cbn [show].
  - eexists. split; [reflexivity|]. destruct b; apply lit_clean; reflexivity.
  - unfold show_int. destruct (z =? - 2 ^ 63)%Z eqn:E; [lia|]. destruct (z <? 0)%Z; (eexists; split; [reflexivity|]; apply clean_cons; try discriminate; apply digits_clean).
  - eexists. split; [reflexivity|]. apply digits_clean.
  - eexists. split; [reflexivity|]. apply real_clean.
  - eexists. split; [reflexivity|]. apply dur_clean.
  - eexists. split; [reflexivity|]. cbn [ieee a_show_time]. destruct (show_time _) eqn:E; [exact (time_clean _ _ E)|constructor].
  - eexists. split; [reflexivity|]. apply clean_cons; try discriminate. apply clean_app; [exact H|]. apply lit_clean; reflexivity.
  - eexists. split; [reflexivity|]. now apply addr_clean.
  - eexists. split; [reflexivity|]. apply clean_app; [now apply addr_clean|]. apply clean_cons; try discriminate. apply digits_clean.
  - eexists. split; [reflexivity|]. apply digits_clean.
Qed.
Lemma tame_shown : forall now pton ntop v, tame ntop v -> exists f, shown (ieee now pton ntop) ieee6 v f.
Proof.
  intros now pton ntop v H. assert (S1 : tame_scalar ntop v -> exists f, shown (ieee now pton ntop) ieee6 v f).
  { intros X. destruct (scalar_shown now pton ntop v X) as (t & T1 & T2). exists (Bare t). now constructor. }
  destruct v as [| | | | | | |s|p| | | |l| |]; cbn [tame] in H; auto.
  - eexists. constructor.
  - eexists. constructor. exact H.
  - destruct l as [|v l]; [exists (Quoted []); apply shown_empty|]. pose proof (Forall_inv H) as H1. pose proof (Forall_inv_tail H) as H2. destruct (scalar_shown now pton ntop v H1) as (t & T1 & T2).
    assert (E : exists ts, Forall2 (fun v t => bare_text (ieee now pton ntop) ieee6 v t /\ clean t) l ts).
    { clear -H2. induction H2 as [|v l H1 H2 [ts IH] ]; [exists []; constructor|]. destruct (scalar_shown now pton ntop v H1) as (t & T). exists (t :: ts). now constructor. }
    destruct E as [ts E]. eexists. apply (shown_list _ _ v t l ts); assumption.
Qed.
Lemma all_shown : forall now pton ntop xs last, Forall (fun x => Forall (Forall (tame ntop)) (s_rows x)) xs -> exists ls, expected (ieee now pton ntop) ieee6 last xs ls.
Proof.
  intros now pton ntop. induction xs as [|x xs IH]; intros last H; [exists []; reflexivity|]. inversion H as [|? ? H1 H2]; subst. destruct (IH (s_name x) H2) as [rest R].
  assert (E : exists fs, Forall2 (Forall2 (shown (ieee now pton ntop) ieee6)) (s_rows x) fs).
  { clear -H1. induction H1 as [|row rws H1 H2 [fs IH] ]; [exists []; constructor|].
    assert (E : exists f, Forall2 (shown (ieee now pton ntop) ieee6) row f). { clear -H1. induction H1 as [|v row H1 H2 [f IH] ]; [exists []; constructor|]. destruct (tame_shown now pton ntop v H1) as [g G]. exists (g :: f). now constructor. }
    destruct E as [f F]. exists (f :: fs). now constructor. }
  destruct E as [fs F]. eexists. exists fs, rest. split; [reflexivity|]. now split.
Qed.
Lemma cut_tame : forall ntop xs n, Forall (fun x => Forall (Forall (tame ntop)) (s_rows x)) xs -> Forall (fun x => Forall (Forall (tame ntop)) (s_rows x)) (cut n xs).
Proof.
  intros ntop. induction xs as [|x xs IH]; intros n H; destruct n; try constructor; inversion H as [|? ? H1 H2]; subst; [|auto]. cbn [truncated s_rows].
  rewrite <- (firstn_skipn (S n) (s_rows x)) in H1. apply Forall_app in H1. apply H1.
Qed.

(** Whatever events arrive in whatever slices, a standard reader finds in the file the first [max]
    events, one line for each, in order, with the right name and values, and the keys wherever the
    type of events changes. A limit of 0 means all events. *)
Theorem C68_file : forall now pton ntop max xs, Forall names_clean xs -> Forall (fun x => Forall (Forall (tame ntop)) (s_rows x)) xs ->
  let k := run (ieee now pton ntop) ieee6 (map Slice xs) (spawn max) in
  let xs' := match max with O => xs | _ => cut max xs end in
  exists ls, expected (ieee now pton ntop) ieee6 [] xs' ls /\ lines_of (file k) = Some ls /\ k_error k = Done /\ k_processed k = length (concat (map s_rows xs')).
Proof.
  intros now pton ntop max xs C T k xs'. assert (C' : Forall names_clean xs') by (subst xs'; destruct max; [exact C|now apply cut_clean]).
  assert (T' : Forall (fun x => Forall (Forall (tame ntop)) (s_rows x)) xs') by (subst xs'; destruct max; [exact T|now apply cut_tame]).
  destruct (all_shown now pton ntop xs' [] T') as [ls E]. exists ls. split; [exact E|].
  assert (W : xs' = within (option_map (fun m => m - k_processed (spawn max))%nat (k_max (spawn max))) xs) by (subst xs'; destruct max; reflexivity).
  pose proof E as E'. rewrite W in E'. destruct (run_shown (ieee now pton ntop) ieee6 xs (spawn max) ls) as (R1 & R2 & R3); [now destruct max|now destruct max|now destruct max|destruct max; exact E'|].
  fold k in R1, R2, R3. split; [|split; [exact R2|rewrite R3, <- W; destruct max; reflexivity] ]. rewrite R1. replace (w_out (k_writer (spawn max))) with (@nil N) by (now destruct max).
  apply lines_read. exact (expected_ok _ _ xs' [] ls C' E).
Qed.
(** The events of [cut n xs] are the first [n] ones. *)
Theorem C68_limit : forall n xs, concat (map s_rows (cut n xs)) = firstn n (concat (map s_rows xs)).
Proof. intros n xs. apply cut_events. Qed.
(** Fields are read in one way only: a field stands for one string at most, no field stands for a
    string and for null, and a value has only one field. *)
Theorem C68_strings : forall A real6 s v f, shown A real6 (DString s) f -> shown A real6 v f -> v = DString s \/ (s = [] /\ v = DList []).
Proof.
  intros A real6 s v f H1 H2. inversion H1 as [|s' N1 E1 F1|v' t X|F|]; subst; [|contradiction X]. inversion H2; subst; auto.
Qed.
Theorem C68_one_field : forall A real6 v f g, shown A real6 v f -> shown A real6 v g -> f = g.
Proof.
  intros A real6 v f g H1 H2.
  assert (B : forall v t u, bare_text A real6 v t -> bare_text A real6 v u -> t = u) by (intros w t u X Y; destruct w; cbn [bare_text] in *; try contradiction; congruence).
  assert (F : forall vs ts us, Forall2 (fun v t => bare_text A real6 v t /\ clean t) vs ts -> Forall2 (fun v t => bare_text A real6 v t /\ clean t) vs us -> ts = us).
  { intros vs ts us X. revert us. induction X as [|w t vs ts [X1 X2] X IH]; intros us Y; inversion Y as [|? u ? us' [Y1 Y2] Y3]; subst; [reflexivity|]. f_equal; eauto. }
  destruct H1 as [|s H|v t H C| |v t vs ts H C Hs]; inversion H2; subst; try reflexivity; try contradiction.
  - f_equal. eauto.
  - f_equal. f_equal; [eauto|]. f_equal. eauto.
Qed.

(** Two slices of one type, one of another, and a limit that ends in the middle of the last. *)
Example C68_example : forall now pton ntop,
  let conn rws := {| s_name := chars "conn"; s_keys := [chars "id.host"; chars "note"; chars "ports"]; s_rows := rws |} in
  let a := conn [[DAddress (v4_prefix ++ [10; 0; 0; 1]); DString (chars "say ""hi"", twice"); DList [DCount 1; DCount 22] ] ] in
  let b := conn [[DNone; DString []; DList [] ] ] in
  let c := {| s_name := chars "dns"; s_keys := [chars "ok"]; s_rows := [[DBool true]; [DBool false] ] |} in
  Forall names_clean [a; b; c] /\ Forall (fun x => Forall (Forall (tame ntop)) (s_rows x)) [a; b; c] /\
  lines_of (file (run (ieee now pton ntop) ieee6 (map Slice [a; b; c]) (spawn 3))) =
    Some [[Bare (chars "type"); Bare (chars "id.host"); Bare (chars "note"); Bare (chars "ports")];
          [Bare (chars "conn"); Bare (chars "10.0.0.1"); Quoted (chars "say ""hi"", twice"); Bare (chars "1 | 22")];
          [Bare (chars "conn"); Bare []; Quoted []; Quoted [] ];
          [Bare (chars "type"); Bare (chars "ok")]; [Bare (chars "dns"); Bare (chars "T")] ].
Proof.
  intros now pton ntop a. cbv zeta. split; [|split].
  - repeat constructor; discriminate.
  - repeat constructor; cbn; try exact I; try (intros X; repeat (destruct X as [X|X]; [discriminate|]); exact X). 
  - vm_compute. reflexivity.
Qed.

(** * Lists of strings *)

(** Lists of strings are not standard, but their texts are still unambiguous. *)
Definition quoted_text (s : text) : text := 34 :: double_escape s [c_quote; chr "|"] ++ [34].
Lemma escaped_end : forall s s' r r', hd 0 r <> 34 -> hd 0 r' <> 34 ->
  double_escape s [c_quote; chr "|"] ++ 34 :: r = double_escape s' [c_quote; chr "|"] ++ 34 :: r' -> s = s' /\ r = r'.
Proof.
  assert (D : forall c s, double_escape (c :: s) [c_quote; chr "|"] = (if (c =? 34) || (c =? 124) then [c; c] else [c]) ++ double_escape s [c_quote; chr "|"]).
  { intros c s. unfold double_escape, escape. cbn [flat_map]. f_equal. unfold double_escaper, mem. cbn [existsb]. now rewrite orb_false_r. }
  induction s as [|c s IH]; intros s' r r' H H' E.
  - destruct s' as [|c' s']; [injection E as E; now split|]. rewrite D in E. exfalso. destruct ((c' =? 34) || (c' =? 124)) eqn:Q; cbn [app] in E; injection E as E1 E2.
    + subst c' r. cbn [hd] in H. contradiction.
    + subst c'. discriminate.
  - destruct s' as [|c' s'].
    + rewrite D in E. exfalso. destruct ((c =? 34) || (c =? 124)) eqn:Q; cbn [app] in E; injection E as E1 E2.
      * subst c r'. cbn [hd] in H'. contradiction.
      * subst c. discriminate.
    + rewrite !D in E. assert (c = c') by (destruct ((c =? 34) || (c =? 124)), ((c' =? 34) || (c' =? 124)); cbn [app] in E; congruence). subst c'.
      destruct ((c =? 34) || (c =? 124)); cbn [app] in E; injection E as E; destruct (IH _ _ _ H H' E) as [-> ->]; now split.
Qed.
Lemma strings_text : forall A real6 l, elements (render A real6) false (map DString l) = (flat_map (fun s => chars " | " ++ quoted_text s) l, Done).
Proof.
  intros A real6 l. induction l as [|s l IH]; [reflexivity|]. cbn [map elements flat_map]. fold (elements (render A real6)). rewrite IH. reflexivity.
Qed.
Lemma list_text : forall A real6 s l, render A real6 (DList (map DString (s :: l))) = (quoted_text s ++ flat_map (fun s => chars " | " ++ quoted_text s) l, Done).
Proof. intros A real6 s l. cbn [map render elements]. fold (elements (render A real6)). rewrite strings_text. reflexivity. Qed.
Theorem C68_string_lists : forall A real6 l l', l <> [] -> l' <> [] -> render A real6 (DList (map DString l)) = render A real6 (DList (map DString l')) -> l = l'.
Proof.
  intros A real6 [|s l] [|s' l'] N N' E; try congruence. clear N N'. rewrite !list_text in E. injection E as E. revert s s' l' E.
  assert (G : forall l, hd 0 (flat_map (fun s => chars " | " ++ quoted_text s) l) <> 34) by (intros [|x l0]; cbn; discriminate).
  induction l as [|x l IH]; intros s s' l' E; unfold quoted_text in E; cbn [app] in E; rewrite <- !app_assoc in E; cbn [app] in E.
  - apply escaped_end in E; try apply G. destruct E as [-> E]. destruct l' as [|y l']; [reflexivity|discriminate].
  - apply escaped_end in E; try apply G. destruct E as [-> E]. destruct l' as [|y l']; [discriminate|]. cbn [flat_map] in E. cbn [app chars] in E. injection E as E. 
    assert (x :: l = y :: l') by (apply IH; exact E). congruence.
Qed.
Example C68_string_lists_example : forall A real6, render A real6 (DList (map DString [chars "a"; chars "b | c"])) = (chars """a"" | ""b || c""", Done).
Proof. intros. vm_compute. reflexivity. Qed.

(** * Reading exported events *)

(** The values that the reader of comma-separated values (C64) reads back, by type of column. *)
Definition readable (t : column) (v : data) : Prop :=
  match t, v with
  | KEnum _, _ => False
  | _, DNone => True
  | KBool, DBool _ => True
  | KInt, DInt z => (- 2 ^ 63 < z < 2 ^ 63)%Z
  | KCount, DCount n => n < 2 ^ 64
  | KAddress, DAddress a => wf a /\ is_v4 a = true
  | KSubnet, DSubnet s => sn_wf s /\ is_v4 (sn_net s) = true
  | KTime, DTime z => printable z /\ (-2208988800 * 1000000000 <= z)%Z /\ (z mod 1000000000 = 0)%Z
  | KString, DString s => visible s /\ ~ In 34 s /\ ~ In 124 s
  | _, _ => False
  end.

Lemma digits_decimal : forall x m, x < 10 ^ N.of_nat m -> (1 <= m <= 20)%nat -> decimal_digits (digits x) /\ (length (digits x) <= m)%nat /\ weigh (digits x) = x.
Proof.
  intros x m H M. assert (H' : x < 10 ^ 20). { eapply N.lt_le_trans; [exact H|]. apply N.pow_le_mono_r; lia. } destruct (digits_spec x H') as (D1 & D2 & D3).
  split; [|split; [now apply digits_len|now rewrite weigh_num] ]. split; [intros E; rewrite E in D3; cbn in D3; lia|]. apply Forall_forall. intros c I. rewrite forallb_forall in D2. specialize (D2 c I). unfold isdigit in D2. lia.
Qed.
Lemma address_says : forall now pton ntop a, wf a -> is_v4 a = true -> address_text (show_addr (ieee now pton ntop) a) a.
Proof.
  intros now pton ntop a W V. destruct (v4_shape a W V) as (x & y & z & w & -> & X & Y & Z & W'). rewrite show_v4.
  assert (B : forall b, b < 256 -> byte_text (digits b) b). { intros b H. destruct (digits_decimal b 3 ltac:(change (10 ^ N.of_nat 3) with 1000; lia) ltac:(lia)) as (D1 & D2 & D3). unfold byte_text. auto. }
  constructor; now apply B.
Qed.
Lemma in_quotes_same : forall s, ~ In 34 s -> ~ In 124 s -> double_escape s [c_quote; chr "|"] = in_quotes s.
Proof.
  intros s H1 H2. rewrite escape_doubled by assumption. unfold doubled, in_quotes. induction s as [|c s IH]; [reflexivity|]. cbn [flat_map]. rewrite IH by (intros X; first [apply H1; now right | apply H2; now right]).
  destruct (c =? 34) eqn:E; [|reflexivity]. apply N.eqb_eq in E. subst. exfalso. apply H1. now left.
Qed.
Lemma readable_says : forall now pton ntop t v, readable t v -> exists s, render (ieee now pton ntop) ieee6 v = (s, Done) /\ says (ieee now pton ntop) t s v.
Proof.
  intros now pton ntop t v H. destruct v as [|b|z|n| | |z|x| |a|s| | | |].
  1: { exists []. split; [reflexivity|]. apply says_null. intros names ->. exact H. }
  all: destruct t; cbn [readable] in H; try contradiction; cbn [render].
  - eexists. split; [reflexivity|]. apply says_number. destruct b; constructor.
  - cbn [show]. unfold show_int. destruct (z =? - 2 ^ 63)%Z eqn:E; [lia|]. assert (P : (2 ^ 63 < 10 ^ N.of_nat 19)%N) by reflexivity. destruct (z <? 0)%Z eqn:S.
    + eexists. split; [reflexivity|]. destruct (digits_decimal (Z.to_N (- z)) 19 ltac:(lia) ltac:(lia)) as (D1 & D2 & D3). apply says_number.
      replace (DInt z) with (DInt (- Z.of_N (weigh (digits (Z.to_N (- z)))))) by (rewrite D3; f_equal; lia). apply says_minus; try assumption. rewrite D3. lia.
    + eexists. split; [reflexivity|]. destruct (digits_decimal (Z.to_N z) 19 ltac:(lia) ltac:(lia)) as (D1 & D2 & D3). apply says_number.
      replace (DInt z) with (DInt (Z.of_N (weigh (digits (Z.to_N z))))) by (rewrite D3; f_equal; lia). apply says_plus; try assumption. rewrite D3. lia.
  - eexists. split; [reflexivity|]. assert (P : (2 ^ 64 < 10 ^ N.of_nat 20)%N) by reflexivity. destruct (digits_decimal n 20 ltac:(lia) ltac:(lia)) as (D1 & D2 & D3). apply says_number.
    replace (DCount n) with (DCount (weigh (digits n))) by (now rewrite D3). apply says_count; try assumption. now rewrite D3.
  - destruct H as (H1 & H2 & H3). cbn [show ieee a_show_time]. destruct (whole_reads now pton ntop z [] H1 H2 H3 eq_refl) as (x & X1 & _). eexists. split; [rewrite X1; reflexivity|].
    apply says_time. intros r F. destruct (whole_reads now pton ntop z r H1 H2 H3 F) as (x' & X1' & X2'). congruence.
  - destruct H as (H1 & H2 & H3). eexists. split; [reflexivity|]. rewrite in_quotes_same by assumption. now apply says_quoted.
  - destruct H as [H1 H2]. eexists. split; [reflexivity|]. apply says_number. constructor. now apply address_says.
  - destruct H as [H1 H2]. eexists. split; [reflexivity|]. apply says_number. pose proof (sn_make_length s H1) as M. set (n := sn_length s) in *.
    assert (L : n <= 32). { destruct H1 as (_ & B & _ & _). subst n. unfold sn_length. rewrite H2. lia. }
    destruct (digits_decimal n 3 ltac:(change (10 ^ N.of_nat 3) with 1000; lia) ltac:(lia)) as (D1 & D2 & D3).
    replace (DSubnet s) with (DSubnet (sn_make (sn_net s) (weigh (digits n)))) by (now rewrite D3, M). apply says_subnet; try assumption; [apply address_says; [apply H1|exact H2]|]. now rewrite D3.
Qed.
Lemma cells_says : forall now pton ntop ts vs, Forall2 readable ts vs -> exists cs, cells (ieee now pton ntop) ieee6 vs = (flat_map (fun x => 44 :: x) cs, Done) /\ length cs = length ts /\ length vs = length ts /\
  forall i t c v, nth_error ts i = Some t -> nth_error cs i = Some c -> nth_error vs i = Some v -> says (ieee now pton ntop) t c v.
Proof.
  intros now pton ntop ts vs H. induction H as [|t v ts vs H1 H (cs & C1 & C2 & C3 & C4)].
  - exists []. split; [reflexivity|]. split; [reflexivity|]. split; [reflexivity|]. intros [|i] t c v X; discriminate.
  - destruct (readable_says now pton ntop t v H1) as (s & S1 & S2). exists (s :: cs). cbn [cells flat_map length]. rewrite S1, C1. split; [reflexivity|]. split; [now rewrite C2|]. split; [now rewrite C3|].
    intros [|i] t' c v' X Y Z; cbn [nth_error] in *; [congruence|eauto].
Qed.
Definition terminated (l : text) : text := l ++ [10].
Lemma rows_lines : forall now pton ntop name ts rws, plain name -> Forall (Forall2 readable ts) rws -> forall w, w_buf w = [] ->
  exists lines, rows (ieee now pton ntop) ieee6 name rws w = ({| w_last := w_last w; w_buf := []; w_out := w_out w ++ flat_map terminated lines |}, Done) /\
    Forall2 (line_says (ieee now pton ntop) (KString :: ts)) lines (map (cons (DString name)) rws).
Proof.
  intros now pton ntop name ts rws P H. induction H as [|row rws H1 H IH]; intros w B.
  - exists []. split; [|constructor]. cbn [rows flat_map]. rewrite app_nil_r. destruct w. cbn in *. now subst.
  - destruct (cells_says now pton ntop ts row H1) as (cs & C1 & C2 & C3 & C4). cbn [rows]. rewrite C1, B.
    destruct (IH {| w_last := w_last w; w_buf := []; w_out := w_out w ++ [] ++ name ++ flat_map (fun x => 44 :: x) cs ++ [10] |} eq_refl) as (lines & L1 & L2).
    exists ((name ++ flat_map (fun x => 44 :: x) cs) :: lines). split.
    + rewrite L1. cbn [w_last w_out flat_map app]. unfold terminated at 2. rewrite <- !app_assoc. reflexivity.
    + cbn [map]. constructor; [|exact L2]. exists (name :: cs). split; [reflexivity|]. cbn [length]. split; [now rewrite C2|]. split; [now rewrite C3|].
      intros [|i] t c v X Y Z; cbn [nth_error] in *; [|eauto]. injection X as <-. injection Y as <-. injection Z as <-. now apply says_plain.
Qed.
(** Events whose values are readable are exported and imported without loss, if the layout for the
    import has a column for the name of the type in front of the others. *)
Theorem C68_import : forall now pton ntop x ts size calls, plain (s_name x) -> Forall (Forall2 readable ts) (s_rows x) -> (0 < size)%nat ->
  Forall (fun c => (0 < fst c)%nat /\ snd c = []) calls -> (length (s_rows x) < length calls)%nat ->
  exists lines r, file (run (ieee now pton ntop) ieee6 [Slice x] (spawn 0)) = header (s_keys x) ++ flat_map terminated lines /\
    CsvModel.run (ieee now pton ntop) defaults (KString :: ts) size None calls (start lines) = (End, r) /\
    concat (r_slices r) = map (cons (DString (s_name x))) (s_rows x).
Proof.
  intros now pton ntop x ts size calls P R S C L.
  destruct (rows_lines now pton ntop (s_name x) ts (s_rows x) P R {| w_last := s_name x; w_buf := []; w_out := header (s_keys x) |} eq_refl) as (lines & L1 & L2).
  assert (LL : length lines = length (s_rows x)) by (rewrite <- (map_length (cons (DString (s_name x)))); clear -L2; induction L2; cbn; congruence).
  destruct (C64_complete (ieee now pton ntop) (KString :: ts) size calls lines _ ltac:(discriminate) S L2 C ltac:(lia)) as (r & R1 & R2). exists lines, r. split; [|now split].
  unfold run. cbn [fold_left]. unfold handle. cbn [spawn k_alive negb k_max k_processed k_writer]. unfold write. cbn [fresh w_last w_out w_buf app].
  destruct P as [P _]. destruct (s_name x) as [|c n] eqn:N; [congruence|]. cbn [bytes_eqb]. rewrite L1. reflexivity.
Qed.
Example C68_import_example : plain (chars "conn") /\
  Forall (Forall2 readable [KAddress; KString; KInt; KTime; KSubnet])
    [[DAddress (v4_prefix ++ [10; 0; 0; 1]); DString (chars "a, b"); DInt (-5); DTime 1709164800000000000; DNone];
     [DNone; DString []; DInt 7; DNone; DSubnet (sn_make (v4_prefix ++ [10; 0; 0; 0]) 8)] ].
Proof.
  split; [repeat split; discriminate || (cbn; intuition discriminate)|]. repeat constructor; try discriminate; try (cbn; intuition discriminate).
Qed.

(** * What is not so *)

(** Two different layouts with one name: the second has no line of keys, and its values are below
    the keys of the first. *)
Theorem C68_keys_refuted : exists a b, s_name a = s_name b /\ s_keys a <> s_keys b /\ Forall names_clean [a; b] /\ forall now pton ntop,
  lines_of (file (run (ieee now pton ntop) ieee6 [Slice a; Slice b] (spawn 0))) =
    Some [[Bare (chars "type"); Bare (chars "port")]; [Bare (chars "conn"); Bare (chars "22")]; [Bare (chars "conn"); Bare (chars "7")] ] /\
  s_keys b = [chars "bytes"] /\ s_rows b = [[DCount 7] ].
Proof.
  exists {| s_name := chars "conn"; s_keys := [chars "port"]; s_rows := [[DCount 22] ] |}, {| s_name := chars "conn"; s_keys := [chars "bytes"]; s_rows := [[DCount 7] ] |}.
  split; [reflexivity|]. split; [discriminate|]. split; [repeat constructor; discriminate|]. intros now pton ntop. split; [vm_compute; reflexivity|split; reflexivity].
Qed.
(** An event with a map ends the export: events of other types behind it are not written. *)
Theorem C68_map_refuted : exists a b, s_rows b = [[DBool true] ] /\ forall now pton ntop,
  let k := run (ieee now pton ntop) ieee6 [Slice a; Slice b] (spawn 0) in
  k_alive k = false /\ k_error k = Unsupported /\ lines_of (file k) = Some [[Bare (chars "type"); Bare (chars "headers")] ].
Proof.
  exists {| s_name := chars "http"; s_keys := [chars "headers"]; s_rows := [[DMap [] ] ] |}, {| s_name := chars "dns"; s_keys := [chars "ok"]; s_rows := [[DBool true] ] |}.
  split; [reflexivity|]. intros now pton ntop. split; [vm_compute; reflexivity|]. split; vm_compute; reflexivity.
Qed.
(** Maps inside of lists are dropped instead, with the elements behind them. *)
Theorem C68_inner_map_refuted : forall now pton ntop, render (ieee now pton ntop) ieee6 (DList [DMap []; DCount 1]) = ([], Done).
Proof. intros. vm_compute. reflexivity. Qed.
(** A bar in a string is doubled, so a standard reader finds another string. *)
Theorem C68_bar_refuted : exists s s', s <> s' /\ forall now pton ntop,
  lines_of (file (run (ieee now pton ntop) ieee6 [Slice {| s_name := chars "x"; s_keys := [chars "s"]; s_rows := [[DString s] ] |}] (spawn 0))) =
    Some [[Bare (chars "type"); Bare (chars "s")]; [Bare (chars "x"); Quoted s'] ].
Proof. exists (chars "a|b"), (chars "a||b"). split; [discriminate|]. intros. vm_compute. reflexivity. Qed.
(** Patterns are not quoted: one with a comma makes two fields. *)
Theorem C68_pattern_refuted : exists s, forall now pton ntop,
  lines_of (file (run (ieee now pton ntop) ieee6 [Slice {| s_name := chars "x"; s_keys := [chars "p"]; s_rows := [[DPattern s] ] |}] (spawn 0))) =
    Some [[Bare (chars "type"); Bare (chars "p")]; [Bare (chars "x"); Bare (chars "/a{1"); Bare (chars "2}/")] ].
Proof. exists (chars "a{1,2}"). intros. vm_compute. reflexivity. Qed.
(** A list of two strings is no field, and a standard reader rejects the file. *)
Theorem C68_list_refuted : exists a b, forall now pton ntop,
  lines_of (file (run (ieee now pton ntop) ieee6 [Slice {| s_name := chars "x"; s_keys := [chars "l"]; s_rows := [[DList [DString a; DString b] ] ] |}] (spawn 0))) = None.
Proof. exists (chars "a"), (chars "b"). intros. vm_compute. reflexivity. Qed.
(** The empty list is written as the list of the empty string, and a list of null as null. *)
Theorem C68_empty_list_refuted : forall A real6, render A real6 (DList []) = render A real6 (DList [DString [] ]) /\ render A real6 DNone = render A real6 (DList [DNone]).
Proof. intros. split; reflexivity. Qed.
(** The line of keys is not understood by the import: it starts with [type], and unless a record has
    a field of that name, there is no layout. *)
Theorem C68_own_header_refuted : forall schema keys, keys <> [] -> (forall n ks, In (Record_ n ks) schema -> ~ In (chars "type") ks) -> make_layout schema (chars "type" :: keys) = None.
Proof.
  intros schema keys NE H. induction schema as [|d schema IH]; [reflexivity|]. assert (IH' : make_layout schema (chars "type" :: keys) = None) by (apply IH; intros n ks I; apply (H n ks); now right).
  destruct d as [n ks|n]; cbn [make_layout].
  - assert (E : existsb (bytes_eqb (chars "type")) ks = false). { destruct (existsb _ ks) eqn:E; [|reflexivity]. apply existsb_exists in E. destruct E as (k & I & E). apply bytes_eqb_eq' in E. subst k. exfalso. exact (H n ks (or_introl eq_refl) I). }
    change (forallb (fun x => existsb (bytes_eqb x) ks) (chars "type" :: keys)) with (existsb (bytes_eqb (chars "type")) ks && forallb (fun x => existsb (bytes_eqb x) ks) keys). rewrite E. exact IH'.
  - destruct keys as [|k keys]; [congruence|exact IH'].
Qed.
Example C68_own_header_example : make_layout [Record_ (chars "conn") [chars "host"; chars "port"] ] [chars "host"; chars "port"] <> None /\
  make_layout [Record_ (chars "conn") [chars "host"; chars "port"] ] [chars "type"; chars "host"; chars "port"] = None.
Proof. split; vm_compute; congruence. Qed.
(** A quote in a string, a pattern and an enumeration are not read back. *)
Theorem C68_quote_refuted : exists s, forall now pton ntop, exists t, render (ieee now pton ntop) ieee6 (DString s) = (t, Done) /\
  fst (line_p (ieee now pton ntop) defaults [KString] t {| b_rows := []; b_cur := [] |}) = Invalid.
Proof. exists (chars "say ""hi"""). intros. eexists. split; vm_compute; reflexivity. Qed.
Theorem C68_pattern_import_refuted : exists s s', s <> s' /\ forall now pton ntop, exists t, render (ieee now pton ntop) ieee6 (DPattern s) = (t, Done) /\
  line_p (ieee now pton ntop) defaults [KPattern] t {| b_rows := []; b_cur := [] |} = (Good, {| b_rows := [[DPattern s'] ]; b_cur := [] |}).
Proof. exists (chars "a"), (chars "/a/"). split; [discriminate|]. intros. eexists. split; vm_compute; reflexivity. Qed.
Theorem C68_enum_refuted : exists names i, (i < length names)%nat /\ forall now pton ntop, exists t, render (ieee now pton ntop) ieee6 (DEnum (N.of_nat i)) = (t, Done) /\
  line_p (ieee now pton ntop) defaults [KEnum names] t {| b_rows := []; b_cur := [] |} = (Good, {| b_rows := [[DNone] ]; b_cur := [] |}).
Proof. exists [chars "tcp"; chars "udp"], 1%nat. split; [cbn; lia|]. intros. eexists. split; vm_compute; reflexivity. Qed.

Definition assumptions_csv_writer := (C68_file, C68_limit, C68_strings, C68_one_field, C68_string_lists, C68_import, C68_keys_refuted, C68_map_refuted, C68_inner_map_refuted, C68_bar_refuted,
  C68_pattern_refuted, C68_list_refuted, C68_empty_list_refuted, C68_own_header_refuted, C68_quote_refuted, C68_pattern_import_refuted, C68_enum_refuted).
Print Assumptions assumptions_csv_writer.
