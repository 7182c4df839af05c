(** C73: each line of JSON becomes an event of its layout, or is counted.

    Specifications, in [JsonReaderProofs]:
    - [says l ev i u]: what a line says, in terms of a decoder for RFC 8259, the selector and the
      conversion of values: perhaps an event, and whether it counts as invalid or unknown.
    - [told ls evs i u]: what lines say one after the other.
    - [rows_in k evs]: the rows of a layout among events; [got k ss]: the rows of a layout in slices. *)
From Coq Require Import List ZArith NArith Bool Arith Lia String Ascii Permutation ZifyBool ZifyNat ZifyN.
From Coq Require Import Init.Datatypes Floats.SpecFloat.
From Verif Require Import AddressModel AddressProofs DataModel DataProofs EscapeModel LiteralModel CalendarModel CalendarTextProofs FloatIntProofs CsvModel CsvProofs CsvWriterModel CsvWriterProofs PropsCsvWriter.
From Verif Require Import JsonModel JsonProofs PropsJson JsonReaderModel JsonReaderProofs.
Import ListNotations.
Local Notation length := List.length.
Open Scope nat_scope.

(** ** C73: all lines *)

(** What lines say is one thing. *)
Theorem C73_told : forall key columns_of choose row_of ls,
  exists evs i u, told key columns_of choose row_of ls evs i u /\ forall evs' i' u', told key columns_of choose row_of ls evs' i' u' -> evs' = evs /\ i' = i /\ u' = u.
Proof.
  intros key columns_of choose row_of ls. destruct (told_total key columns_of choose row_of ls) as (evs & i & u & T). exists evs, i, u. split; [exact T|].
  intros evs' i' u' T'. exact (told_fun key columns_of choose row_of ls _ _ _ T' _ _ _ T).
Qed.

(** For all lines, selectors, sizes, schedules of reads and reports: the input is consumed from the
    front; the slices have, for each layout, the rows of the lines that were consumed, in order and
    once, apart from fewer than [size] that are held back; the reports count the lines that were
    invalid or of unknown layout; slices are neither empty nor too large. At the end of the input
    nothing is held back and everything is reported. *)
Theorem C73_lines : forall key eqb columns_of choose row_of order, (forall a b : key, eqb a b = true <-> a = b) -> (forall l, Permutation (order l) l) ->
  forall size lines calls, 0 < size -> let '(e, r, reports) := run key eqb columns_of choose row_of order size calls (start key lines) in
  exists n evs i u held, n <= length lines /\ told key columns_of choose row_of (firstn n lines) evs i u /\ j_lines key r = skipn n lines /\
  (forall k, got key eqb k (j_slices key r) ++ held k = rows_in key eqb k evs /\ length (held k) < size) /\
  Forall (fun s => 1 <= length (snd s) <= size) (j_slices key r) /\
  list_sum (map fst reports) <= i /\ list_sum (map snd reports) <= u /\
  (e = End -> n = length lines /\ (forall k, held k = []) /\ list_sum (map fst reports) = i /\ list_sum (map snd reports) = u).
Proof.
  intros key eqb columns_of choose row_of order Q O size lines calls P.
  assert (F : fits key eqb size (start key lines)) by (split; [constructor|intros k; cbn; lia]).
  pose proof (run_ok key eqb Q columns_of choose row_of order O size P calls (start key lines) F) as H.
  destruct (run key eqb columns_of choose row_of order size calls (start key lines)) as [ [e r] reports]. cbn [j_lines start j_invalid j_unknown] in H.
  destruct H as (n & evs & i & u & T & N & A & B & C & (D & D') & E & _ & G). exists n, evs, i, u, (fun k => rows_of key eqb k (j_builders key r)).
  split; [exact N|]. split; [exact T|]. split; [exact E|]. split; [intros k; split; [exact (A k)|apply D']|]. split; [exact D|]. split; [lia|]. split; [lia|].
  intros X. destruct (G X) as (G1 & G2 & G3 & G4). split; [exact G1|]. split; [exact G2|]. lia.
Qed.

(** If input does not stall, a call delivers all events that were read so far. *)
Theorem C73_flush : forall key eqb columns_of choose row_of order, (forall a b : key, eqb a b = true <-> a = b) -> (forall l, Permutation (order l) l) ->
  forall size lines calls e0 r0 reports events waits e r, 0 < size -> run key eqb columns_of choose row_of order size calls (start key lines) = (e0, r0, reports) ->
  read key eqb columns_of choose row_of order size events waits r0 = (e, r) -> e <> Stall ->
  exists n evs i u, told key columns_of choose row_of (firstn n lines) evs i u /\ j_lines key r = skipn n lines /\ forall k, got key eqb k (j_slices key r) = rows_in key eqb k evs.
Proof.
  intros key eqb columns_of choose row_of order Q O size lines calls e0 r0 reports events waits e r P H K N.
  assert (F : fits key eqb size (start key lines)) by (split; [constructor|intros k; cbn; lia]).
  pose proof (run_ok key eqb Q columns_of choose row_of order O size P calls (start key lines) F) as Z. rewrite H in Z. cbn [j_lines start] in Z.
  destruct Z as (n & evs & i & u & T & _ & A & _ & _ & D & E & _).
  destruct (loop_ok key eqb Q columns_of choose row_of order O size P (j_lines key r0) events waits r0 D) as (m & evs' & i' & u' & T' & _ & Z). unfold read in K. rewrite K in Z.
  destruct Z as (A' & _ & _ & _ & E' & G & _). exists (n + m), (evs ++ evs'), (i + i'), (u + u'). split; [|split].
  - rewrite E in T'. replace (firstn (n + m) lines) with (firstn n lines ++ firstn m (skipn n lines)); [now apply told_app|].
    clear. revert lines. induction n as [|n IHn]; intros [|x l]; cbn; try reflexivity; [now rewrite firstn_nil|]. f_equal. apply IHn.
  - rewrite E', E. clear. revert lines. induction n as [|n IHn]; intros [|x l]; cbn [skipn plus]; try reflexivity; [now rewrite skipn_nil|apply IHn].
  - intros k. specialize (A k). specialize (A' k). unfold full in A, A'. rewrite (G N k), app_nil_r in A'. rewrite A', rows_in_app. f_equal. exact A.
Qed.

(** If no input is late, more calls than lines reach the end. *)
Theorem C73_complete : forall key eqb columns_of choose row_of order size lines calls, Forall (fun c => exists n, c = Read n [] /\ 0 < n) calls -> length lines < length calls ->
  fst (fst (run key eqb columns_of choose row_of order size calls (start key lines))) = End.
Proof. intros key eqb columns_of choose row_of order size lines calls F L. now apply run_complete. Qed.

(** ** C73: the layout by a field *)

Definition no_point (s : text) : Prop := ~ In 46%N s.
Lemma at_dot_none : forall s, at_dot s = None <-> no_point s.
Proof.
  unfold no_point. induction s as [|c s IH]; cbn [at_dot]; [split; [intros _ []|reflexivity]|]. destruct (N.eqb_spec c 46) as [->|N].
  - split; [discriminate|intros H; exfalso; apply H; now left].
  - destruct (at_dot s) as [p|]; cbn [option_map]; split; try discriminate; intros H.
    + exfalso. assert (X : Some p = None); [|discriminate]. apply IH. intros I. apply H. now right.
    + intros [X|X]; [contradiction|]. now apply (proj1 IH eq_refl).
    + reflexivity.
Qed.
Lemma at_dot_some : forall s a b, at_dot s = Some (a, b) <-> s = a ++ 46%N :: b /\ no_point a.
Proof.
  unfold no_point. induction s as [|c s IH]; intros a b; cbn [at_dot].
  - split; [discriminate|]. intros (E & _). now destruct a.
  - destruct (N.eqb_spec c 46) as [->|N].
    + split; [intros E; injection E as <- <-; split; [reflexivity|intros []]|]. intros (E & H). destruct a as [|x a]; [now injection E as <-|]. injection E as <- _. exfalso. apply H. now left.
    + split.
      * destruct (at_dot s) as [ [a' b']|]; [|discriminate]. cbn [option_map fst snd]. intros E. injection E as <- <-. destruct (proj1 (IH a' b') eq_refl) as (-> & H). split; [reflexivity|]. intros [X|X]; [contradiction|now apply H].
      * intros (E & H). destruct a as [|x a]; [injection E as -> _; contradiction|]. injection E as <- ->. rewrite (proj2 (IH a b)); [reflexivity|]. split; [reflexivity|]. intros I. apply H. now right.
Qed.
Lemma two_parts_spec : forall name a b, two_parts name = Some (a, b) <-> no_point a /\ no_point b /\ (name = a ++ 46%N :: b /\ b <> [] \/ name = a ++ 46%N :: b ++ [46%N]).
Proof.
  intros name a b. unfold two_parts. split.
  - destruct (at_dot name) as [ [a' r]|] eqn:E; [|discriminate]. apply at_dot_some in E. destruct E as (-> & H). destruct (at_dot r) as [ [c d]|] eqn:D.
    + destruct d as [|x d]; [|discriminate]. intros X. injection X as <- <-. apply at_dot_some in D. destruct D as (-> & K). auto.
    + apply at_dot_none in D. destruct r as [|x r]; [discriminate|]. intros X. injection X as <- <-. split; [exact H|]. split; [exact D|]. left. split; [reflexivity|discriminate].
  - intros (A & B & [(-> & N)| ->]).
    + rewrite (proj2 (at_dot_some _ a b)) by auto. rewrite (proj2 (at_dot_none b) B). now destruct b.
    + rewrite (proj2 (at_dot_some _ a (b ++ [46%N]))) by auto. rewrite (proj2 (at_dot_some (b ++ [46%N]) b [])); [reflexivity|]. auto.
Qed.
Lemma field_types_in : forall B prefix (schema : list (text * B)) n l, In (n, l) (field_types prefix schema) <-> exists name, In (name, l) schema /\ two_parts name = Some (prefix, n).
Proof.
  intros B prefix schema n l. unfold field_types.
  assert (G : forall m, In (n, l) (fold_left (fun m t => match two_parts (fst t) with Some (a, b) => if bytes_eqb a prefix then (b, snd t) :: m else m | None => m end) schema m) <-> In (n, l) m \/ exists name, In (name, l) schema /\ two_parts name = Some (prefix, n)).
  { induction schema as [|[name x] schema IH]; intros m; cbn [fold_left fst snd].
    - split; [now left|]. intros [H|(name & [] & _)]. exact H.
    - rewrite IH. clear IH. destruct (two_parts name) as [ [a b]|] eqn:E; [destruct (bytes_eqb a prefix) eqn:F|].
      + apply bytes_eqb_spec in F. subst a. cbn [In]. split.
        * intros [ [X|X]|(y & X & Y)]; [injection X as <- <-; right; exists name; auto|now left|right; exists y; auto].
        * intros [X|(y & [X|X] & Y)]; [now left; right|injection X as <- <-; left; left; congruence|right; exists y; auto].
      + cbn [In]. split.
        * intros [X|(y & X & Y)]; [now left|right; exists y; auto].
        * intros [X|(y & [X|X] & Y)]; [now left|injection X as <- <-; exfalso; rewrite E in Y; injection Y as -> _; rewrite bytes_eqb_refl in F; discriminate|right; exists y; auto].
      + cbn [In]. split.
        * intros [X|(y & X & Y)]; [now left|right; exists y; auto].
        * intros [X|(y & [X|X] & Y)]; [now left|injection X as <- <-; exfalso; congruence|right; exists y; auto]. }
  rewrite G. split; [intros [ []|H]; exact H|now right].
Qed.

(** An object is read with a layout only if its field is a string that names it behind the prefix;
    and with the layout that is so named if there is one, if names are distinct and none ends in a
    point. Otherwise its layout is unknown. *)
Theorem C73_field : forall B field prefix (schema : list (text * B)) o, NoDup (map fst schema) -> (forall x, ~ In (x ++ [46%N]) (map fst schema)) -> no_point prefix ->
  forall l, field_select field prefix schema o = Some l <-> exists n, at_key field o = Some (JStr n) /\ n <> [] /\ no_point n /\ In (prefix ++ 46%N :: n, l) schema.
Proof.
  intros B field prefix schema o U V W l. unfold field_select.
  assert (T : forall n l, In (n, l) (field_types prefix schema) <-> n <> [] /\ no_point n /\ In (prefix ++ 46%N :: n, l) schema).
  { intros n x. rewrite field_types_in. split.
    - intros (name & I & E). apply two_parts_spec in E. destruct E as (_ & E & [(-> & N)| ->]); [auto|]. exfalso. apply (V (prefix ++ 46%N :: n)). rewrite <- app_assoc. exact (in_map fst _ _ I).
    - intros (N & E & I). eexists. split; [exact I|]. apply two_parts_spec. auto. }
  split.
  - destruct (at_key field o) as [j|]; [|discriminate]. destruct j as [| | |s| |]; try discriminate. intros H. destruct (find _ _) as [ [n x]|] eqn:E; [|discriminate]. apply find_some in E. destruct E as (E & F). cbn in H, F. injection H as ->. apply bytes_eqb_spec in F. subst s.
    exists n. split; [reflexivity|]. now apply T.
  - intros (n & -> & H). apply T in H. destruct (find _ _) as [ [m x]|] eqn:E.
    + apply find_some in E. destruct E as (E & F). cbn in F. apply bytes_eqb_spec in F. subst m. cbn. f_equal. apply T in E. apply T in H. destruct E as (_ & _ & E), H as (_ & _ & H).
      clear - U E H. induction schema as [|[y z] schema IH]; [contradiction|]. cbn in U. inversion U as [|? ? U1 U2]; subst. destruct E as [E|E], H as [H|H].
      * congruence.
      * injection E as -> ->. exfalso. apply U1. exact (in_map fst _ _ H).
      * injection H as -> ->. exfalso. apply U1. exact (in_map fst _ _ E).
      * now apply IH.
    + exfalso. pose proof (find_none _ _ E _ H) as X. cbn in X. now rewrite bytes_eqb_refl in X.
Qed.

(** ** C73: exported events are imported again *)

Definition column_dec : forall a b : column, {a = b} + {a <> b}.
Proof. decide equality. apply list_eq_dec. apply list_eq_dec. apply N.eq_dec. Defined.
Fixpoint lfield_dec (a b : lfield) {struct a} : {a = b} + {a <> b}.
Proof. decide equality; [apply column_dec|apply list_eq_dec, N.eq_dec|apply list_eq_dec, lfield_dec|apply list_eq_dec, N.eq_dec]. Defined.
Definition same_layout (a b : list lfield) : bool := if list_eq_dec lfield_dec a b then true else false.
Lemma same_layout_eq : forall a b, same_layout a b = true <-> a = b.
Proof. intros a b. unfold same_layout. destruct (list_eq_dec lfield_dec a b); split; congruence. Qed.
Definition leaves (cs : list (text * column)) : list lfield := map (fun c => Leaf (fst c) (snd c)) cs.

(** Events of several layouts, which are told apart by the names of their columns, are exported as
    lines; when these have been imported, whatever the sizes and the schedule, each layout has its
    events again, in order, and no line was counted as invalid or unknown. *)
Theorem C73_again : forall now pton ntop numeric double_of nis layouts order size calls (events : list (list (text * column) * list data)), 0 < size -> (forall l, Permutation (order l) l) ->
  (forall a b, In a layouts -> In b layouts -> Permutation (map lname a) (map lname b) -> a = b) ->
  Forall (fun e => In (leaves (fst e)) layouts /\ orderly_layout (leaves (fst e)) /\ Forall2 (reread false) (map snd (fst e)) (snd e)) events ->
  exists lines, Forall2 (fun e t => JsonModel.line (ieee now pton ntop) numeric false (leaves (fst e)) (snd e) = Some t) events lines /\
  forall r reports, run _ same_layout flatten (select layouts) (add_row (ieee now pton ntop) double_of nis) order size calls (start _ lines) = (End, r, reports) ->
  (forall l, got _ same_layout l (j_slices _ r) = map snd (filter (fun e => same_layout l (leaves (fst e))) events)) /\ list_sum (map fst reports) = 0 /\ list_sum (map snd reports) = 0.
Proof.
  intros now pton ntop numeric double_of nis layouts order size calls events P O U F.
  assert (G : exists lines, Forall2 (fun e t => JsonModel.line (ieee now pton ntop) numeric false (leaves (fst e)) (snd e) = Some t) events lines /\
    told _ flatten (select layouts) (add_row (ieee now pton ntop) double_of nis) lines (map (fun e => (leaves (fst e), snd e)) events) 0 0).
  { induction F as [|e events (I & W & R) F (lines & L1 & L2)]; [exists []; split; constructor|].
    destruct (C69_choice now pton ntop numeric layouts (fst e) (snd e) double_of nis I U W R) as (t & o & T1 & T2 & T3 & T4). exists (t :: lines). split; [now constructor|].
    apply (told_cons _ _ _ _ t lines (Some (leaves (fst e), snd e)) (map (fun e => (leaves (fst e), snd e)) events) 0 0 0 0); [|exact L2].
    apply (says_event _ _ _ _ t o (leaves (fst e)) (snd e) false); assumption. }
  destruct G as (lines & G1 & G2). exists lines. split; [exact G1|]. intros r reports H.
  pose proof (C73_lines _ same_layout flatten (select layouts) (add_row (ieee now pton ntop) double_of nis) order same_layout_eq O size lines calls P) as K. rewrite H in K.
  destruct K as (n & evs & i & u & held & _ & T & _ & A & _ & _ & _ & Z). destruct (Z eq_refl) as (-> & Z1 & Z2 & Z3). rewrite firstn_all in T.
  destruct (told_fun _ _ _ _ _ _ _ _ T _ _ _ G2) as (-> & -> & ->). split; [|auto]. intros l. destruct (A l) as (A1 & _). rewrite (Z1 l), app_nil_r in A1. rewrite A1. unfold rows_in.
  clear. induction events as [|e events IH]; [reflexivity|]. cbn [map filter fst snd]. destruct (same_layout l (leaves (fst e))); cbn [map snd]; now rewrite IH.
Qed.

(** ** Examples *)

Definition two_layouts : list (list lfield) := [leaves [(chars "a", KCount)]; leaves [(chars "a", KCount); (chars "b", KString)]].
Definition the_run now pton ntop double_of nis (size : nat) (calls : list call) (lines : list text) :=
  run _ same_layout flatten (select two_layouts) (add_row (ieee now pton ntop) double_of nis) (@rev _) size calls (start _ lines).
Definition the_lines : list text := [chars "{""a"": 1}"; chars "{""a"": 2, ""b"": ""x""}"; chars "{"; chars "{""c"": 3}"; chars "[]"; chars "{""b"": null, ""a"": 3}"].
(** Two layouts, an invalid line, one of unknown layout and one that is no object; a batch timeout, a
    stall and a report on the way. *)
Example C73_lines_example : forall now pton ntop double_of nis,
  (let '(e, r, reports) := the_run now pton ntop double_of nis 2 [Read 3 [Now; Late]; Read 9 [Now; Now; Now; Stalled]; Report; Read 9 []] the_lines in (e, j_slices _ r, reports)) =
  (End, [(leaves [(chars "a", KCount)], [[DCount 1]]); (leaves [(chars "a", KCount); (chars "b", KString)], [[DCount 2; DString (chars "x")]; [DCount 3; DNone]])], [(1, 1); (1, 0)]).
Proof. intros. vm_compute. reflexivity. Qed.
Example C73_order_example : forall l : list (list lfield * rows), Permutation (rev l) l.
Proof. intros l. apply Permutation_sym, Permutation_rev. Qed.
Example C73_flush_example : forall now pton ntop double_of nis, exists r0 r,
  the_run now pton ntop double_of nis 9 [Read 9 [Now; Now; Stalled]] the_lines = (Stall, r0, []) /\ j_slices _ r0 = [] /\
  read _ same_layout flatten (select two_layouts) (add_row (ieee now pton ntop) double_of nis) (@rev _) 9 9 [Late] r0 = (Timeout, r) /\ length (j_slices _ r) = 2.
Proof. intros. eexists. eexists. split; [vm_compute; reflexivity|]. split; [reflexivity|]. split; [vm_compute; reflexivity|reflexivity]. Qed.
Example C73_complete_example : Forall (fun c => exists n, c = Read n [] /\ 0 < n) (repeat (Read 1 []) 7) /\ length the_lines < length (repeat (Read 1 []) 7).
Proof. split; [|cbn; lia]. apply Forall_forall. intros c I. apply repeat_spec in I. exists 1. split; [exact I|lia]. Qed.
Example C73_field_example : let schema := [(chars "suricata.dns", 1); (chars "zeek.dns", 2); (chars "suricata.flow", 3)] in
  NoDup (map fst schema) /\ (forall x, ~ In (x ++ [46%N]) (map fst schema)) /\ no_point (chars "suricata") /\
  field_select (chars "event_type") (chars "suricata") schema [(chars "id", JNull); (chars "event_type", JStr (chars "dns"))] = Some 1 /\
  field_select (chars "event_type") (chars "suricata") schema [(chars "event_type", JStr (chars "http"))] = None.
Proof.
  cbv zeta. split; [repeat constructor; cbn; intuition discriminate|]. split.
  - intros x I. assert (G : Forall (fun s => last s 0%N <> 46%N) [chars "suricata.dns"; chars "zeek.dns"; chars "suricata.flow"]) by (repeat constructor; cbn; discriminate).
    rewrite Forall_forall in G. apply (G _ I). apply last_last.
  - split; [intros I; cbn in I; intuition discriminate|]. split; reflexivity.
Qed.
Example C73_again_example : let events := [([(chars "a", KCount)], [DCount 1]); ([(chars "a", KCount); (chars "b", KString)], [DCount 2; DString (chars "x")]); ([(chars "a", KCount)], [DNone])] in
  (forall a b, In a two_layouts -> In b two_layouts -> Permutation (map lname a) (map lname b) -> a = b) /\
  Forall (fun e => In (leaves (fst e)) two_layouts /\ orderly_layout (leaves (fst e)) /\ Forall2 (reread false) (map snd (fst e)) (snd e)) events.
Proof.
  cbv zeta. split.
  - intros a b [<-|[<-|[] ] ] [<-|[<-|[] ] ] H; try reflexivity; apply Permutation_length in H; discriminate.
  - assert (W : orderly_layout (leaves [(chars "a", KCount)]) /\ orderly_layout (leaves [(chars "a", KCount); (chars "b", KString)])).
    { unfold orderly_layout, leaves. repeat match goal with |- _ /\ _ => split | |- True => exact I | |- NoDup _ => constructor | |- Forall _ _ => constructor | |- orderly _ => cbn; unfold no_dot | |- _ => cbn; intuition discriminate end. }
    destruct W as (W1 & W2). constructor; [|constructor; [|constructor; [|constructor] ] ]; cbn [fst snd map].
    + split; [now left|]. split; [exact W1|]. constructor; [reflexivity|constructor].
    + split; [now right; left|]. split; [exact W2|]. constructor; [reflexivity|]. constructor; [exact I|constructor].
    + split; [now left|]. split; [exact W1|]. constructor; [exact I|constructor].
Qed.

(** ** Not all lines *)

(** A line with a value that cannot be converted counts as invalid, and yet its event is imported. *)
Theorem C73_convert_refuted : exists l : text, forall now pton ntop double_of nis,
  (let '(e, r, reports) := the_run now pton ntop double_of nis 2 [Read 9 []] [l] in (e, j_slices _ r, reports)) =
  (End, [(leaves [(chars "a", KCount); (chars "b", KString)], [[DNone; DString (chars "x")]])], [(1, 0)]).
Proof. exists (chars "{""a"": [], ""b"": ""x""}"). intros. vm_compute. reflexivity. Qed.
(** Events of different layouts are not delivered in the order of their lines. *)
Theorem C73_order_refuted : exists lines : list text, forall now pton ntop double_of nis,
  (let '(e, r, _) := the_run now pton ntop double_of nis 2 [Read 9 []] lines in (e, map (fun s => length (fst s)) (j_slices _ r))) = (End, [2; 1]) /\
  option_map (fun j => match j with JObj o => length o | _ => 0 end) (document (hd [] lines)) = Some 1.
Proof. exists [chars "{""a"": 1}"; chars "{""a"": 2, ""b"": ""x""}"; chars "{""a"": 3, ""b"": ""y""}"]. intros. split; vm_compute; reflexivity. Qed.
(** A layout whose name has another point behind the prefix is never found by the field. *)
Theorem C73_point_refuted : forall B field prefix n (l : B) o, no_point prefix -> In 46%N n -> last n 0%N <> 46%N -> field_select field prefix [(prefix ++ 46%N :: n, l)] o = None.
Proof.
  intros B field prefix n l o W I L. destruct (field_select field prefix _ o) as [x|] eqn:E; [|reflexivity]. exfalso.
  apply C73_field in E; [|repeat constructor; intros []| |exact W].
  - destruct E as (m & _ & _ & M & [E|[] ]). injection E as E _. apply app_inv_head in E. injection E as ->. contradiction.
  - intros y [X|[] ]. cbn [fst] in X. destruct (@exists_last _ n) as (n' & z & ->); [intros ->; contradiction|]. rewrite last_last in L.
    change (prefix ++ 46%N :: n' ++ [z]) with (prefix ++ (46%N :: n') ++ [z]) in X. rewrite app_assoc in X. apply app_inj_tail in X. destruct X as (_ & X). contradiction.
Qed.
(** Its conditions are met. *)
Example C73_point_example : no_point (chars "suricata") /\ In 46%N (chars "http.body") /\ last (chars "http.body") 0%N <> 46%N.
Proof. split; [intros I; cbn in I; intuition discriminate|]. split; [cbn; tauto|discriminate]. Qed.

Definition assumptions_JsonReader := (C73_told, C73_lines, C73_flush, C73_complete, C73_field, C73_again, C73_convert_refuted, C73_order_refuted, C73_point_refuted).
Print Assumptions assumptions_JsonReader.
