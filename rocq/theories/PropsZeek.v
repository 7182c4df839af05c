(** C72: logs of Zeek become events, and events become logs. *)
From Coq Require Import List ZArith NArith Bool Arith Lia String Ascii ZifyBool ZifyNat ZifyN.
From Coq Require Import Init.Datatypes.
From Verif Require TypeProofs.
From Verif Require Import AddressModel AddressProofs DataModel EscapeModel LiteralModel LiteralProofs CsvModel ZeekModel ZeekProofs ZeekWriterProofs.
Import ListNotations.
Open Scope N_scope.
Local Notation length := List.length.
Local Notation concat := List.concat.

(** Specification.
    - [ahead A seconds None lines evs] ([ZeekProofs]): the lines are one or more logs with the header
      that Zeek writes, comments, lines with another number of cells than the header has columns, and
      rows; [evs] are the events of the rows, with the layout of the header above them.
    - [cell_says]: what a cell says. [plain]: what the text of a value says.
    - [run]: any number of calls to the reader, each for any number of events, with any timeouts.
    - [log_rows out] ([ZeekWriterProofs]): the rows in a file, each with the names and types that were
      announced last. [row_of]: such a row has the names and types of a slice and says its values. *)

(** The consumer gets the events of the log in order, each once and with the layout of its header, and
    all of them at the end of the input; no slice is empty or larger than asked for. *)
Theorem C72_read : forall A seconds size calls lines evs, (0 < size)%nat -> ahead A seconds None lines evs ->
  let '(e, r) := run A seconds size calls (start lines) in
  (e = Stall \/ e = End) /\ Forall (fun s => (1 <= length (snd s) <= size)%nat) (r_slices r) /\
  exists later, delivered r ++ later = evs /\ (e = End -> later = []).
Proof. intros A seconds size calls lines evs P H. apply run_ok; [exact P|]. left. repeat split. exact H. Qed.

(** If the input never stalls, the import ends with all events. *)
Theorem C72_complete : forall A seconds size calls lines evs, (0 < size)%nat -> ahead A seconds None lines evs ->
  Forall (fun c => (0 < fst c)%nat /\ snd c = []) calls -> (length lines < length calls)%nat ->
  exists r, run A seconds size calls (start lines) = (End, r) /\ delivered r = evs.
Proof.
  intros A seconds size calls lines evs P H F L. pose proof (C72_read A seconds size calls lines evs P H) as X. pose proof (run_complete A seconds size calls (start lines) F L) as Y.
  destruct (run A seconds size calls (start lines)) as [e r]. destruct X as ([->| ->] & _ & later & D & E); [now contradiction Y|]. exists r. split; [reflexivity|]. rewrite (E eq_refl), app_nil_r in D. exact D.
Qed.

(** Names of types that the export writes are read as the same types. *)
Theorem C72_types : forall k, writable k -> parse_type (kind_text k) = Some k.
Proof. intros k H. apply parse_named; [now apply kind_named|reflexivity]. Qed.

(** Exporting slices in any order and with any layouts: the file has each event once and in order, below
    a header with the names and types of its own layout, and each cell says the value. *)
Theorem C72_written : forall A seconds real6 seconds6 opened xs, (forall o, opened = Some o -> ~ In 10 o) -> Forall slice_ok xs ->
  exists w, write_all A real6 seconds6 opened xs fresh = (w, Done) /\ Forall2 (row_of A seconds) (events xs) (log_rows (c_out (o_child w))).
Proof.
  intros A seconds real6 seconds6 opened xs O F. destruct (all_told A seconds real6 seconds6 opened O xs [] fresh F (told_fresh A seconds)) as (w & E & T).
  exists w. split; [exact E|]. now apply told_rows.
Qed.

(** Exported rows can be imported again, below a header of Zeek, and are the same events, unless a string
    is empty, is a dash or "(empty)", or has a backslash, or a list has a null. *)
Theorem C72_again : forall A seconds real6 seconds6 opened x h size calls w, (forall o, opened = Some o -> ~ In 10 o) -> slice_ok x ->
  heading_ok h -> zeeks h -> map snd (s_columns x) = kinds h -> Forall (Forall2 readable (kinds h)) (s_rows x) -> (0 < size)%nat ->
  write A real6 seconds6 opened x fresh = (w, Done) ->
  let lines := heading_lines h ++ body (c_out (o_child w)) in
  Forall (fun c => (0 < fst c)%nat /\ snd c = []) calls -> (length lines < length calls)%nat ->
  exists r, run A seconds size calls (start lines) = (End, r) /\ delivered r = map (fun vs => (layout h, vs)) (s_rows x).
Proof.
  intros A seconds real6 seconds6 opened x h size calls w O X HO Z E R P W lines F L. apply C72_complete; try assumption.
  unfold lines. apply ahead_head; [exact HO|]. rewrite (body_rows A seconds real6 seconds6 opened x w O X W). apply rows_ahead; [exact Z|apply HO|].
  destruct X as (_ & _ & _ & X). revert R X. clear. intros R X. induction X as [|vs rs (Q & K) X IH]; constructor; [|apply IH; exact (Forall_inv_tail R)]. split; [exact (Forall_inv R)|exact K].
Qed.

(** ** What does not hold *)

(** No export can be imported as it is: the import does not take the header of any exported file. *)
Theorem C72_header_refuted : forall opened x rest, (forall g r, parse_header (header opened x ++ rest) <> HLog g r) /\
  forall A seconds size calls, r_slices (snd (run A seconds size calls (start (header opened x ++ rest)))) = [].
Proof.
  intros opened x rest. split; [apply export_header|]. intros A seconds size calls.
  assert (G : forall r, r_slices r = [] -> r_log r = None -> r_lines r = header opened x ++ rest -> r_slices (snd (run A seconds size calls r)) = []); [|now apply G].
  induction calls as [|[events waits] calls IH]; intros r R G L; [exact R|]. cbn [run]. unfold read. destruct (r_done r); [exact R|]. rewrite G.
  destruct (hd Now waits); [| |now apply IH]; (destruct (parse_header (r_lines r)) as [g q| |] eqn:E; [rewrite L in E; now apply export_header in E|exact R|exact R]).
Qed.

(** The header that Zeek writes, for witnesses. *)
Definition wrap (cols : list (text * text * kind)) : heading :=
  {| h_sep := 9; h_hi := 48; h_lo := 57; h_set := 44; h_empty := chars "(empty)"; h_unset := chars "-"; h_path := chars "conn"; h_open := chars "2021"; h_columns := cols |}.
Definition tabs (l : list string) : text := join_text [9] (map chars l).
Definition two : list (text * text * kind) := [(chars "uid", chars "string", ZString); (chars "n", chars "count", ZCount)].

(** An event whose first string begins with a number sign is exported as a comment. *)
Theorem C72_hash_refuted : exists x, s_rows x <> [] /\ Forall (Forall2 printable (map snd (s_columns x))) (s_rows x) /\ forall A real6 seconds6, exists w, write A real6 seconds6 None x fresh = (w, Done) /\ log_rows (c_out (o_child w)) = [].
Proof.
  exists {| s_name := chars "zeek.x"; s_columns := [(chars "uid", ZString)]; s_rows := [ [DString (chars "#1")] ] |}. split; [discriminate|]. split.
  - repeat constructor; cbn; try discriminate.
  - intros A real6 seconds6. eexists. split; [vm_compute; reflexivity|]. vm_compute. reflexivity.
Qed.
(** Backslashes are not escaped: different strings have the same text. *)
Theorem C72_backslash_refuted : exists s t, s <> t /\ forall A real6 seconds6, render A real6 seconds6 (DString s) = render A real6 seconds6 (DString t).
Proof. exists [9], (chars "\x09"). split; [discriminate|]. intros. reflexivity. Qed.
(** A backslash at the end of a string that Zeek logs makes the import record an empty string. *)
Theorem C72_unescaped_refuted : exists lines, forall A seconds, exists r, run A seconds 10 [(10, [])]%nat (start (heading_lines (wrap two) ++ lines)) = (End, r) /\
  lines = [tabs ["C:\"; "7"]%string] /\ map snd (delivered r) = [ [DString []; DCount 7] ].
Proof. exists [tabs ["C:\"; "7"]%string]. intros A seconds. eexists. split; [vm_compute; reflexivity|]. split; [reflexivity|]. vm_compute. reflexivity. Qed.
(** The empty string is exported as an empty cell, which ends the import of all lines behind it ... *)
Theorem C72_empty_refuted : exists rows, forall A seconds real6 seconds6, exists r,
  run A seconds 10 [(10, [])]%nat (start (heading_lines (wrap two) ++ map (fun vs => fst (row A real6 seconds6 true vs)) rows)) = (Failed, r) /\
  rows = [ [DString []; DCount 7]; [DString (chars "a"); DCount 8] ] /\ r_slices r = [].
Proof. exists [ [DString []; DCount 7]; [DString (chars "a"); DCount 8] ]. intros A seconds real6 seconds6. eexists. split; [vm_compute; reflexivity|]. split; [reflexivity|]. vm_compute. reflexivity. Qed.
(** ... or, in the last column, leaves out the event. *)
Theorem C72_empty_last_refuted : exists rows, forall A seconds real6 seconds6, exists r,
  run A seconds 10 [(10, [])]%nat (start (heading_lines (wrap (rev two)) ++ map (fun vs => fst (row A real6 seconds6 true vs)) rows)) = (End, r) /\
  rows = [ [DCount 7; DString [] ]; [DCount 8; DString (chars "a")] ] /\ map snd (delivered r) = [ [DCount 8; DString (chars "a")] ].
Proof. exists [ [DCount 7; DString [] ]; [DCount 8; DString (chars "a")] ]. intros A seconds real6 seconds6. eexists. split; [vm_compute; reflexivity|]. split; [reflexivity|]. vm_compute. reflexivity. Qed.
(** The string that is a dash comes back as null, and a null in a list comes back as a string. *)
Theorem C72_dash_refuted : exists rows, forall A seconds real6 seconds6, exists r,
  run A seconds 10 [(10, [])]%nat (start (heading_lines (wrap [(chars "a", chars "string", ZString); (chars "b", chars "vector[string]", ZList ZString)]) ++ map (fun vs => fst (row A real6 seconds6 true vs)) rows)) = (End, r) /\
  rows = [ [DString (chars "-"); DList [DNone; DString (chars "x")] ] ] /\ map snd (delivered r) = [ [DNone; DList [DString (chars "-"); DString (chars "x")] ] ].
Proof. exists [ [DString (chars "-"); DList [DNone; DString (chars "x")] ] ]. intros A seconds real6 seconds6. eexists. split; [vm_compute; reflexivity|]. split; [reflexivity|]. vm_compute. reflexivity. Qed.
(** One cell that is not a value of its type ends the import: rows behind it are lost. *)
Theorem C72_cell_refuted : exists lines good evs, forall A seconds, ahead A seconds None (heading_lines (wrap two) ++ good) evs /\ evs <> [] /\
  (exists bad, lines = bad :: good) /\
  exists r, run A seconds 10 [(10, []); (10, [])]%nat (start (heading_lines (wrap two) ++ lines)) = (Failed, r) /\ delivered r = [].
Proof.
  exists [tabs ["a"; "x"]%string; tabs ["b"; "7"]%string], [tabs ["b"; "7"]%string], [(layout (wrap two), [DString (chars "b"); DCount 7])]. intros A seconds. split; [|split; [discriminate|split; [eexists; reflexivity|] ] ].
  - apply ahead_head.
    + split; [exists 0, 9; repeat split; now right|]. split; [cbn; intuition discriminate|]. repeat (split; [reflexivity || discriminate|]).
      repeat constructor; cbn; intuition discriminate.
    + apply ahead_row with (ts := map chars ["b"; "7"]%string).
      * repeat split; try discriminate. repeat constructor; cbn; intuition discriminate.
      * constructor; [|constructor; [|constructor] ].
        -- apply cell_plain; [discriminate|discriminate|]. apply plain_string; [discriminate|]. repeat constructor; discriminate.
        -- apply cell_plain; [discriminate|discriminate|]. apply (plain_count A seconds ZCount [55]); [now left|reflexivity|cbn; lia|reflexivity].
      * constructor.
  - eexists. split; [vm_compute; reflexivity|]. vm_compute. reflexivity.
Qed.
(** A value in a column of patterns ends the import or, if there are rows already, violates an assertion. *)
Theorem C72_pattern_refuted : exists cols one more, (forall A seconds, exists r, run A seconds 10 [(10, [])]%nat (start (heading_lines (wrap cols) ++ [one])) = (Failed, r)) /\
  (forall A seconds, exists r, run A seconds 10 [(10, [])]%nat (start (heading_lines (wrap cols) ++ [more; one])) = (Violation, r)).
Proof.
  exists [(chars "n", chars "count", ZCount); (chars "p", chars "pattern", ZPattern)], (tabs ["1"; "/x/"]%string), (tabs ["1"; "-"]%string). split; intros A seconds; eexists; vm_compute; reflexivity.
Qed.
(** A separator that is no number ends the process by an exception. *)
Theorem C72_separator_refuted : exists lines, parse_header lines = HCrash /\ hd [] lines = chars "#separator \xzz".
Proof. exists [chars "#separator \xzz"]. split; reflexivity. Qed.
(** In a directory, layouts with one name share a file, and the header is that of the first. *)
Theorem C72_shared_refuted : exists x y, s_columns x <> s_columns y /\ forall A real6 seconds6, exists f c, write_all_dir A real6 seconds6 None [x; y] [] = (f, Done) /\ find_file (s_name y) f = Some c /\
  map (fun r => fst (fst r)) (log_rows (c_out c)) = [map fst (s_columns x); map fst (s_columns x)].
Proof.
  exists {| s_name := chars "zeek.x"; s_columns := [(chars "a", ZCount)]; s_rows := [ [DCount 1] ] |}, {| s_name := chars "zeek.x"; s_columns := [(chars "b", ZCount)]; s_rows := [ [DCount 2] ] |}.
  split; [discriminate|]. intros A real6 seconds6. eexists. eexists. split; [vm_compute; reflexivity|]. split; [vm_compute; reflexivity|]. vm_compute. reflexivity.
Qed.
(** The name that the export gives to enumerations is no type for the import. *)
Theorem C72_enum_refuted : parse_type (kind_text ZEnum) = None /\ parse_type (kind_text (ZList ZEnum)) = None.
Proof. split; reflexivity. Qed.
(** A map ends the export, and what was printed of its row stays in front of the row that is written next. *)
Theorem C72_map_refuted : exists x y, forall A real6 seconds6, exists w w', write A real6 seconds6 None x fresh = (w, Unprintable) /\ write A real6 seconds6 None y w = (w', Done) /\
  s_rows y = [ [DCount 2; DNone] ] /\ last (log_rows (c_out (o_child w'))) ([], [], []) = ([chars "a"; chars "b"], [chars "count"; chars "map"], map chars ["1"; "2"; "-"]%string).
Proof.
  exists {| s_name := chars "x"; s_columns := [(chars "a", ZCount); (chars "b", ZMap)]; s_rows := [ [DCount 1; DMap [] ] ] |}, {| s_name := chars "x"; s_columns := [(chars "a", ZCount); (chars "b", ZMap)]; s_rows := [ [DCount 2; DNone] ] |}.
  intros A real6 seconds6. eexists. eexists. split; [vm_compute; reflexivity|]. split; [vm_compute; reflexivity|]. split; [reflexivity|]. vm_compute. reflexivity.
Qed.

(** ** Examples *)

(** A log with an empty list, a null, an escaped tab, an address, an interval without a value and a comment. *)
Definition conn : list (text * text * kind) :=
  [(chars "uid", chars "string", ZString); (chars "id", chars "addr", ZAddress); (chars "tags", chars "set[string]", ZList ZString); (chars "bytes", chars "count", ZCount); (chars "delta", chars "int", ZInt)].
Example C72_read_example : forall A seconds, ahead A seconds None
  (heading_lines (wrap conn) ++ [tabs ["C\x09a"; "10.0.0.1"; "(empty)"; "-"; "-12"]%string; tabs ["D"; "-"; "x,y"; "42"; "7"]%string; chars "#close"; tabs ["too"; "short"]%string])
  [(layout (wrap conn), [DString [67; 9; 97]; DAddress (v4_prefix ++ [10; 0; 0; 1]); DList []; DNone; DInt (-12)]);
   (layout (wrap conn), [DString [68]; DNone; DList [DString [120]; DString [121] ]; DCount 42; DInt 7])].
Proof.
  intros A seconds. apply ahead_head.
  - split; [exists 0, 9; repeat split; now right|]. split; [cbn; intuition discriminate|]. repeat (split; [reflexivity || discriminate|]).
    repeat apply Forall_cons; try apply Forall_nil; (split; [|split]); try (split; [discriminate|cbn; intuition discriminate]); try constructor.
    apply (named_set ZString (chars "string")). constructor.
  - apply ahead_row with (ts := map chars ["C\x09a"; "10.0.0.1"; "(empty)"; "-"; "-12"]%string).
    + repeat split; try discriminate. repeat constructor; cbn; intuition discriminate.
    + repeat apply row_cons; try apply row_nil.
      * apply cell_plain; [discriminate|discriminate|]. apply plain_string; [discriminate|]. apply bytes_plain; [discriminate|]. apply (bytes_hex 48 57 0 9); [now left|now left|]. repeat constructor; discriminate.
      * apply cell_plain; [discriminate|discriminate|]. change (map chars ["10.0.0.1"]%string) with [chars "10.0.0.1"]. replace (chars "10.0.0.1") with (show_addr A (v4_prefix ++ [10; 0; 0; 1])) by (now rewrite show_v4).
        apply plain_address; [|reflexivity]. split; [reflexivity|]. repeat constructor.
      * apply (cell_empty A seconds (wrap conn) (ZList ZString)); discriminate.
      * apply (cell_unset A seconds (wrap conn)).
      * apply cell_plain; [discriminate|discriminate|]. apply (plain_int A seconds [45] [49; 50]); [now right; right|reflexivity|cbn; lia|cbn; lia].
    + apply ahead_row with (ts := map chars ["D"; "-"; "x,y"; "42"; "7"]%string).
      * repeat split; try discriminate. repeat constructor; cbn; intuition discriminate.
      * repeat apply row_cons; try apply row_nil.
        -- apply cell_plain; [discriminate|discriminate|]. apply plain_string; [discriminate|]. repeat constructor; discriminate.
        -- apply (cell_unset A seconds (wrap conn)).
        -- apply (cell_list A seconds (wrap conn) ZString [ [120]; [121] ] [DString [120]; DString [121] ]); try discriminate.
           ++ repeat constructor; try discriminate.
           ++ repeat constructor; cbn; intuition discriminate.
        -- apply cell_plain; [discriminate|discriminate|]. apply (plain_count A seconds ZCount [52; 50]); [now left|reflexivity|cbn; lia|reflexivity].
        -- apply cell_plain; [discriminate|discriminate|]. apply (plain_int A seconds [] [55]); [now left|reflexivity|cbn; lia|cbn; lia].
      * apply ahead_comment; [reflexivity|intros t; discriminate|]. apply ahead_odd with (ts := map chars ["too"; "short"]%string); [|discriminate|constructor].
        repeat split; try discriminate. repeat constructor; cbn; intuition discriminate.
Qed.
Example C72_complete_example : Forall (fun c => (0 < fst c)%nat /\ snd c = @nil wait) (repeat (1%nat, []) 20) /\ (List.length (heading_lines (wrap conn)) + 4 < 20)%nat.
Proof. split; [repeat constructor|cbn; lia]. Qed.
Example C72_types_example : writable (ZList (ZList ZPort)) /\ kind_text (ZList (ZList ZPort)) = chars "vector[vector[port]]".
Proof. split; reflexivity || exact I. Qed.
(** Two slices with different layouts; the second is also one that can be imported again. *)
Definition first_slice : slice := {| s_name := chars "zeek.x"; s_columns := [(chars "a", ZCount)]; s_rows := [ [DCount 1]; [DNone] ] |}.
Definition second_slice : slice :=
  {| s_name := chars "zeek.conn"; s_columns := [(chars "uid", ZString); (chars "tags", ZList ZString); (chars "d", ZInt)];
     s_rows := [ [DString (chars "a,b"); DList [DString (chars "x"); DString [10] ]; DInt (-5)]; [DString (chars "u"); DList []; DNone] ] |}.
Lemma no_hash : forall v, match v with DString (35 :: _) => false | DList (DString (35 :: _) :: _) => false | _ => true end = true -> ~ hash v.
Proof. intros v E (s & [->|(l & ->)]); discriminate. Qed.
Example C72_written_example : Forall slice_ok [first_slice; second_slice; first_slice].
Proof.
  assert (F : slice_ok first_slice).
  { split; [discriminate|]. split; [cbn; intuition discriminate|]. split; [apply Forall_cons; [|constructor]; cbn; intuition discriminate|].
    repeat apply Forall_cons; try apply Forall_nil; (split; [repeat constructor|intros v E; injection E as <-; now apply no_hash]). }
  apply Forall_cons; [exact F|apply Forall_cons; [|apply Forall_cons; [exact F|constructor] ] ].
  split; [discriminate|]. split; [cbn; intuition discriminate|]. split; [repeat apply Forall_cons; try apply Forall_nil; cbn; intuition discriminate|].
  repeat apply Forall_cons; try apply Forall_nil; (split; [|intros v E; injection E as <-; now apply no_hash]); repeat apply Forall2_cons; try apply Forall2_nil;
    try (left; repeat constructor; discriminate); try (right; eexists; eexists; split; [reflexivity|split; [reflexivity|] ]; repeat constructor; discriminate).
Qed.
Example C72_again_example : heading_ok (wrap [(chars "uid", chars "string", ZString); (chars "tags", chars "set[string]", ZList ZString); (chars "d", chars "int", ZInt)]) /\
  zeeks (wrap [(chars "uid", chars "string", ZString); (chars "tags", chars "set[string]", ZList ZString); (chars "d", chars "int", ZInt)]) /\
  Forall (Forall2 readable [ZString; ZList ZString; ZInt]) (s_rows second_slice).
Proof.
  assert (N : forall v, v <> DString [] -> v <> DString (chars "-") -> v <> DString (chars "(empty)") -> ~ In v [DString []; DString (chars "-"); DString (chars "(empty)")]) by (cbn; intuition congruence).
  split; [|split; [repeat split|] ].
  - split; [exists 0, 9; repeat split; now right|]. split; [cbn; intuition discriminate|]. repeat (split; [reflexivity || discriminate|]).
    repeat apply Forall_cons; try apply Forall_nil; (split; [|split]); try (split; [discriminate|cbn; intuition discriminate]); try constructor. apply (named_set ZString (chars "string")). constructor.
  - repeat apply Forall_cons; try apply Forall_nil; repeat apply Forall2_cons; try apply Forall2_nil; try (now left).
    + right. left. split; [repeat constructor; discriminate|]. split; [discriminate|]. apply N; discriminate.
    + right. right. exists ZString, [DString (chars "x"); DString [10] ]. split; [reflexivity|]. split; [reflexivity|].
      repeat apply Forall_cons; try apply Forall_nil; (split; [repeat constructor; discriminate|]; split; [discriminate|]; apply N; discriminate).
    + right. left. split; [cbn; lia|]. split; [discriminate|]. apply N; discriminate.
    + right. left. split; [repeat constructor; discriminate|]. split; [discriminate|]. apply N; discriminate.
    + right. right. exists ZString, []. split; [reflexivity|]. split; [reflexivity|constructor].
Qed.

(** A cell of a count is taken only as a whole: it is the mark for null, the mark for an empty value, or
    digits and nothing else; the same holds for booleans. *)
Lemma take_all : forall f n s d r, take f n s = (d, r) -> s = d ++ r /\ forallb f d = true /\ (length d <= n)%nat.
Proof.
  induction n as [|n IH]; intros s d r H; cbn [take] in H; [inversion H; subst; repeat split; cbn; lia|].
  destruct s as [|c s]; [inversion H; subst; repeat split; cbn; lia|]. destruct (f c) eqn:C; [|inversion H; subst; repeat split; cbn; lia].
  destruct (take f n s) as [d' r'] eqn:E. inversion H; subst. destruct (IH _ _ _ E) as (-> & F & L). cbn. rewrite C, F. repeat split. lia.
Qed.
Theorem C72_trailing : forall A seconds g t v,
  (cell A seconds g ZCount t = Got v -> t = g_unset g \/ t = g_empty g \/ ((1 <= length t <= 20)%nat /\ forallb isdigit t = true /\ v = DCount (num t mod 2 ^ 64))) /\
  (cell A seconds g ZBool t = Got v -> t = g_unset g \/ t = g_empty g \/ (t = chars "T" /\ v = DBool true) \/ (t = chars "F" /\ v = DBool false)).
Proof.
  intros A seconds g t v. split; intros H; unfold cell in H;
    (destruct (bytes_eqb t (g_unset g)) eqn:E1; [left; now apply TypeProofs.bytes_eqb_iff|]); (destruct (bytes_eqb t (g_empty g)) eqn:E2; [right; left; now apply TypeProofs.bytes_eqb_iff|]); right; right.
  - unfold cell_p in H. cbn [value_p] in H. unfold act, bind, ret, udec in H. destruct (take isdigit 20 t) as [d r] eqn:T. apply take_all in T as (-> & F & L).
    destruct (Nat.ltb_spec (length d) 1); [discriminate|]. destruct r; [|discriminate]. rewrite app_nil_r. inversion H; subst. auto.
  - unfold cell_p in H. cbn [value_p] in H. unfold alt, act, bind, ret, ch, sat in H. destruct t as [|c r]; [discriminate|].
    destruct (chr "T" =? c) eqn:C1; [apply N.eqb_eq in C1; subst c; destruct r; [inversion H; subst; left; auto|discriminate]|].
    destruct (chr "F" =? c) eqn:C2; [apply N.eqb_eq in C2; subst c; destruct r; [inversion H; subst; right; auto|discriminate]|]. discriminate.
Qed.
Example C72_trailing_example : forall A seconds, cell A seconds (log_of (wrap two)) ZCount (chars "12") = Got (DCount 12) /\ cell A seconds (log_of (wrap two)) ZCount (chars "12x") = Wrong.
Proof. intros. split; vm_compute; reflexivity. Qed.

Definition assumptions_Zeek := (C72_read, C72_trailing, C72_complete, C72_types, C72_written, C72_again, C72_header_refuted, C72_hash_refuted, C72_backslash_refuted,
  C72_unescaped_refuted, C72_empty_refuted, C72_empty_last_refuted, C72_dash_refuted, C72_cell_refuted, C72_pattern_refuted, C72_separator_refuted, C72_shared_refuted, C72_enum_refuted, C72_map_refuted).
Print Assumptions assumptions_Zeek.
