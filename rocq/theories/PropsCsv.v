(** C64: lines of comma-separated values become events. *)
From Coq Require Import List ZArith NArith Bool Arith Lia String Ascii.
From Coq Require Import Init.Datatypes.
From Verif Require Import AddressModel DataModel EscapeModel LiteralModel LiteralProofs CsvModel CsvProofs.
Import ListNotations.
Open Scope N_scope.
Local Notation length := List.length.
Local Notation concat := List.concat.

(** Specification.
    - [says A t s v] ([CsvProofs]): the cell [s] stands for [v] in a column of type [t]. An empty
      cell is null, unless the column is an enumeration; digits are a number; a string stands for
      itself or is quoted; an enumeration has its name; a list is in brackets.
    - [line_says A ts l row]: the line [l] has one such cell for each column, with commas between.
    - [run]: any number of calls to the reader, each for any number of events, with any timeouts.
      [limit] is the number of events that the user asked for. *)

(** The consumer gets the events of a beginning of the file, one for each line and in order; those
    that it did not get yet are with the reader. No line is counted as invalid, and no slice is
    empty or larger than asked for. *)
Theorem C64_rows : forall A ts size limit calls lines rows, ts <> [] -> (0 < size)%nat -> Forall2 (line_says A ts) lines rows ->
  exists e r n, run A defaults ts size limit calls (start lines) = (e, r) /\ (n <= length lines)%nat /\ r_lines r = skipn n lines /\
    concat (r_slices r) ++ b_rows (r_builder r) = firstn n rows /\ b_cur (r_builder r) = [] /\
    Forall (fun x => (1 <= length x <= size)%nat) (r_slices r) /\ r_num r = n /\ r_invalid r = 0%nat /\
    (e = Enough \/ e = Stall \/ (e = End /\ concat (r_slices r) = rows)).
Proof.
  intros A ts size limit calls lines rows NE P H.
  destruct (run_ok A ts size limit NE P calls lines rows (start lines) H eq_refl) as (e & r & n & R & N1 & N2 & N3 & (C1 & C2 & C3) & N5 & N6 & N7).
  { unfold calm, fine. cbn. repeat split; [lia|constructor]. }
  exists e, r, n. unfold out in N3. cbn in N3, N5, N6. split; [exact R|]. split; [exact N1|]. split; [exact N2|]. split; [exact N3|]. split; [exact C1|]. split; [exact C3|]. split; [exact N5|]. split; [exact N6|].
  destruct N7 as [N7|[N7|(N7 & N8 & N9)] ]; [now left|right; now left|]. right. right. split; [exact N7|]. rewrite N9, app_nil_r in N3. rewrite N3, N8.
  assert (L : length lines = length rows) by (clear -H; induction H; cbn; congruence). rewrite L. apply firstn_all.
Qed.

(** If the input never stalls and the user sets no limit, the consumer gets all events of the file,
    after at most one call for each line and one more. *)
Theorem C64_complete : forall A ts size calls lines rows, ts <> [] -> (0 < size)%nat -> Forall2 (line_says A ts) lines rows ->
  Forall (fun c => (0 < fst c)%nat /\ snd c = []) calls -> (length lines < length calls)%nat ->
  exists r, run A defaults ts size None calls (start lines) = (End, r) /\ concat (r_slices r) = rows.
Proof.
  intros A ts size calls lines rows NE P H C L. assert (K : calm size (start lines)) by (unfold calm, fine; cbn; repeat split; [lia|constructor]).
  pose proof (run_complete A ts size NE P calls lines rows (start lines) H eq_refl K C L) as E.
  destruct (C64_rows A ts size None calls lines rows NE P H) as (e & r & n & R & _ & _ & _ & _ & _ & _ & _ & X). rewrite R in E. cbn [fst] in E. subst e.
  exists r. split; [exact R|]. destruct X as [X|[X|[_ X] ] ]; [discriminate|discriminate|exact X].
Qed.

(** If the input never stalls, no more events are imported than the user asked for. *)
Theorem C64_limit : forall A ts size limit calls lines rows, ts <> [] -> (0 < size)%nat -> Forall2 (line_says A ts) lines rows ->
  (forall c, In c calls -> ~ In Stalled (snd c)) ->
  (length (concat (r_slices (snd (run A defaults ts size (Some limit) calls (start lines))))) <= limit)%nat.
Proof.
  intros A ts size limit calls lines rows NE P H W. apply (run_limit A ts size limit NE P calls lines rows (start lines) H eq_refl); auto.
  - unfold calm, fine. cbn. repeat split; [lia|constructor].
  - unfold count. cbn. lia.
Qed.

(** One type of column takes no values at all: whatever a cell contains, a list of strings is
    not read, and the cell is null without being consumed. *)
Theorem C64_no_string_lists : forall A s, cell A defaults (KList KString) s = Ok DNone s.
Proof. intros A s. cbn [cell]. apply or_null_no. apply strings_none. split; discriminate. Qed.

(** * Where it fails *)

(** If input stalls, what the user asked for is exceeded: what the reader holds back is not
    counted. *)
Theorem C64_stalled_limit_refuted : exists ts size limit calls lines rows, forall A, Forall2 (line_says A ts) lines rows /\
  (limit < length (concat (r_slices (snd (run A defaults ts size (Some limit) calls (start lines))))))%nat.
Proof.
  exists [KCount], 10%nat, 2%nat, [(10, [Now; Stalled]); (10, [])]%nat, (map chars ["1"; "2"; "3"; "4"])%string, [ [DCount 1]; [DCount 2]; [DCount 3]; [DCount 4] ]. intros A. split.
  - assert (G : forall c v, 48 <= c <= 57 -> c - 48 = v -> line_says A [KCount] [c] [DCount v]).
    { intros c v H E. exists [ [c] ]. repeat split. intros [|[|i] ] t x y Ht Hx Hy; try discriminate. injection Ht as <-. injection Hx as <-. injection Hy as <-.
      apply says_number. replace v with (weigh [c]) by (cbn; lia). apply says_count; [split; [discriminate|repeat constructor; lia]|cbn; lia|cbn; lia]. }
    repeat constructor; apply G; cbn; lia.
  - vm_compute. lia.
Qed.

(** A line that is invalid leaves the cells behind that were read before the mistake: events are
    imported that no line contains. Here a file of two columns has the lines "1", "2,3" and "4". *)
Theorem C64_misaligned_refuted : exists ts lines, forall A, exists r, run A defaults ts 10 None [(10, [])]%nat (start lines) = (End, r) /\
  r_slices r = [ [ [DCount 1; DCount 2]; [DCount 3; DCount 4] ] ] /\ ~ In (chars "1,2") lines /\ ~ In (chars "3,4") lines.
Proof.
  exists [KCount; KCount], (map chars ["1"; "2,3"; "4"])%string. intros A. eexists. split; [vm_compute; reflexivity|]. split; [reflexivity|].
  split; intros H; cbn in H; repeat (destruct H as [H|H]; [discriminate|]); exact H.
Qed.
(** A line with too many cells is counted as invalid, and its event is imported nevertheless. *)
Theorem C64_surplus_refuted : exists ts lines, forall A, exists r, run A defaults ts 10 None [(10, [])]%nat (start lines) = (End, r) /\
  r_num r = 1%nat /\ r_invalid r = 1%nat /\ r_slices r = [ [ [DCount 1; DCount 2] ] ].
Proof. exists [KCount; KCount], [chars "1,2,3"]. intros A. eexists. split; [vm_compute; reflexivity|]. repeat split. Qed.
(** It also lets slices grow beyond the size asked for. *)
Theorem C64_size_refuted : exists ts lines, forall A, exists r, run A defaults ts 1 None [(10, [])]%nat (start lines) = (End, r) /\
  exists x, In x (r_slices r) /\ (1 < length x)%nat.
Proof.
  exists [KCount; KCount], (map chars ["1,2,3"; "4,5"])%string. intros A. eexists. split; [vm_compute; reflexivity|]. eexists. split; [left; reflexivity|cbn; lia].
Qed.
(** If the last line is too short, an assertion fails, and the events in front of it are lost. *)
Theorem C64_short_refuted : exists ts lines, forall A, exists r, run A defaults ts 10 None [(10, [])]%nat (start lines) = (Violation, r) /\ r_slices r = [] /\
  hd [] lines = chars "1,2".
Proof. exists [KCount; KCount], (map chars ["1,2"; "3"])%string. intros A. eexists. split; [vm_compute; reflexivity|]. split; reflexivity. Qed.
(** An empty cell in a column of an enumeration does not only make its line invalid: all lines
    behind are invalid as well. *)
Theorem C64_enum_refuted : exists ts lines, forall A, exists r, run A defaults ts 10 None [(10, [])]%nat (start lines) = (End, r) /\
  r_slices r = [] /\ r_invalid r = 4%nat /\ line_says A ts (chars "2,FOO") [DCount 2; DEnum 0] /\ tl lines = repeat (chars "2,FOO") 3.
Proof.
  exists [KCount; KEnum [chars "FOO"] ], (map chars ["1,"; "2,FOO"; "2,FOO"; "2,FOO"])%string. intros A. eexists. split; [vm_compute; reflexivity|]. split; [reflexivity|]. split; [reflexivity|]. split; [|reflexivity].
  exists [chars "2"; chars "FOO"]. split; [reflexivity|]. repeat split. intros [|[|[|i] ] ] t x y Ht Hx Hy; try discriminate; injection Ht as <-; injection Hx as <-; injection Hy as <-.
  - apply says_number, (says_count [50]); [split; [discriminate|repeat constructor; lia]|cbn; lia|cbn; lia].
  - apply (says_enum A [chars "FOO"] (chars "FOO") 0); [|reflexivity|intros []|lia]. split; [discriminate|split; [|discriminate] ]. intros H. cbn in H. repeat (destruct H as [H|H]; [discriminate|]). exact H.
Qed.
(** With a separator for lists that is not the separator of cells, strings swallow the cells
    behind them. *)
Theorem C64_separator_refuted : exists o ts l, o_set o <> [o_sep o] /\ forall A, fst (line_p A defaults ts l (r_builder (start []))) = Good /\ fst (line_p A o ts l (r_builder (start []))) = Invalid.
Proof.
  exists {| o_sep := 44; o_set := [59]; o_kvp := [61] |}, [KString; KString], (chars "a,b"). split; [discriminate|]. intros A. split; vm_compute; reflexivity.
Qed.
(** A whole number is no value for a column of reals. *)
Theorem C64_real_refuted : exists l, forall A, fst (line_p A defaults [KReal] l (r_builder (start []))) = Invalid /\ l = chars "4".
Proof. exists (chars "4"). intros A. split; vm_compute; reflexivity. Qed.

(** A file with two lines. *)
Example C64_example : forall A, exists rows, Forall2 (line_says A [KCount; KString; KList KInt; KAddress]) (map chars ["7,""a,b"",[1, -2],10.0.0.1"; ",x,,"]%string) rows /\
  rows = [ [DCount 7; DString (chars "a,b"); DList [DInt 1; DInt (-2)]; DAddress (v4_prefix ++ [10; 0; 0; 1])]; [DNone; DString (chars "x"); DNone; DNone] ].
Proof.
  intros A. eexists. split; [|reflexivity].
  assert (D : forall ds, ds <> [] -> forallb (fun c => (48 <=? c) && (c <=? 57)) ds = true -> decimal_digits ds).
  { intros ds H F. split; [exact H|]. apply Forall_forall. rewrite forallb_forall in F. intros x Hx. specialize (F x Hx). lia. }
  constructor; [|constructor; [|constructor] ].
  - exists (map chars ["7"; """a,b"""; "[1, -2]"; "10.0.0.1"])%string. split; [reflexivity|]. split; [reflexivity|]. split; [reflexivity|].
    intros [|[|[|[|[|i] ] ] ] ] t x y Ht Hx Hy; try discriminate; injection Ht as <-; injection Hx as <-; injection Hy as <-.
    + apply says_number, (says_count [55]); [apply D; [discriminate|reflexivity]|cbn; lia|cbn; lia].
    + apply (says_quoted A (chars "a,b")). repeat constructor; cbn; lia.
    + apply (says_list A KInt [chars "1"; chars " -2"] [DInt 1; DInt (-2)]); [exact Logic.I|]. constructor; [|constructor; [|constructor] ].
      * exists 0%nat, (chars "1"). split; [reflexivity|]. apply (says_int [49]); [apply D; [discriminate|reflexivity]|cbn; lia|cbn; lia].
      * exists 1%nat, (chars "-2"). split; [reflexivity|]. apply (says_minus [50]); [apply D; [discriminate|reflexivity]|cbn; lia|cbn; lia].
    + apply says_number, says_address, (says_v4 [49; 48] [48] [48] [49] 10 0 0 1); (split; [apply D; [discriminate|reflexivity]|repeat split; cbn; lia]).
  - exists (map chars [""; "x"; ""; ""])%string. split; [reflexivity|]. split; [reflexivity|]. split; [reflexivity|].
    intros [|[|[|[|[|i] ] ] ] ] t x y Ht Hx Hy; try discriminate; injection Ht as <-; injection Hx as <-; injection Hy as <-; try (apply says_null; discriminate).
    apply says_plain. split; [discriminate|split; [|discriminate] ]. intros [H|[] ]. discriminate.
Qed.

Definition assumptions_C64 := (C64_rows, C64_complete, C64_limit, C64_no_string_lists, C64_stalled_limit_refuted, C64_misaligned_refuted, C64_surplus_refuted,
  C64_size_refuted, C64_short_refuted, C64_enum_refuted, C64_separator_refuted, C64_real_refuted).
Print Assumptions assumptions_C64.
