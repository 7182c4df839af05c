(** C65: the lines of an input do not depend on how it arrives. *)
From Coq Require Import List NArith Bool Arith Lia.
From Verif Require Import LineModel LineProofs.
Import ListNotations.
Open Scope N_scope.

(** The bytes of the input, and the condition on silences, in their own words. *)
Definition content (i : input) : text := flat_map (fun o => match o with Some c => [c] | None => [] end) i.
(** Wherever the input falls silent right behind a carriage return, the next byte is a line feed or
    there is none. *)
Definition no_silence_behind_cr (i : input) : Prop :=
  forall a b, i = a ++ Some 13 :: None :: b -> content b = [] \/ exists r, content b = 10 :: r.

Lemma content_bytes : forall i, content i = bytes i.
Proof. induction i as [|[c|] r IH]; cbn; [reflexivity|f_equal; exact IH|exact IH]. Qed.
Lemma calm_of : forall i, no_silence_behind_cr i -> calm i.
Proof.
  induction i as [|[c|] r IH]; intros H; cbn [calm]; auto.
  - split.
    + intros ->. destruct r as [|[d|] r']; auto.
      destruct (H [] r' eq_refl) as [E|[x E]]; rewrite content_bytes in E; rewrite E; auto.
    + apply IH. intros a b ->. apply (H (Some c :: a) b). reflexivity.
  - apply IH. intros a b ->. apply (H (None :: a) b). reflexivity.
Qed.

(** The reader comes to an end and has delivered exactly the non-empty lines of the file, in order:
    [parts] are lines, each with the line feeds and carriage returns that end it, and [last] is the
    rest of the file behind them. *)
Theorem C65_lines : forall parts last i,
  (forall l e, In (l, e) parts -> l <> [] /\ ~ In 10 l /\ ~ In 13 l /\ e <> [] /\ incl e [10; 13]) ->
  ~ In 10 last -> ~ In 13 last ->
  content i = concat (map (fun p => fst p ++ snd p) parts) ++ last ->
  no_silence_behind_cr i ->
  exists n, forall m, (n <= m)%nat ->
    collect m (open i) = Some (map fst parts ++ match last with [] => [] | _ => [last] end).
Proof.
  intros parts last i P L1 L2 E C. exists (3 * length i + 4)%nat. intros m Hm.
  rewrite collect_open; [|apply calm_of; exact C|lia].
  rewrite <- content_bytes, E, <- flat_map_concat_map. rewrite lines_parts.
  - reflexivity.
  - intros [l e] I. destruct (P l e I) as [A [B [B' [D F]]]]. cbn [fst snd]. split; [split; [exact A|]|split; [|exact D]].
    + intros c Ic. split; intros ->; contradiction.
    + intros c Ic. destruct (F c Ic) as [<-|[<-|[]]]; auto.
  - destruct last as [|c l]; [left; reflexivity|right]. split; [discriminate|].
    intros x Ix. split; intros ->; contradiction.
Qed.

(** Two ways in which the same bytes arrive lead to the same lines, for any bytes. *)
Theorem C65_arrival : forall i j, content i = content j -> no_silence_behind_cr i -> no_silence_behind_cr j ->
  exists n ls, forall m, (n <= m)%nat -> collect m (open i) = Some ls /\ collect m (open j) = Some ls.
Proof.
  intros i j E Ci Cj. exists (3 * length i + 3 * length j + 4)%nat, (lines_from [] (bytes i)). intros m Hm.
  split; rewrite collect_open; try lia; try (apply calm_of; assumption); [reflexivity|].
  rewrite <- !content_bytes, E. reflexivity.
Qed.

(** A file without silences is always cut at each of the three kinds of line ends. *)
Theorem C65_file : forall t : text, no_silence_behind_cr (map Some t) /\ content (map Some t) = t.
Proof.
  intros t. split.
  - intros a b E. exfalso. revert t E. induction a as [|x a IH]; intros t E.
    + destruct t as [|c [|d t]]; discriminate.
    + destruct t as [|c t]; [discriminate|]. cbn in E. injection E as _ E. exact (IH t E).
  - induction t as [|c t IH]; [reflexivity|]. cbn. f_equal. exact IH.
Qed.

(** Without the condition the claim fails: the line before a carriage return counts as unfinished
    when the input falls silent, and the next line is appended to it ("abc" and "def" become one). *)
Theorem C65_cr_refuted : exists i j n,
  content i = content j /\
  collect n (open i) = Some [[97; 98; 99; 100; 101; 102]] /\
  collect n (open j) = Some [[97; 98; 99]; [100; 101; 102]].
Proof.
  exists [Some 97; Some 98; Some 99; Some 13; None; Some 100; Some 101; Some 102; Some 13],
         [Some 97; Some 98; Some 99; Some 13; Some 100; Some 101; Some 102; Some 13], 60%nat.
  repeat split; reflexivity.
Qed.

(** "ab\r" silence "\n" silence "\n" "c" silence silence "d\ne": the conditions hold. *)
Definition wire_example : input :=
  [Some 97; Some 98; Some 13; None; Some 10; None; Some 10; Some 99; None; None; Some 100; Some 10; Some 101].
Example C65_example :
  content wire_example = concat (map (fun p => fst p ++ snd p) [([97; 98], [13; 10; 10]); ([99; 100], [10])]) ++ [101] /\
  no_silence_behind_cr wire_example /\
  collect 60 (open wire_example) = Some [[97; 98]; [99; 100]; [101]].
Proof.
  repeat split.
  intros a b E. unfold wire_example in E.
  destruct a as [|a0 a]; [discriminate|]. destruct a as [|a1 a]; [discriminate|].
  destruct a as [|a2 a]; [injection E as _ _ <-; right; exists [10; 99; 100; 10; 101]; reflexivity|].
  exfalso. cbn in E. injection E as _ _ _ E.
  do 10 (destruct a as [|? a]; [discriminate E|injection E as _ E]).
  destruct a; discriminate E.
Qed.

Definition assumptions_Line := (C65_lines, C65_arrival, C65_file, C65_cr_refuted, C65_example).
Print Assumptions assumptions_Line.
